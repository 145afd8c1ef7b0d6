(** Lyman-alpha optical depths on a grid: lyman_alpha_transmission.py. *)
From Coq Require Import List Arith Reals.
Import ListNotations.
Local Open Scope R_scope.

(** Lines 181-182 and 304-305: a field whose smallest value exceeds one is taken as a density and turned
    into an overdensity. [cells] lists all values of the grid (not empty). *)
Definition total (l : list R) : R := fold_right Rplus 0 l.
Definition mean (l : list R) : R := total l / INR (length l).
Fixpoint least (l : list R) : R := match l with [] => 0 | [v] => v | v :: r => Rmin v (least r) end.
Definition overdensity (cells : list R) : list R := if Rlt_dec 1 (least cells) then map (fun v => v / mean cells - 1) cells else cells.

(** [tau_nu_lyA_FGPA] (138-190), one cell: [c] collects the factors that do not depend on the cell
    (lines 184, 187-188: oscillator strength, wavelength, 1/H(z), (1+z)^3, mean hydrogen density). *)
Definition tau_cell (c xHI dn : R) : R := c * (xHI * (1 + dn)).

(** Line 320 on one line of sight: [tauA[-h:]], [tauA], [tauA[:h or h+1]] with [h = int(los_cells/2)].
    A start of [-0] is [0], so the whole line is put in front when [h = 0]. *)
Definition padded (L : nat) (t : list R) : list R :=
  let n := length t in let h := Nat.div2 L in
  skipn (if Nat.eqb h 0 then 0 else n - h) t ++ t ++ firstn (if Nat.even L then h else S h) t.
(** Line 322: [exp_tauA_padded[:,:,i:i+los_cells].sum()/los_cells] over the padded line. *)
Definition window (L i : nat) (t : list R) : list R := firstn L (skipn i (padded L t)).
Definition transmission (L i : nat) (t : list R) : R := total (map (fun v => exp (- v)) (window L i t)) / INR L.
(** Lines 322-324. *)
Definition effective (L : nat) (t : list R) : list R := map (fun i => - ln (transmission L i t)) (seq 0 (length t)).

(** The choice of the optical depth (307-318). [tau_nu_lyA_Smith2015] is not defined anywhere; other names
    leave [tauA] unassigned. *)
Inductive method := Smith2015 | Fgpa | OtherMethod.
Inductive error := NameError | UnboundLocal.
(** [tau_nu_lyA_los] (247-325) for a cube of side [n]: line 296-297 swaps the axes of [xHI] only. *)
Definition cube := nat -> nat -> nat -> R.
Definition swapaxes (a : nat) (x : cube) : cube := match a with 0%nat => fun i j k => x k j i | 1%nat => fun i j k => x i k j | _ => x end.
Definition los_line (n : nat) (x : cube) (i j : nat) : list R := map (fun k => x i j k) (seq 0 n).
Definition tau_los (c : R) (m : method) (L n los_axis : nat) (xHI dn : cube) : cube + error :=
  match m with
  | Smith2015 => inr NameError
  | OtherMethod => inr UnboundLocal
  | Fgpa => let x := swapaxes los_axis xHI in
      inl (fun i j k => nth k (effective L (los_line n (fun i j k => tau_cell c (x i j k) (dn i j k)) i j)) 0)
  end.
