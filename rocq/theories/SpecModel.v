(** Binned spectra of two fields, the anisotropy ratio and the dimensionless spectrum: power_spectrum.py:257-377, 437-445, 536-614. Real
    numbers for wave numbers and power; [None] is nan. *)
From Coq Require Import List Arith Reals Lra Lia Bool.
From Verif Require Import RLib KGridModel FourierModel.
Import ListNotations.
Local Open Scope R_scope.

Definition rleb (a b : R) : bool := if Rle_dec a b then true else false.
Definition rltb (a b : R) : bool := if Rlt_dec a b then true else false.

(** [_get_k] (448-476): the wave number of a cell; in one dimension it keeps its sign. *)
Definition k_of (shape : list nat) (box : list R) (i : list nat) : R :=
  match shape, box, i with
  | [n], [L], [x] => get_k_1d n L x
  | [n1; n2], [L1; L2], [x; y] => sqrt (get_k_1d n1 L1 x ^ 2 + get_k_1d n2 L2 y ^ 2)
  | [n1; n2; n3], [L1; L2; L3], [x; y; z] => get_kmag_3d n1 n2 n3 L1 L2 L3 x y z
  | _, _, _ => 0
  end.
(** [get_kbins] (441-445): the box is taken from the shape of [array] even when [k] is given; [None] is an exception. *)
Definition get_kbins {K A} (shape_of : A -> list nat) (k_from : A -> K) (make : K -> list R) (k : option K) (array : option A) : option (list R) :=
  match k, array with
  | _, None => None
  | Some v, Some _ => Some (make v)
  | None, Some a => Some (make (k_from a))
  end.

(** Bin [b] of [np.histogram]: closed below, open above, the last one closed. *)
Definition in_bin (edges : list R) (b : nat) (k : R) : bool :=
  rleb (nth b edges 0) k && (if (S (S b) =? length edges)%nat then rleb k (nth (S b) edges 0) else rltb k (nth (S b) edges 0)).
(** The cells of a bin, and the mean over them: nan for an empty bin. *)
Definition cells (sel : list nat -> bool) (shape : list nat) : list (list nat) := filter sel (indices shape).
Definition bin_mean (cs : list (list nat)) (f : list nat -> R) : option R :=
  match cs with [] => None | _ => Some (rsum (map f cs) / INR (length cs)) end.
Definition bin_1d (shape : list nat) (box edges : list R) (b : nat) : list (list nat) := cells (fun i => in_bin edges b (k_of shape box i)) shape.

(** [power_spectrum_1d] (137-175) and [cross_power_spectrum_1d] (257-289) through [radial_average] (98-134). *)
Definition power_1d (shape : list nat) (box edges : list R) (x : array) (b : nat) : option R :=
  bin_mean (bin_1d shape box edges b) (power_spectrum_nd shape box x).
Definition cross_power_1d (shape : list nat) (box edges : list R) (x1 x2 : array) (b : nat) : option R :=
  bin_mean (bin_1d shape box edges b) (cross_power_spectrum_nd shape box x1 x2).

(** [_get_mu] (479-499): the line-of-sight cosine of a cell, nan below |k| = 0.001. *)
Definition mu_of (absolute : bool) (los : nat) (shape : list nat) (box : list R) (i : list nat) : option R :=
  let k := k_of shape box i in
  let kl := get_k_3d (nth los shape 0%nat) (nth los box 0) (nth los i 0%nat) in
  if rltb k 0.001 then None else Some (if absolute then Rabs (kl / k) else kl / Rabs k).
(** The cells of one bin of [mu_binning] (380-435); both kinds of bins are open above, the last ones too. *)
Definition half_open (edges : list R) (b : nat) (v : R) : bool := rleb (nth b edges 0) v && rltb v (nth (S b) edges 0).
Definition good (exclude : bool) (los : nat) (shape i : list nat) : bool :=
  match shape, i with [n1; n2; n3], [x; y; z] => if exclude then get_nonzero_idx n1 n2 n3 los x y z else true | _, _ => true end.
Definition bin_mu (absolute exclude : bool) (los : nat) (shape : list nat) (box mubins kbins : list R) (m b : nat) : list (list nat) :=
  cells (fun i => half_open kbins b (k_of shape box i) && good exclude los shape i && match mu_of absolute los shape box i with Some mu => half_open mubins m mu | None => false end) shape.
(** [powerspectrum[tuple((np.array(powerspectrum.shape)/2).astype(int))] = 0.] (416). *)
Definition clear_zero_mode (shape : list nat) (p : array) : array := fun i => if list_eq_dec Nat.eq_dec i (map zero_index shape) then 0 else p i.
(** [power_spectrum_mu] (292-332) and [cross_power_spectrum_mu] (335-377) without weights. *)
Definition power_mu absolute exclude los shape box mubins kbins (x : array) (m b : nat) : option R :=
  bin_mean (bin_mu absolute exclude los shape box mubins kbins m b) (clear_zero_mode shape (power_spectrum_nd shape box x)).
Definition cross_power_mu absolute exclude los shape box mubins kbins (x1 x2 : array) (m b : nat) : option R :=
  bin_mean (bin_mu absolute exclude los shape box mubins kbins m b) (clear_zero_mode shape (cross_power_spectrum_nd shape box x1 x2)).

(** [pp[np.isfinite(pp)].mean()]: the mean of the finite entries, nan if there are none. *)
Fixpoint finite (l : list (option R)) : list R := match l with [] => [] | Some v :: r => v :: finite r | None :: r => finite r end.
Definition finite_mean (l : list (option R)) : option R := match finite l with [] => None | f => Some (rsum f / INR (length f)) end.
(** [np.linspace(min_mu, 1.0, mubins+1)] and the bin centres [mubins[:-1]+dmu]. *)
Definition mu_edges (absolute : bool) (n : nat) : list R := let lo := if absolute then 0 else -1 in map (fun t => lo + INR t * ((1 - lo) / INR n)) (seq 0 (S n)).
Definition mid (edges : list R) (b : nat) : R := nth b edges 0 + (nth (S b) edges 0 - nth b edges 0) / 2.
(** [anisotropy_ratio_r_mu] (578-614) of the binned power [pk m b]: [None] is a result that is not finite (nan, or a division by zero). *)
Definition upper (cut : R) (mubins : list R) : list nat := filter (fun m => rleb cut (mid mubins m)) (seq 0 (length mubins - 1)).
Definition lower (cut : R) (mubins : list R) : list nat := filter (fun m => rltb (mid mubins m) cut) (seq 0 (length mubins - 1)).
Definition ratio (cut : R) (mubins : list R) (pk : nat -> nat -> option R) (b : nat) : option R :=
  match finite_mean (map (fun m => pk m b) (upper cut mubins)), finite_mean (map (fun m => pk m b) (lower cut mubins)) with
  | Some u, Some d => if Req_EM_T d 0 then None else Some (u / d - 1)
  | _, _ => None
  end.
(** The call: with [return_n_modes=True] four values are unpacked into three names (608), an exception. *)
Definition anisotropy_ratio_r_mu (return_n_modes absolute exclude : bool) (los : nat) (cut : R) shape box mubins kbins (x : array) : option (list (option R)) :=
  if return_n_modes then None else Some (map (ratio cut mubins (power_mu absolute exclude los shape box mubins kbins x)) (seq 0 (length kbins - 1))).

(** scipy's linear [interp1d], which calls [np.interp]: the value of a node is returned as it is. The nodes are ascending. *)
Fixpoint interp (nodes : list (R * option R)) (x : R) : option R :=
  match nodes with
  | [] => None
  | (x0, y0) :: r =>
      match r with
      | [] => y0
      | (x1, y1) :: _ =>
          if Req_EM_T x x0 then y0
          else if rltb x x1 then match y0, y1 with Some a, Some b => Some ((b - a) / (x1 - x0) * (x - x0) + a) | _, _ => None end
          else interp r x
      end
  end.
(** Values out of the range of the nodes raise. *)
Definition interp1d (nodes : list (R * option R)) (x : R) : option (option R) :=
  match nodes with
  | [] => None
  | (x0, _) :: _ => if rleb x0 x && rleb x (fst (last nodes (0, None))) then Some (interp nodes x) else None
  end.
(** [Pk*ks**3/2/np.pi**2] (559). *)
Definition dimensionless (node : R * option R) : R * option R := (fst node, match snd node with Some p => Some (p * fst node ^ 3 / 2 / PI ^ 2) | None => None end).
Definition log10 (x : R) : R := ln x / ln 10.
(** [np.linspace(a, b, n)]: its last entry is [b] itself. *)
Definition linspace (a b : R) (n : nat) : list R := map (fun t => if (S t =? n)%nat && negb (n =? 1)%nat then b else a + INR t * ((b - a) / INR (n - 1))) (seq 0 n).
Fixpoint sequence {A} (l : list (option A)) : option (list A) :=
  match l with [] => Some [] | None :: _ => None | Some a :: r => match sequence r with Some s => Some (a :: s) | None => None end end.
(** [dimensionless_ps] (536-561) of the binned spectrum [(ks, Pk)]; [None] is an exception ([ks[1]] of a single bin, or out of range). *)
Definition dimensionless_ps (log : bool) (spectrum : list (R * option R)) (kbins : nat) : option (list (R * option R)) :=
  match spectrum with
  | _ :: (k1, _) :: _ =>
      let kl := fst (last spectrum (0, None)) in
      let knew := if log then map (fun e => Rpower 10 e) (linspace (log10 k1) (log10 kl) kbins) else linspace k1 kl kbins in
      match sequence (map (interp1d (map dimensionless spectrum)) knew) with Some vs => Some (combine knew vs) | None => None end
  | _ => None
  end.
