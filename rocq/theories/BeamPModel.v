(** Primary beam of the stations: primary_beam.py. *)
From Coq Require Import List Arith Reals.
Import ListNotations.
Local Open Scope R_scope.

Inductive beam_kind := Step | Gaussian | Bessel | Sigmoid.

(** Line 76: [np.mgrid[-ncells/2:ncells/2, ...]*boxsize/ncells], one coordinate; it has [ncells] points. *)
Definition coord (n : nat) (box : R) (p : nat) : R := (INR p - INR n / 2) * box / INR n.
(** Line 77. *)
Definition rr (n : nat) (box : R) (p q : nat) : R := sqrt (coord n box p ^ 2 + coord n box q ^ 2).
(** [r**y] for [r >= 0] and [y > 0]. *)
Definition np_power (r y : R) : R := if Req_EM_T r 0 then 0 else Rpower r y.
(** Lines 79-103 at one distance; [j1] is scipy's Bessel function. [rr**2**0.5] is [rr**(2**0.5)]. *)
Definition profile (j1 : R -> R) (b : beam_kind) (l_null r : R) : R :=
  match b with
  | Step => if Rle_dec r (l_null / 2) then 1 else 0
  | Gaussian => let sigma := l_null / 1.186 / 2.355 in exp (- (r ^ 2) / (2 * sigma ^ 2))
  | Bessel => if Req_EM_T r 0 then 1 else let a := 3.8317 / l_null * r in (2 * j1 a / a) ^ 2
  | Sigmoid => let r0 := l_null / 2 in 1 - 1 / (1 + exp (0.5 * r0 - 0.5 * np_power r (sqrt 2)))
  end.
Definition grid (n : nat) : list (nat * nat) := list_prod (seq 0 n) (seq 0 n).
Fixpoint largest (l : list R) : R := match l with [] => 0 | [v] => v | v :: r => Rmax v (largest r) end.
(** [circular_beam] (62-107). [None]: an empty grid (error) or a division of zero by zero (nan everywhere). *)
Definition circular_beam (j1 : R -> R) (b : beam_kind) (n : nat) (box l_null : R) : option (nat -> nat -> R) :=
  let raw := fun p q => profile j1 b l_null (rr n box p q) in
  let top := largest (map (fun c => raw (fst c) (snd c)) (grid n)) in
  if (Nat.eqb n 0) then None else if Req_EM_T top 0 then None else Some (fun p q => raw p q / top).

(** [primary_beam] (13-50). [null] is [primary_beam_null] (52-60) at a redshift. *)
Definition cube := nat -> nat -> nat -> R.
Definition shape := (nat * nat * nat)%type.
Definition swap_shape (a : nat) (s : shape) : shape := let '(n0, n1, n2) := s in match a with 0%nat => (n2, n1, n0) | 1%nat => (n0, n2, n1) | _ => s end.
Definition swap_cube (a : nat) (x : cube) : cube := match a with 0%nat => fun i j k => x k j i | 1%nat => fun i j k => x i k j | _ => x end.
(** Line 39: the two-dimensional case does not pass [l_null] on. *)
Definition primary_beam_2d (j1 : R -> R) (null : R -> R) (b : beam_kind) (n : nat) (box z : R) (l_null : option R) (x : nat -> nat -> R) : option (nat -> nat -> R) :=
  match circular_beam j1 b n box (null z) with None => None | Some f => Some (fun p q => x p q * f p q) end.
(** Lines 37, 41-49. [beam] is allocated (37) with the shape before the axes are swapped. Axes of one cell,
    which numpy would broadcast, are left out. [None]: any error, or nan. *)
Definition shape_eqb (s t : shape) : bool := let '(a, b, c) := s in let '(a', b', c') := t in (Nat.eqb a a' && Nat.eqb b b' && Nat.eqb c c')%bool.
Fixpoint all_beams (f : R -> option (nat -> nat -> R)) (zs : list R) : option (list (nat -> nat -> R)) :=
  match zs with [] => Some [] | z :: r => match f z, all_beams f r with Some b, Some l => Some (b :: l) | _, _ => None end end.
Definition primary_beam_3d (j1 : R -> R) (null : R -> R) (b : beam_kind) (s : shape) (box : R) (nu_axis : nat) (zs : list R) (l_null : option R) (x : cube) : option cube :=
  let '(n0, n1, n2) := s in
  let '(m0, m1, m2) := swap_shape nu_axis s in
  let zs := match zs with [z] => repeat z m2 | _ => zs end in
  if (Nat.ltb n2 (length zs)) then None                                          (* beam[:,:,i]: IndexError *)
  else if (negb (Nat.eqb (length zs) 0) && negb (Nat.eqb m0 n0 && Nat.eqb m0 n1))%bool then None   (* assignment of an m0 x m0 slice *)
  else if negb (shape_eqb (m0, m1, m2) s) then None                             (* array*beam *)
  else match all_beams (fun z => circular_beam j1 b m0 box (match l_null with Some l => l | None => null z end)) zs with
       | None => None
       | Some bs => Some (swap_cube nu_axis (fun i j k => swap_cube nu_axis x i j k * nth k bs (fun _ _ => 0) i j))
       end.
