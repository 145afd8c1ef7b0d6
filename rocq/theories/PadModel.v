(** Model of [_get_padded_slice] and [padding_lightcone] (angular_coordinates.py:345-378). *)
From Coq Require Import List Arith ZArith Bool.
Import ListNotations.
Local Open Scope nat_scope.

Section Pad.
Variable A : Type.
(** A 2-D array: shape and cells. *)
Definition array2 := (nat * nat * (nat -> nat -> A))%type.

(** Length of [a[:k]] for an axis of length [n] (Python slicing, negative [k] counts from the end). *)
Definition slice_to (n : nat) (k : Z) : nat :=
  if (k <? 0)%Z then Z.to_nat (Z.of_nat n + k) else Nat.min (Z.to_nat k) n.

(** NumPy's rule for [dst[...] = src]: an axis must have the length of the target or one. *)
Definition fits_axis (src dst : nat) : bool := (src =? dst) || (src =? 1).
(** [dst[r0:r1, c0:c1] = src], with [None] for the ValueError. *)
Definition assign (dst : array2) (r0 r1 c0 c1 : nat) (src : array2) : option array2 :=
  let '(n, m, d) := dst in
  let '(sn, sm, s) := src in
  let r1 := Nat.min r1 n in let c1 := Nat.min c1 m in
  if fits_axis sn (r1 - r0) && fits_axis sm (c1 - c0) then
    Some (n, m, fun i j =>
      if (r0 <=? i) && (i <? r1) && (c0 <=? j) && (j <? c1)
      then s (if sn =? 1 then 0 else i - r0) (if sm =? 1 then 0 else j - c0) else d i j)
  else None.
Definition bind {B C} (o : option B) (f : B -> option C) : option C := match o with Some x => f x | None => None end.

(** Lines 345-352; [zero] is the fill of [np.zeros]. [padded_n] is not negative at any call. *)
Definition get_padded_slice (zero : A) (input : array2) (padded_n : nat) : option array2 :=
  let '(n, m, x) := input in
  let k := (Z.of_nat padded_n - Z.of_nat n)%Z in
  bind (assign (padded_n, padded_n, fun _ _ => zero) 0 n 0 n (n, m, x)) (fun p1 =>
  bind (assign p1 n padded_n 0 n (slice_to n k, slice_to m (Z.of_nat n), x)) (fun p2 =>
  bind (assign p2 0 n n padded_n (n, slice_to m k, x)) (fun p3 =>
  assign p3 n padded_n n padded_n (slice_to n k, slice_to m k, x)))).

(** [padding_lightcone] with [mode='wrap'] (lines 354-378): every slice is padded by
    [np.pad(..., 'wrap')] with [padded_n] cells on each side. *)
Definition padding_lightcone (n m l : nat) (lc : nat -> nat -> nat -> A) (padded_n : option nat) : nat * nat * nat * (nat -> nat -> nat -> A) :=
  let p := match padded_n with Some p => p | None => m / 2 end in
  (n + 2 * p, m + 2 * p, l, fun i j k =>
     lc (Z.to_nat ((Z.of_nat i - Z.of_nat p) mod Z.of_nat n)) (Z.to_nat ((Z.of_nat j - Z.of_nat p) mod Z.of_nat m)) k).
End Pad.
Arguments get_padded_slice {A}. Arguments padding_lightcone {A}. Arguments assign {A}.
