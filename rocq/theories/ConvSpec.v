(** What a convolution is. *)
From Coq Require Import List Arith ZArith Reals.
From Verif Require Import RLib FourierModel.
Import ListNotations.

(** The coordinates i + c - b, axis by axis. *)
Fixpoint displaced (i : list nat) (c : list Z) (b : list nat) : list Z :=
  match i, c, b with
  | x :: i', y :: c', z :: b' => (Z.of_nat x + y - Z.of_nat z)%Z :: displaced i' c' b'
  | _, _, _ => []
  end.
(** The cell that has these coordinates in the periodically continued array. *)
Fixpoint periodic (shape : list nat) (p : list Z) : list nat :=
  match shape, p with
  | n :: sh, k :: p' => Z.to_nat (k mod Z.of_nat n) :: periodic sh p'
  | _, _ => []
  end.
(** The array continued by zeros. *)
Definition in_array (shape : list nat) (p : list Z) : Prop := Forall2 (fun n k => (0 <= k < Z.of_nat n)%Z) shape p.
(** Convolution of an array, continued in some way to all coordinates, with a kernel of
    shape [s2] whose cell [c] is the one that acts on the cell itself. *)
Definition convolution (s2 : list nat) (x : list Z -> R) (y : array) (c : list Z) (i : list nat) : R :=
  rsum (map (fun b => (y b * x (displaced i c b))%R) (indices s2)).
Definition inside_z (shape : list nat) (p : list Z) : bool :=
  forallb (fun q => (0 <=? snd q)%Z && (snd q <? Z.of_nat (fst q))%Z)%bool (combine shape p).
Definition zero_outside (shape : list nat) (x : array) (p : list Z) : R :=
  if inside_z shape p then x (map Z.to_nat p) else 0%R.
