(** Notions for the statements about superpixels. *)
From Coq Require Import List Arith ZArith Sorting.Permutation.
Import ListNotations.

(** [order] lists all positions so that the labels come out in ascending order (what any
    argsort returns; ties in any order). *)
Definition sorts (labels : list Z) (order : list nat) : Prop :=
  Permutation order (seq 0 (length labels)) /\
  forall i j, (i < j < length order)%nat ->
    (nth (nth i order 0%nat) labels 0 <= nth (nth j order 0%nat) labels 0)%Z.
(** The labels in use are exactly 0 .. k-1. *)
Definition contiguous (labels : list Z) (k : nat) : Prop :=
  forall z, In z labels <-> (0 <= z < Z.of_nat k)%Z.
(** The data of one label, in array order. *)
Definition label_data {A} (data : list A) (labels : list Z) (z : Z) : list A :=
  map fst (filter (fun p => Z.eqb (snd p) z) (combine data labels)).
