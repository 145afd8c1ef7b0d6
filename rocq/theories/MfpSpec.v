(** Notions for the statements about mean free paths. *)
From Coq Require Import List Arith ZArith Reals.
From Verif Require Import MfpModel.
Import ListNotations.
Local Open Scope R_scope.

(** The point lies within the grid of cell centres. *)
Fixpoint in_grid (shape : list nat) (pos : list R) : Prop :=
  match shape, pos with
  | n :: sh, x :: xs => 0 <= x <= INR n - 1 /\ in_grid sh xs
  | _, _ => True
  end.
(** Position of a ray after [k] steps. *)
Fixpoint along (pos dir : list R) (k : nat) : list R :=
  match pos, dir with
  | x :: p, d :: q => (x + INR k * d) :: along p q k
  | _, _ => []
  end.
Definition inside_at (shape : list nat) (f : list nat -> bool) (r : ray) (k : nat) : Prop :=
  1 / 2 < interp shape f (along (fst r) (snd r) k).
(** The ray is inside after steps 1 .. k and no longer after step k+1. *)
Definition ends_after (shape : list nat) (f : list nat -> bool) (r : ray) (k : nat) : Prop :=
  (forall j, (1 <= j <= k)%nat -> inside_at shape f r j) /\ ~ inside_at shape f r (S k).
(** Ray in [d] dimensions. *)
Definition proper (d : nat) (r : ray) : Prop := length (fst r) = d /\ length (snd r) = d.

(** How often [k] occurs as a value of [e] on the list. *)
Definition tally {A} (e : A -> option nat) (k : nat) (l : list A) : nat :=
  length (filter (fun r => match e r with Some j => Nat.eqb j k | None => false end) l).
Definition tally_none {A} (e : A -> option nat) (l : list A) : nat :=
  length (filter (fun r => match e r with Some _ => false | None => true end) l).
(** Euclidean length. *)
Definition unit_vector (d : list R) : Prop := fold_right (fun x s => x * x + s) 0 d = 1.
