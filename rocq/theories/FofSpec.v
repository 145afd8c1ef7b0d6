(** What friends-of-friends users expect, without reference to the search. *)
From Coq Require Import List Arith ZArith Bool.
From Coq Require Import Relations.Relation_Operators.
Import ListNotations.
Local Open Scope nat_scope.

(** Two cells are [r]-neighbours: same number of axes, coordinates differ by at most
    one, in at most [r] of them. *)
Fixpoint differ (a b : list Z) : nat :=
  match a, b with
  | x :: a', y :: b' => (if Z.eqb x y then 0 else 1) + differ a' b'
  | _, _ => 0
  end.
Definition neighbours (r : nat) (a b : list Z) : Prop :=
  Forall2 (fun x y => Z.abs (x - y) <= 1)%Z a b /\ differ a b <= r.

(** Connected by a chain of neighbours inside the set [A]. *)
Definition connected (r : nat) (A : list Z -> Prop) : list Z -> list Z -> Prop :=
  clos_refl_trans (list Z) (fun a b => A a /\ A b /\ neighbours r a b).

(** Cells of an array of some shape. *)
Definition in_shape (shape : list nat) (c : list Z) : Prop :=
  Forall2 (fun n x => 0 <= x < Z.of_nat n)%Z shape c.

(** Cells of the set. *)
Definition cell_of (shape : list nat) (A : list Z -> bool) (c : list Z) : Prop :=
  in_shape shape c /\ A c = true.

(** A correct labelling: 0 exactly off the set, equal labels exactly within a
    component, labels 1..n, and the n-th size is the number of cells labelled n. *)
Definition labelling (r : nat) (shape : list nat) (A : list Z -> bool)
           (m : list Z -> nat) (sizes : list nat) : Prop :=
  (forall c, m c <> 0 <-> cell_of shape A c) /\
  (forall c d, cell_of shape A c -> cell_of shape A d ->
     (m c = m d <-> connected r (cell_of shape A) c d)) /\
  (forall c, m c <= length sizes) /\
  (forall g, 1 <= g <= length sizes -> exists cs, NoDup cs /\ cs <> [] /\
     length cs = nth (g - 1) sizes 0 /\ forall c, In c cs <-> m c = g).

(** [n] is the number of components: a set of [n] cells, one from each. *)
Definition components (r : nat) (shape : list nat) (A : list Z -> bool) (n : nat) : Prop :=
  exists reps, length reps = n /\ NoDup reps /\ (forall c, In c reps -> cell_of shape A c) /\
    (forall c d, In c reps -> In d reps -> connected r (cell_of shape A) c d -> c = d) /\
    (forall c, cell_of shape A c -> exists d, In d reps /\ connected r (cell_of shape A) c d).
