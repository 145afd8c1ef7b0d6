(** Notions for the percolation statements. *)
From Coq Require Import List Arith ZArith Bool.
From Verif Require Import FofSpec.
Import ListNotations.
Local Open Scope nat_scope.

(** C order of cells. *)
Fixpoint before (a b : list Z) : Prop :=
  match a, b with
  | x :: a', y :: b' => (x < y)%Z \/ (x = y /\ before a' b')
  | _, _ => False
  end.
(** First cell of a set. *)
Definition first_cell (shape : list nat) (A : list Z -> bool) (f : list Z) : Prop :=
  cell_of shape A f /\ forall c, cell_of shape A c -> c = f \/ before f c.
(** [K] lists the cells of the component of [f]. *)
Definition component_of (r : nat) (shape : list nat) (A : list Z -> bool) (f : list Z) (K : list (list Z)) : Prop :=
  NoDup K /\ forall c, In c K <-> cell_of shape A c /\ connected r (cell_of shape A) f c.
(** In a periodic 3-D box: [d] is one step below [c] along one axis. *)
Definition step_below (nx ny nz : nat) (c d : list Z) : Prop :=
  exists x y z, c = [x; y; z] /\
    (d = [((x - 1) mod Z.of_nat nx)%Z; y; z] \/ d = [x; ((y - 1) mod Z.of_nat ny)%Z; z] \/ d = [x; y; ((z - 1) mod Z.of_nat nz)%Z]).
