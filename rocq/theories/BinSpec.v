(** Vocabulary for the file round-trip properties. *)
From Coq Require Import List Arith ZArith QArith Lia Bool.
From Verif Require Import BinModel.
Import ListNotations.
Local Open Scope nat_scope.

(** [ix] is an index of an array of shape [s]. *)
Definition valid (s ix : list nat) : Prop := Forall2 (fun i n => i < n) ix s.

(** Same shape, same value in every cell. *)
Definition same_array {V} (a b : array V) : Prop :=
  shape a = shape b /\ forall ix, valid (shape a) ix -> get a ix = get b ix.
Definition same_arrayQ (a b : array Q) : Prop :=
  shape a = shape b /\ forall ix, valid (shape a) ix -> (get a ix == get b ix)%Q.

(** A value survives conversion to the float type and back. *)
Definition representable {V} (c : codec V) (v : V) : Prop :=
  length (enc c v) = width c /\ dec c (enc c v) = v.
Definition representableQ (c : codec Q) (v : Q) : Prop :=
  length (enc c v) = width c /\ (dec c (enc c v) == v)%Q.

Definition all_representable {V} (c : codec V) (a : array V) : Prop :=
  forall ix, valid (shape a) ix -> representable c (get a ix).

(** Dimensions that fit an int32. *)
Definition dims_fit (s : list nat) : Prop := Forall (fun n => (Z.of_nat n < 2 ^ 31)%Z) s.
