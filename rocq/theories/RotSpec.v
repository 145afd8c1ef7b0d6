(** Euclidean vocabulary for the rotation properties. *)
From Coq Require Import Reals List.
From Verif Require Import RotModel.
Import ListNotations.
Local Open Scope R_scope.

Definition dot (a b : vec) : R := vx a * vx b + vy a * vy b + vz a * vz b.
Definition norm (a : vec) : R := sqrt (dot a a).
Definition diff (a b : vec) : vec := (vx a - vx b, vy a - vy b, vz a - vz b).
Definition dist3 (a b : vec) : R := norm (diff a b).
(** Determinant of the matrix with columns a, b, c. *)
Definition det3 (a b c : vec) : R :=
  vx a * (vy b * vz c - vz b * vy c) - vx b * (vy a * vz c - vz a * vy c)
  + vx c * (vy a * vz b - vz a * vy b).
