(** Model of [betti1] (topology.py:118-141). *)
From Coq Require Import List Arith ZArith Bool.
From Verif Require Import CubeModel FofModel.
Import ListNotations.
Local Open Scope nat_scope.

(** The thresholded field seen by the cube map (three indices). *)
Definition as_idx (A : coord -> bool) : idx -> bool :=
  fun c => let '(i, j, k) := c in A [Z.of_nat i; Z.of_nat j; Z.of_nat k].

(** [b0 + b2 - chi] with the defaults for [b0], [b2], [chi] (topology.py:138-141). *)
Definition betti1 (nx ny nz : nat) (neighbors : Z) (A : coord -> bool) : option Z :=
  match betti0 [nx; ny; nz] neighbors A, betti2 [nx; ny; nz] neighbors A with
  | Some b0, Some b2 =>
      Some (Z.of_nat b0 + Z.of_nat b2 - EulerCharacteristic nx ny nz neighbors (as_idx A))%Z
  | _, _ => None
  end.
