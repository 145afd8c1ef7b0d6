(** Notions for the statement about [find_idx]. *)
From Coq Require Import List ZArith QArith.
Import ListNotations.

(** [r] is a (fractional) index at which linear interpolation of [ar] gives [v]. *)
Definition interpolates (ar : list Q) (r v : Q) : Prop :=
  exists i t, (S i < length ar)%nat /\ (0 <= t <= 1)%Q /\ (r == inject_Z (Z.of_nat i) + t)%Q /\
    (v == (1 - t) * nth i ar 0 + t * nth (S i) ar 0)%Q.

(** [v] moved to the nearest value in the range of [ar]. *)
Definition clamped (ar : list Q) (v c : Q) : Prop :=
  exists lo hi, In lo ar /\ In hi ar /\ (forall x, In x ar -> (lo <= x <= hi)%Q) /\
    ((v <= lo -> c == lo) /\ (hi <= v -> c == hi) /\ (lo <= v <= hi -> c == v))%Q.

Definition ascending (ar : list Q) : Prop := forall i, (S i < length ar)%nat -> (nth i ar 0 <= nth (S i) ar 0)%Q.
Definition descending (ar : list Q) : Prop := forall i, (S i < length ar)%nat -> (nth (S i) ar 0 <= nth i ar 0)%Q.
Definition constant (ar : list Q) : Prop := forall x y, In x ar -> In y ar -> (x == y)%Q.
