(** What light-cone users expect. *)
From Coq Require Import List Arith ZArith QArith Bool.
Import ListNotations.
Local Open Scope nat_scope.

(** [l] is the largest file redshift not above [z]; [h] the smallest above [z]. *)
Definition is_low (fz : list Q) (z l : Q) : Prop :=
  In l fz /\ (l <= z)%Q /\ forall x, In x fz -> (x <= z)%Q -> (x <= l)%Q.
Definition is_high (fz : list Q) (z h : Q) : Prop :=
  In h fz /\ (z < h)%Q /\ forall x, In x fz -> (z < x)%Q -> (h <= x)%Q.

(** [d] is the snapshot at redshift [z]: the first file with that redshift. *)
Definition snapshot {data} (fz : list Q) (files : list data) (z : Q) (d : data) : Prop :=
  exists i zi, nth_error fz i = Some zi /\ (zi == z)%Q /\ nth_error files i = Some d /\
    forall j zj, j < i -> nth_error fz j = Some zj -> ~ (zj == z)%Q.

(** Slice number [k] at redshift [z] interpolates the two snapshots around [z]. *)
Definition slice_ok {data slice} (interp : data -> data -> Q -> Q -> Q -> nat -> slice)
           (fz : list Q) (files : list data) (z : Q) (k : nat) (o : slice) : Prop :=
  exists l h dl dh, is_low fz z l /\ is_high fz z h /\ snapshot fz files l dl /\ snapshot fz files h dh
    /\ o = interp dh dl h l z k.

(** Between two successive output redshifts lies at most one snapshot redshift. *)
Definition no_skip (fz : list Q) (z z' : Q) : Prop :=
  forall a b, In a fz -> In b fz -> (z < a <= z')%Q -> (z < b <= z')%Q -> (a == b)%Q.

(** Successive elements of a list are related. *)
Definition chain {A} (R : A -> A -> Prop) (l : list A) : Prop :=
  forall k x y, nth_error l k = Some x -> nth_error l (S k) = Some y -> R x y.
