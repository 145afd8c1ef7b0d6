(** What the binning of Fourier modes is supposed to do. *)
From Coq Require Import List Arith ZArith QArith Qabs Bool Lia.
From Verif Require Import QLib.
Import ListNotations.
Local Open Scope nat_scope.

(** The edges never decrease. *)
Definition ascending (edges : list Q) : Prop :=
  forall i, S i < length edges -> (nth i edges 0 <= nth (S i) edges 0)%Q.
(** The edges strictly increase. *)
Definition increasing (edges : list Q) : Prop :=
  forall i, S i < length edges -> (nth i edges 0 < nth (S i) edges 0)%Q.

(** Bin [i] is [e_i, e_{i+1}), and the last bin includes its upper edge. *)
Definition in_bin (edges : list Q) (i : nat) (k : Q) : Prop :=
  (nth i edges 0 <= k)%Q /\
  ((k < nth (S i) edges 0)%Q \/ (S (S i) = length edges /\ (k == nth (S i) edges 0)%Q)).
Definition in_binb (edges : list Q) (i : nat) (k : Q) : bool :=
  Qle_bool (nth i edges 0%Q) k &&
  (Qltb k (nth (S i) edges 0%Q)
   || (Nat.eqb (S (S i)) (length edges) && Qeq_bool k (nth (S i) edges 0%Q))).
(** Between the first and the last edge. *)
Definition in_range (edges : list Q) (k : Q) : Prop :=
  (nth 0 edges 0 <= k)%Q /\ (k <= nth (length edges - 1) edges 0)%Q.
Definition in_rangeb (edges : list Q) (k : Q) : bool :=
  Qle_bool (nth 0 edges 0%Q) k && Qle_bool k (nth (length edges - 1) edges 0%Q).

Lemma in_binb_spec : forall edges i k, in_binb edges i k = true <-> in_bin edges i k.
Proof.
  intros. unfold in_binb, in_bin.
  rewrite andb_true_iff, orb_true_iff, andb_true_iff, Qle_bool_iff, Qltb_true, Nat.eqb_eq, Qeq_bool_iff.
  reflexivity.
Qed.
Lemma in_rangeb_spec : forall edges k, in_rangeb edges k = true <-> in_range edges k.
Proof.
  intros. unfold in_rangeb, in_range. rewrite andb_true_iff, !Qle_bool_iff. reflexivity.
Qed.

(** Half-open two-sided interval, used for (k, mu) bins. *)
Definition half_open (edges : list Q) (i : nat) (x : Q) : Prop :=
  (nth i edges 0 <= x < nth (S i) edges 0)%Q.
