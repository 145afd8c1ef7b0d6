(** Facts about the shared Python / numpy pieces. *)
From Coq Require Import List Arith ZArith QArith Qround Lia Lqa Bool.
From Verif Require Import PyBase.
Import ListNotations.
Local Open Scope nat_scope.

Lemma round_half_even_near q :
  (q - inject_Z (round_half_even q) <= 1#2 /\ inject_Z (round_half_even q) - q <= 1#2)%Q.
Proof.
  unfold round_half_even.
  pose proof (Qfloor_le q) as L. pose proof (Qlt_floor q) as U.
  rewrite inject_Z_plus in U. change (inject_Z 1) with 1%Q in U.
  set (f := Qfloor q) in *.
  destruct (Qcompare_spec (q - inject_Z f) (1#2)) as [E|E|E].
  - destruct (Z.even f); [|rewrite inject_Z_plus; change (inject_Z 1) with 1%Q]; lra.
  - lra.
  - rewrite inject_Z_plus; change (inject_Z 1) with 1%Q. lra.
Qed.

(** The defining property of rounding to the nearest integer, ties to even. *)
Definition nearest_even (q : Q) (r : Z) : Prop :=
  (q - inject_Z r < 1#2 /\ inject_Z r - q < 1#2)%Q
  \/ ((q - inject_Z r == 1#2)%Q \/ (inject_Z r - q == 1#2)%Q) /\ Z.even r = true.

Lemma round_half_even_spec q : nearest_even q (round_half_even q).
Proof.
  unfold round_half_even, nearest_even.
  pose proof (Qfloor_le q) as L. pose proof (Qlt_floor q) as U.
  rewrite inject_Z_plus in U. change (inject_Z 1) with 1%Q in U.
  set (f := Qfloor q) in *.
  destruct (Qcompare_spec (q - inject_Z f) (1#2)) as [E|E|E].
  - right. destruct (Z.even f) eqn:Ev.
    + split; [left; exact E|exact Ev].
    + rewrite inject_Z_plus; change (inject_Z 1) with 1%Q. split; [right; lra|].
      rewrite Z.add_1_r, Z.even_succ, <- Z.negb_even, Ev. reflexivity.
  - left. lra.
  - left. rewrite inject_Z_plus; change (inject_Z 1) with 1%Q. lra.
Qed.

Lemma inject_Z_lt a b : (inject_Z a < inject_Z b)%Q -> (a < b)%Z.
Proof. intros H. rewrite Zlt_Qlt. exact H. Qed.

Lemma nearest_even_unique q r r' : nearest_even q r -> nearest_even q r' -> r = r'.
Proof.
  unfold nearest_even. intros H H'.
  assert (A : (r < r' + 2)%Z).
  { apply inject_Z_lt. rewrite inject_Z_plus. change (inject_Z 2) with 2%Q.
    destruct H as [H|[[H|H] _]], H' as [H'|[[H'|H'] _]]; lra. }
  assert (B : (r' < r + 2)%Z).
  { apply inject_Z_lt. rewrite inject_Z_plus. change (inject_Z 2) with 2%Q.
    destruct H as [H|[[H|H] _]], H' as [H'|[[H'|H'] _]]; lra. }
  assert (C : r = r' \/ r = (r' + 1)%Z \/ r' = (r + 1)%Z) by lia.
  destruct C as [C|[C|C]]; [exact C| |]; exfalso; subst.
  - rewrite inject_Z_plus in H. change (inject_Z 1) with 1%Q in H.
    rewrite Z.add_1_r, Z.even_succ, <- Z.negb_even in H.
    destruct H as [H|[[H|H] E]], H' as [H'|[[H'|H'] E']]; try lra;
      rewrite E' in E; discriminate.
  - rewrite inject_Z_plus in H'. change (inject_Z 1) with 1%Q in H'.
    rewrite Z.add_1_r, Z.even_succ, <- Z.negb_even in H'.
    destruct H as [H|[[H|H] E]], H' as [H'|[[H'|H'] E']]; try lra;
      rewrite E in E'; discriminate.
Qed.

Lemma round_half_even_Qeq q q' : (q == q')%Q -> round_half_even q = round_half_even q'.
Proof.
  intros E. apply (nearest_even_unique q'); [|apply round_half_even_spec].
  pose proof (round_half_even_spec q) as S. unfold nearest_even in *. now rewrite <- E.
Qed.

Lemma round_half_even_opp q : round_half_even (- q) = (- round_half_even q)%Z.
Proof.
  apply (nearest_even_unique (- q)); [apply round_half_even_spec|].
  pose proof (round_half_even_spec q) as S. unfold nearest_even in *.
  rewrite inject_Z_opp, Z.even_opp.
  destruct S as [S|[[S|S] E]]; [left|right; split; [right|exact E]|right; split; [left|exact E]]; lra.
Qed.
