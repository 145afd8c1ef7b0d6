(** Proofs about the binning of Fourier modes. *)
From Coq Require Import List Arith ZArith QArith Qabs Bool Lia Lqa Setoid.
From Verif Require Import QLib BinningModel BinningSpec.
Import ListNotations.
Local Open Scope nat_scope.

Lemma monotone_ascending : forall edges, monotone edges = true <-> ascending edges.
Proof.
  induction edges as [|e1 [|e2 tl] IH]; cbn [monotone].
  - split; auto. intros _ i H. simpl in H. lia.
  - split; auto. intros _ i H. simpl in H. lia.
  - rewrite andb_true_iff, Qle_bool_iff, IH. split.
    + intros [H1 H2] [|i] Hi; [exact H1|]. apply (H2 i). simpl in Hi |- *. lia.
    + intros H. split; [apply (H 0); simpl; lia|].
      intros i Hi. apply (H (S i)). simpl in Hi |- *. lia.
Qed.

Lemma increasing_ascending : forall e, increasing e -> ascending e.
Proof. intros e H i Hi. apply Qlt_le_weak. auto. Qed.

Lemma ascending_nth : forall edges i j, ascending edges -> i <= j -> j < length edges ->
  (nth i edges 0 <= nth j edges 0)%Q.
Proof.
  intros edges i j H Hij. induction Hij; intro Hj; [lra|].
  eapply Qle_trans; [apply IHHij; lia|apply H; lia].
Qed.

Lemma in_bin_unique : forall edges i j k, ascending edges ->
  S i < length edges -> S j < length edges ->
  in_bin edges i k -> in_bin edges j k -> i = j.
Proof.
  assert (W : forall edges i j k, ascending edges -> i < j -> S j < length edges ->
    in_bin edges i k -> in_bin edges j k -> False).
  { intros edges i j k A Hij Hj [_ Hi] [Hjk _].
    assert (L : (nth (S i) edges 0 <= nth j edges 0)%Q) by (apply ascending_nth; auto; lia).
    destruct Hi as [Hi|[Hi _]]; [lra|lia]. }
  intros edges i j k A Hi Hj Bi Bj.
  destruct (lt_eq_lt_dec i j) as [[H|H]|H]; auto; exfalso; eauto.
Qed.

Lemma in_bin_exists : forall edges k, 2 <= length edges -> in_range edges k ->
  exists i, S i < length edges /\ in_bin edges i k.
Proof.
  induction edges as [|e1 [|e2 tl] IH]; intros k HL [Hlo Hhi]; [simpl in HL; lia|simpl in HL; lia|].
  destruct (Qlt_le_dec k e2) as [H|H].
  - exists 0. split; [simpl; lia|]. split; [exact Hlo|left; exact H].
  - destruct tl as [|e3 tl].
    + exists 0. split; [simpl; lia|]. split; [exact Hlo|right; split; [reflexivity|]].
      cbn in Hhi |- *. lra.
    + destruct (IH k) as [i [Hi [B1 B2]]]; [simpl; lia| |].
      * split; [exact H|]. cbn [length Nat.sub nth] in Hhi |- *. exact Hhi.
      * exists (S i). split; [simpl in Hi |- *; lia|]. split; [exact B1|].
        destruct B2 as [B2|[B2 B3]]; [left; exact B2|right].
        split; [simpl in B2 |- *; lia|exact B3].
Qed.

Lemma in_bin_range : forall edges i k, ascending edges -> S i < length edges ->
  in_bin edges i k -> in_range edges k.
Proof.
  intros edges i k A Hi [B1 B2]. split.
  - eapply Qle_trans; [apply (ascending_nth edges 0 i A); lia|exact B1].
  - assert (nth (S i) edges 0 <= nth (length edges - 1) edges 0)%Q by (apply ascending_nth; auto; lia).
    destruct B2 as [B2|[_ B2]]; lra.
Qed.

(** * Values of the histogram *)
Lemma diffs_length : forall m edges, length (diffs m edges) = length edges - 1.
Proof.
  induction edges as [|e1 [|e2 [|e3 tl]] IH]; try reflexivity.
  cbn [diffs] in *. cbn [length] in *. lia.
Qed.

Lemma cum_diff_left : forall m a b, (a <= b)%Q ->
  (cum_left m b - cum_left m a == qsum (map snd (filter (fun x => Qle_bool a (fst x) && Qltb (fst x) b) m)))%Q.
Proof.
  intros m a b H. unfold cum_left. rewrite !qsum_filter_ind.
  induction m as [|x m IH]; cbn [map qsum fold_right]; [lra|].
  fold (qsum (map (fun x : Q * Q => if Qltb (fst x) b then snd x else 0%Q) m)).
  fold (qsum (map (fun x : Q * Q => if Qltb (fst x) a then snd x else 0%Q) m)).
  fold (qsum (map (fun x : Q * Q => if Qle_bool a (fst x) && Qltb (fst x) b then snd x else 0%Q) m)).
  rewrite <- IH.
  destruct (Qltb (fst x) b) eqn:E1, (Qltb (fst x) a) eqn:E2, (Qle_bool a (fst x)) eqn:E3; cbn [andb];
    try apply Qltb_true in E1; try apply Qltb_true in E2; try apply Qltb_false in E1;
    try apply Qltb_false in E2; try apply Qle_bool_iff in E3; try apply Qle_bool_false in E3; lra.
Qed.
Lemma cum_diff_right : forall m a b, (a <= b)%Q ->
  (cum_right m b - cum_left m a == qsum (map snd (filter (fun x => Qle_bool a (fst x) && Qle_bool (fst x) b) m)))%Q.
Proof.
  intros m a b H. unfold cum_left, cum_right. rewrite !qsum_filter_ind.
  induction m as [|x m IH]; cbn [map qsum fold_right]; [lra|].
  fold (qsum (map (fun x : Q * Q => if Qle_bool (fst x) b then snd x else 0%Q) m)).
  fold (qsum (map (fun x : Q * Q => if Qltb (fst x) a then snd x else 0%Q) m)).
  fold (qsum (map (fun x : Q * Q => if Qle_bool a (fst x) && Qle_bool (fst x) b then snd x else 0%Q) m)).
  rewrite <- IH.
  destruct (Qle_bool (fst x) b) eqn:E1, (Qltb (fst x) a) eqn:E2, (Qle_bool a (fst x)) eqn:E3; cbn [andb];
    try apply Qle_bool_iff in E1; try apply Qltb_true in E2; try apply Qle_bool_false in E1;
    try apply Qltb_false in E2; try apply Qle_bool_iff in E3; try apply Qle_bool_false in E3; lra.
Qed.

Lemma filter_ext_in' : forall {A} (f g : A -> bool) l,
  (forall x, In x l -> f x = g x) -> filter f l = filter g l.
Proof. intros. apply filter_ext_in. auto. Qed.

Lemma bool_iff : forall a b : bool, (a = true <-> b = true) -> a = b.
Proof. intros [] [] H; auto; destruct H; auto; symmetry; auto. Qed.

Lemma diffs_nth : forall m edges i, ascending edges -> S i < length edges ->
  (nth i (diffs m edges) 0 == qsum (map snd (filter (fun x => in_binb edges i (fst x)) m)))%Q.
Proof.
  intros m edges. induction edges as [|e1 [|e2 tl] IH]; intros i A Hi; [simpl in Hi; lia|simpl in Hi; lia|].
  assert (H12 : (e1 <= e2)%Q) by (apply (A 0); simpl; lia).
  destruct tl as [|e3 tl].
  - assert (i = 0) by (simpl in Hi; lia). subst i. cbn [diffs nth].
    rewrite cum_diff_right by exact H12.
    rewrite (filter_ext (fun x => Qle_bool e1 (fst x) && Qle_bool (fst x) e2)
                        (fun x => in_binb [e1; e2] 0 (fst x))); [reflexivity|].
    intro x. apply bool_iff. rewrite in_binb_spec, andb_true_iff, !Qle_bool_iff.
    unfold in_bin. cbn. split; [intros [H1 H2]|intros [H1 [H2|[_ H2]]]; split; lra].
    split; [lra|]. destruct (Qlt_le_dec (fst x) e2); [left|right]; auto. split; auto. lra.
  - destruct i as [|i].
    + cbn [diffs nth]. rewrite cum_diff_left by exact H12.
      rewrite (filter_ext (fun x => Qle_bool e1 (fst x) && Qltb (fst x) e2)
                          (fun x => in_binb (e1 :: e2 :: e3 :: tl) 0 (fst x))); [reflexivity|].
      intro x. apply bool_iff. rewrite in_binb_spec, andb_true_iff, Qle_bool_iff, Qltb_true.
      unfold in_bin. cbn. split; [intros [H1 H2]|intros [H1 [H2|[H2 _]]]]; try (split; [lra|left; lra]).
      * split; lra.
      * discriminate H2.
    + change (diffs m (e1 :: e2 :: e3 :: tl))
        with ((cum_left m e2 - cum_left m e1)%Q :: diffs m (e2 :: e3 :: tl)).
      cbn [nth]. rewrite IH.
      * rewrite (filter_ext (fun x => in_binb (e2 :: e3 :: tl) i (fst x))
                            (fun x => in_binb (e1 :: e2 :: e3 :: tl) (S i) (fst x))); [reflexivity|].
        intro x. reflexivity.
      * intros j Hj. apply (A (S j)). simpl in Hj |- *. lia.
      * simpl in Hi |- *. lia.
Qed.

Lemma map2_length : forall {A B C} (f : A -> B -> C) la lb,
  length la = length lb -> length (map2 f la lb) = length la.
Proof.
  induction la; intros [|b lb] H; simpl in *; auto; try discriminate.
Qed.
Lemma map2_nth_error : forall {A B C} (f : A -> B -> C) la lb i a b,
  nth_error la i = Some a -> nth_error lb i = Some b -> nth_error (map2 f la lb) i = Some (f a b).
Proof.
  induction la; intros [|b' lb] [|i] x y Ha Hb; simpl in *; try discriminate; auto.
  congruence.
Qed.

(** Sum over all bins of a quantity supported on the bin members. *)
Lemma qsum_indicator : forall (P : nat -> bool) (w : Q) n,
  (forall i j, i < n -> j < n -> P i = true -> P j = true -> i = j) ->
  (qsum (map (fun i => if P i then w else 0) (seq 0 n)) ==
   if existsb P (seq 0 n) then w else 0)%Q.
Proof.
  induction n; intro H; [simpl; lra|].
  rewrite seq_S, map_app, qsum_app, existsb_app. cbn [map qsum fold_right existsb plus].
  rewrite IHn by (intros; apply H; auto).
  destruct (existsb P (seq 0 n)) eqn:E; cbn [orb].
  - apply existsb_exists in E as [i [Hi Ei]]. apply in_seq in Hi.
    destruct (P n) eqn:En; [|lra]. exfalso.
    assert (i = n) by (apply H; auto; lia). lia.
  - rewrite orb_false_r. destruct (P n); lra.
Qed.

(** * Edges *)
Lemma linspace_length : forall a b n, length (linspace a b n) = S n.
Proof. intros. unfold linspace. rewrite map_length, seq_length. reflexivity. Qed.
Lemma linspace_nth : forall a b n i, i <= n ->
  nth i (linspace a b n) 0%Q =
  (if Nat.eqb i n then b else a + inject_Z (Z.of_nat i) * ((b - a) / inject_Z (Z.of_nat n)))%Q.
Proof.
  intros a b n i H. unfold linspace.
  set (f := fun i : nat => (if Nat.eqb i n then b else a + inject_Z (Z.of_nat i) * ((b - a) / inject_Z (Z.of_nat n)))%Q).
  rewrite (nth_indep _ 0%Q (f 0)) by (rewrite map_length, seq_length; lia).
  rewrite map_nth, seq_nth by lia. reflexivity.
Qed.
Lemma linspace_val : forall a b n i, 0 < n -> i <= n ->
  (nth i (linspace a b n) 0 * inject_Z (Z.of_nat n) ==
   a * inject_Z (Z.of_nat n) + inject_Z (Z.of_nat i) * (b - a))%Q.
Proof.
  intros a b n i Hn Hi. rewrite linspace_nth by auto.
  assert (N : ~ (inject_Z (Z.of_nat n) == 0)%Q).
  { change 0%Q with (inject_Z 0). rewrite inject_Z_injective. lia. }
  destruct (Nat.eqb_spec i n) as [->|H]; [ring|]. field. exact N.
Qed.
Lemma inject_pos : forall n, 0 < n -> (0 < inject_Z (Z.of_nat n))%Q.
Proof. intros. change 0%Q with (inject_Z 0). rewrite <- Zlt_Qlt. lia. Qed.
Lemma inject_S : forall n, (inject_Z (Z.of_nat (S n)) == 1 + inject_Z (Z.of_nat n))%Q.
Proof. intros. rewrite Nat2Z.inj_succ. unfold Z.succ. rewrite inject_Z_plus. ring. Qed.
Lemma linspace_step : forall a b n i, S i <= n ->
  ((nth (S i) (linspace a b n) 0 - nth i (linspace a b n) 0) * inject_Z (Z.of_nat n) == b - a)%Q.
Proof.
  intros a b n i H.
  pose proof (linspace_val a b n (S i) ltac:(lia) H) as E1.
  pose proof (linspace_val a b n i ltac:(lia) ltac:(lia)) as E2.
  rewrite inject_S in E1.
  transitivity (nth (S i) (linspace a b n) 0 * inject_Z (Z.of_nat n) -
                nth i (linspace a b n) 0 * inject_Z (Z.of_nat n))%Q; [ring|].
  rewrite E1, E2. ring.
Qed.
Lemma Qmult_pos_cancel : forall x n, (0 < n)%Q -> (0 <= x * n)%Q -> (0 <= x)%Q.
Proof. intros x n Hn H. apply (Qmult_le_r _ _ n Hn). lra. Qed.
Lemma Qmult_pos_cancel_lt : forall x n, (0 < n)%Q -> (0 < x * n)%Q -> (0 < x)%Q.
Proof. intros x n Hn H. apply (Qmult_lt_r _ _ n Hn). lra. Qed.
Lemma linspace_ascending : forall a b n, (a <= b)%Q -> ascending (linspace a b n).
Proof.
  intros a b n H i Hi. rewrite linspace_length in Hi.
  pose proof (linspace_step a b n i ltac:(lia)) as E.
  assert (0 <= (nth (S i) (linspace a b n) 0 - nth i (linspace a b n) 0))%Q; [|lra].
  apply (Qmult_pos_cancel _ (inject_Z (Z.of_nat n))); [apply inject_pos; lia|lra].
Qed.
Lemma linspace_increasing : forall a b n, (a < b)%Q -> increasing (linspace a b n).
Proof.
  intros a b n H i Hi. rewrite linspace_length in Hi.
  pose proof (linspace_step a b n i ltac:(lia)) as E.
  assert (0 < (nth (S i) (linspace a b n) 0 - nth i (linspace a b n) 0))%Q; [|lra].
  apply (Qmult_pos_cancel_lt _ (inject_Z (Z.of_nat n))); [apply inject_pos; lia|lra].
Qed.
Lemma linspace_first : forall a b n, 0 < n -> (nth 0 (linspace a b n) 0 == a)%Q.
Proof.
  intros. rewrite linspace_nth by lia. destruct (Nat.eqb_spec 0 n); [lia|]. simpl. ring.
Qed.
Lemma linspace_last : forall a b n, nth n (linspace a b n) 0%Q = b.
Proof. intros. rewrite linspace_nth by lia. rewrite Nat.eqb_refl. reflexivity. Qed.

Lemma qmin_le : forall d l x, In x l -> (qmin d l <= x)%Q.
Proof.
  induction l; simpl; intros x []; subst.
  - destruct (Qltb x (qmin d l)) eqn:E; [lra|]. apply Qltb_false in E. exact E.
  - specialize (IHl x H). destruct (Qltb a (qmin d l)) eqn:E; [apply Qltb_true in E; lra|exact IHl].
Qed.
Lemma qmin_in : forall d l, qmin d l = d \/ In (qmin d l) l.
Proof.
  induction l; simpl; auto. destruct (Qltb a (qmin d l)); auto. destruct IHl; auto.
Qed.
Lemma qmax_ge : forall d l x, In x l -> (x <= qmax d l)%Q.
Proof.
  induction l; simpl; intros x []; subst.
  - destruct (Qltb (qmax d l) x) eqn:E; [lra|]. apply Qltb_false in E. exact E.
  - specialize (IHl x H). destruct (Qltb (qmax d l) a) eqn:E; [apply Qltb_true in E; lra|exact IHl].
Qed.
Lemma qmax_in : forall d l, qmax d l = d \/ In (qmax d l) l.
Proof.
  induction l; simpl; auto. destruct (Qltb (qmax d l) a); auto. destruct IHl; auto.
Qed.

Lemma ascending_cons : forall a l, ascending (a :: l) <->
  (match l with [] => True | b :: _ => (a <= b)%Q end) /\ ascending l.
Proof.
  intros a l. split.
  - intro H. split; [destruct l; auto; apply (H 0); simpl; lia|].
    intros i Hi. apply (H (S i)). simpl. lia.
  - intros [H1 H2] [|i] Hi; [destruct l; simpl in Hi; [lia|exact H1]|].
    apply (H2 i). simpl in Hi. lia.
Qed.
Lemma ascending_in : forall a l x, ascending (a :: l) -> In x l -> (a <= x)%Q.
Proof.
  intros a l x H Hx. apply In_nth with (d := 0%Q) in Hx as [i [Hi <-]].
  apply (ascending_nth (a :: l) 0 (S i) H); simpl; lia.
Qed.
Lemma ascending_filter : forall f l, ascending l -> ascending (filter f l).
Proof.
  induction l; intro H; [exact H|]. simpl. pose proof H as H'.
  apply ascending_cons in H' as [_ Hl]. destruct (f a); auto.
  apply ascending_cons. split; [|auto].
  destruct (filter f l) as [|b t] eqn:E; auto.
  apply (ascending_in a l b H). assert (In b (b :: t)) as Hb by (left; auto).
  rewrite <- E in Hb. apply filter_In in Hb. tauto.
Qed.
Lemma ascending_app : forall l1 l2, ascending l1 -> ascending l2 ->
  (forall x y, In x l1 -> In y l2 -> (x <= y)%Q) -> ascending (l1 ++ l2).
Proof.
  induction l1; intros l2 H1 H2 H; [exact H2|]. simpl. apply ascending_cons.
  pose proof H1 as H1'. apply ascending_cons in H1' as [Ha Hl]. split.
  - destruct l1 as [|b t]; [|exact Ha]. simpl. destruct l2 as [|b t]; auto.
    apply H; simpl; auto.
  - apply IHl1; auto. intros; apply H; simpl; auto.
Qed.

(** * (k, mu) bins *)
Lemma pairs_length : forall e, length (pairs e) = length e - 1.
Proof.
  induction e as [|a [|b tl] IH]; try reflexivity. cbn [pairs length] in *. lia.
Qed.
Lemma pairs_nth : forall e i, S i < length e ->
  nth i (pairs e) (0, 0)%Q = (nth i e 0, nth (S i) e 0)%Q.
Proof.
  induction e as [|a [|b tl] IH]; intros i Hi; [simpl in Hi; lia|simpl in Hi; lia|].
  destruct i; [reflexivity|]. cbn [pairs nth]. rewrite IH; [reflexivity|]. simpl in Hi |- *. lia.
Qed.
Lemma half_open_unique : forall e i j x, ascending e -> S i < length e -> S j < length e ->
  half_open e i x -> half_open e j x -> i = j.
Proof.
  intros e i j x A Hi Hj [H1 H2] [H3 H4].
  apply (in_bin_unique e i j x); auto; split; auto.
Qed.
Lemma half_open_exists : forall e x, (2 <= length e) -> (nth 0 e 0 <= x)%Q ->
  (x < nth (length e - 1) e 0)%Q -> exists i, S i < length e /\ half_open e i x.
Proof.
  intros e x HL H1 H2.
  destruct (in_bin_exists e x HL) as [i [Hi [B1 B2]]]; [split; [auto|lra]|].
  exists i. split; auto. split; auto. destruct B2 as [B2|[B2 B3]]; auto.
  replace (length e - 1) with (S i) in H2 by lia. lra.
Qed.
