From Coq Require Import List Arith ZArith QArith Qround Lqa Lia Bool.
From Verif Require Import PyBase QLib FindIdxModel FindIdxSpec FindIdxProps LosModel.
Import ListNotations.
Local Open Scope nat_scope.

Definition strictly_ascending (l : list Q) : Prop := forall i j, i < j < length l -> (nth i l 0 < nth j l 0)%Q.
Definition strictly_descending (l : list Q) : Prop := forall i j, i < j < length l -> (nth j l 0 < nth i l 0)%Q.

Lemma not_constant : forall l, 2 <= length l -> strictly_ascending l \/ strictly_descending l -> ~ constant l.
Proof.
  intros l L M C. assert (E : (nth 0 l 0 == nth 1 l 0)%Q) by (apply C; apply nth_In; lia).
  destruct M as [M|M]; specialize (M 0 1 ltac:(lia)); lra.
Qed.
Lemma find_one_spec : forall ar v, 2 <= length ar -> strictly_ascending ar \/ strictly_descending ar ->
  exists r c, find_one ar v = Some r /\ clamped ar v c /\ interpolates ar r c.
Proof.
  intros ar v L M. destruct (C30_find_idx ar [v]) as [vs [out [E [L1 [L2 H]]]]].
  - intro N. subst ar. cbn in L. lia.
  - destruct M as [M|M]; [left|right]; intros i Hi; specialize (M i (S i) ltac:(lia)); lra.
  - apply not_constant; assumption.
  - destruct (H 0 ltac:(cbn; lia)) as [C [r [Er I]]]. cbn in L1, L2. destruct out as [|o [|? ?]]; cbn in L2; try lia. destruct vs as [|c [|? ?]]; cbn in L1; try lia. cbn [nth] in *.
    exists r, c. unfold find_one. rewrite E, Er. auto.
Qed.
(** The smallest index whose value is at least [c]. *)
Lemma ceil_index : forall ar r c, strictly_ascending ar -> interpolates ar r c ->
  exists k, Qceiling r = Z.of_nat k /\ k < length ar /\ (c <= nth k ar 0)%Q /\ (forall j, j < k -> (nth j ar 0 < c)%Q).
Proof.
  intros ar r c A [i [t [Hi [T [Er Ec]]]]]. pose proof (A i (S i) ltac:(lia)) as S1.
  destruct (Qlt_le_dec 0 t) as [P|P].
  - exists (S i). split; [|split; [lia|split]].
    + rewrite (Qceiling_comp _ _ Er). assert (U : (Qceiling (inject_Z (Z.of_nat i) + t) <= Z.of_nat (S i))%Z).
      { rewrite <- (Qceiling_Z (Z.of_nat (S i))). apply Qceiling_resp_le. rewrite Nat2Z.inj_succ, <- Z.add_1_r, inject_Z_plus. change (inject_Z 1) with 1%Q. lra. }
      pose proof (Qle_ceiling (inject_Z (Z.of_nat i) + t)) as Lc. assert (Lz : (Z.of_nat i < Qceiling (inject_Z (Z.of_nat i) + t))%Z) by (rewrite Zlt_Qlt; lra). lia.
    + rewrite Ec. assert ((1 - t) * nth i ar 0 <= (1 - t) * nth (S i) ar 0)%Q by (apply Qmult_le_l_weak; lra) || nra. nra.
    + intros j Hj. assert ((nth j ar 0 <= nth i ar 0)%Q) by (destruct (Nat.eq_dec j i) as [->|]; [lra|pose proof (A j i ltac:(lia)); lra]). rewrite Ec. nra.
  - assert (t == 0)%Q by lra. exists i. split; [|split; [lia|split]].
    + rewrite (Qceiling_comp _ (inject_Z (Z.of_nat i))) by (rewrite Er; lra). apply Qceiling_Z.
    + rewrite Ec, H. lra.
    + intros j Hj. pose proof (A j i ltac:(lia)). rewrite Ec, H. lra.
Qed.
Lemma clamped_cases : forall ar v c x, clamped ar v c -> In x ar -> ((v <= x -> c <= x) /\ (x <= v -> x <= c) /\ (x < v -> x < c \/ forall y, In y ar -> y <= x) /\ (v < x -> c < x \/ forall y, In y ar -> x <= y))%Q.
Proof.
  intros ar v c x [lo [hi [Il [Ih [B [C1 [C2 C3]]]]]]] I. pose proof (B x I).
  destruct (Qlt_le_dec v lo) as [D1|D1]; [|destruct (Qlt_le_dec hi v) as [D2|D2]].
  - assert (c == lo)%Q by (apply C1; lra). repeat split; intros; try lra. destruct (Qlt_le_dec lo x); [left; lra|]. right. intros y Iy. pose proof (B y Iy). lra.
  - assert (c == hi)%Q by (apply C2; lra). repeat split; intros; try lra. destruct (Qlt_le_dec x hi); [left; lra|]. right. intros y Iy. pose proof (B y Iy). lra.
  - assert (c == v)%Q by (apply C3; lra). repeat split; intros; try lra; left; lra.
Qed.
Lemma py_slice_cells : forall (l : list Q) a b, b <= length l -> py_slice l a b = map (fun k => nth k l 0%Q) (seq a (b - a)).
Proof.
  intros l a b H. unfold py_slice. apply nth_ext with (d := 0%Q) (d' := 0%Q).
  - rewrite firstn_length, skipn_length, map_length, seq_length. lia.
  - intros k Hk. rewrite firstn_length, skipn_length in Hk.
    assert (G : forall (l : list Q) a m k, k < m -> nth k (firstn m (skipn a l)) 0%Q = nth (a + k) l 0%Q).
    { clear. intros l a m k. revert m k l. induction a as [|a IH]; intros m k l H.
      - rewrite skipn_O. revert m l H. induction k; intros [|m] [|x l] H; try lia; cbn; auto. apply IHk. lia.
      - destruct l as [|x l]; [rewrite skipn_nil, firstn_nil; destruct k; reflexivity|]. cbn [skipn Nat.add nth]. apply IH. exact H. }
    rewrite G by lia. set (f := fun k => nth k l 0%Q). rewrite (nth_indep (map f _) 0%Q (f 0)) by (rewrite map_length, seq_length; lia).
    rewrite map_nth, seq_nth by lia. reflexivity.
Qed.
Lemma mean_cells : forall (l : list Q) a b, a < b -> b <= length l ->
  mean (py_slice l a b) = Some (qsum (map (fun k => nth k l 0%Q) (seq a (b - a))) / inject_Z (Z.of_nat (b - a)))%Q.
Proof.
  intros l a b H L. rewrite py_slice_cells by exact L. unfold mean. rewrite map_length, seq_length. destruct (b - a) eqn:E; [lia|]. reflexivity.
Qed.

(** * Smoothing along the line of sight *)
(** With ascending redshifts the output slice is the mean over the slices from the first one
    not below z - dz/2 up to and including the first one not below z + dz/2. *)
Theorem C41_los_tophat : forall redshifts dz line i, strictly_ascending redshifts -> 2 <= length redshifts -> length line = length redshifts ->
  i < length redshifts -> (0 <= nth i dz 0)%Q ->
  let low := (nth i redshifts 0 - nth i dz 0 / 2)%Q in let high := (nth i redshifts 0 + nth i dz 0 / 2)%Q in
  exists lo hi, lo <= i <= hi /\ hi < length redshifts /\
   (forall j, j < length redshifts -> (lo <= j <= hi <-> (low <= nth j redshifts 0)%Q /\ (j = 0 \/ (nth (j - 1) redshifts 0 < high)%Q))) /\
   smooth_slice redshifts dz line i = Some (Some (qsum (map (fun k => nth k line 0%Q) (seq lo (hi + 1 - lo))) / inject_Z (Z.of_nat (hi + 1 - lo)))%Q).
Proof.
  intros redshifts dz line i A L2 LL Hi D low high. set (z := nth i redshifts 0%Q) in *.
  assert (Lz : (low <= z <= high)%Q) by (unfold low, high; split; assert (0 <= nth i dz 0 / 2)%Q by (apply Qle_shift_div_l; [reflexivity|lra]); lra).
  destruct (find_one_spec redshifts low L2 (or_introl A)) as [r1 [c1 [E1 [K1 I1]]]]. destruct (find_one_spec redshifts high L2 (or_introl A)) as [r2 [c2 [E2 [K2 I2]]]].
  destruct (ceil_index _ _ _ A I1) as [lo [F1 [B1 [G1 S1]]]]. destruct (ceil_index _ _ _ A I2) as [hi [F2 [B2 [G2 S2]]]].
  assert (In1 : forall j, j < length redshifts -> In (nth j redshifts 0%Q) redshifts) by (intros; apply nth_In; assumption).
  assert (M : forall j k, j <= k < length redshifts -> (nth j redshifts 0 <= nth k redshifts 0)%Q) by (intros j k H; destruct (Nat.eq_dec j k) as [->|]; [lra|pose proof (A j k ltac:(lia)); lra]).
  assert (P1 : forall j, j < length redshifts -> (lo <= j <-> (low <= nth j redshifts 0)%Q)).
  { intros j Hj. destruct (clamped_cases _ _ _ _ K1 (In1 j Hj)) as [Q1 [Q2 [Q3 Q4]]]. split; intro H.
    - destruct (Qlt_le_dec (nth j redshifts 0%Q) low) as [X|X]; [|exact X]. destruct (Q3 X) as [Y|Y].
      + pose proof (M lo j ltac:(lia)). lra.
      + pose proof (Y z (In1 i Hi)). lra.
    - destruct (le_lt_dec lo j) as [X|X]; [exact X|]. pose proof (S1 j X). pose proof (Q1 H). lra. }
  assert (P2 : forall j, j < length redshifts -> (j <= hi <-> j = 0 \/ (nth (j - 1) redshifts 0 < high)%Q)).
  { intros j Hj. destruct j as [|j]; [split; [auto|lia]|]. replace (S j - 1) with j by lia. destruct (clamped_cases _ _ _ _ K2 (In1 j ltac:(lia))) as [Q1 [Q2 [Q3 Q4]]]. split; intro H.
    - right. destruct (Qlt_le_dec (nth j redshifts 0%Q) high) as [X|X]; [exact X|]. pose proof (S2 j ltac:(lia)). pose proof (Q1 X). lra.
    - destruct H as [H|H]; [lia|]. destruct (le_lt_dec (S j) hi) as [X|X]; [exact X|]. exfalso. pose proof (M hi j ltac:(lia)). destruct (Q3 H) as [Y|Y]; [lra|].
      pose proof (Y _ (In1 (S j) Hj)). pose proof (A j (S j) ltac:(lia)). lra. }
  exists lo, hi. split; [split|split; [exact B2|split]].
  - apply P1; [exact Hi|]. fold z. lra.
  - apply P2; [exact Hi|]. destruct i as [|i]; [left; reflexivity|right]. replace (S i - 1) with i by lia. pose proof (A i (S i) ltac:(lia)). fold z in H. lra.
  - intros j Hj. rewrite <- P1, <- P2 by exact Hj. reflexivity.
  - unfold smooth_slice. fold z. fold low. fold high. rewrite E1, E2, F1, F2. rewrite Nat2Z.id. replace (Z.to_nat (Z.of_nat hi + 1)) with (hi + 1) by lia. f_equal. apply mean_cells; [|lia].
    assert (lo <= i) by (apply P1; [exact Hi|fold z; lra]). assert (i <= hi); [|lia]. apply P2; [exact Hi|]. destruct i as [|i]; [left; reflexivity|right]. replace (S i - 1) with i by lia. pose proof (A i (S i) ltac:(lia)) as T. fold z in T. lra.
Qed.
Print Assumptions C41_los_tophat.
Example C41_los_tophat_sat : strictly_ascending [7; 8; 9]%Q /\ smooth_slice [7; 8; 9]%Q [1; 1; 1]%Q [3; 6; 12]%Q 1 = Some (Some ((6 + (12 + 0)) / 2)%Q).
Proof. split; [|reflexivity]. intros i j H. cbn in H. assert (C : (i = 0 /\ j = 1) \/ (i = 0 /\ j = 2) \/ (i = 1 /\ j = 2)) by lia. destruct C as [[-> ->]|[[-> ->]|[-> ->]]]; reflexivity. Qed.

Lemma qsum_between : forall (f : nat -> Q) l lo hi, (forall k, In k l -> (lo <= f k <= hi)%Q) -> l <> [] ->
  (lo <= qsum (map f l) / inject_Z (Z.of_nat (length l)) <= hi)%Q.
Proof.
  intros f l lo hi B N. assert (P : (0 < inject_Z (Z.of_nat (length l)))%Q) by (change 0%Q with (inject_Z 0); rewrite <- Zlt_Qlt; destruct l; [congruence|cbn; lia]).
  assert (G : (inject_Z (Z.of_nat (length l)) * lo <= qsum (map f l) <= inject_Z (Z.of_nat (length l)) * hi)%Q).
  { clear P N. induction l as [|a l IH]; [change (inject_Z (Z.of_nat (length (@nil nat)))) with 0%Q; cbn [map qsum fold_right]; split; lra|]. cbn [length map]. rewrite Nat2Z.inj_succ, <- Z.add_1_r, inject_Z_plus. change (inject_Z 1) with 1%Q. cbn [qsum fold_right]. fold (qsum (map f l)).
    assert (lo <= f a <= hi)%Q by (apply B; left; reflexivity). assert (IH' := IH (fun k Hk => B k (or_intror Hk))). lra. }
  split; [apply Qle_shift_div_l|apply Qle_shift_div_r]; try exact P; lra.
Qed.
(** So every value stays within the range of the line of sight. *)
Corollary C41_los_tophat_between : forall redshifts dz line i a b, strictly_ascending redshifts -> 2 <= length redshifts -> length line = length redshifts ->
  i < length redshifts -> (0 <= nth i dz 0)%Q -> (forall v, In v line -> (a <= v <= b)%Q) ->
  exists m, smooth_slice redshifts dz line i = Some (Some m) /\ (a <= m <= b)%Q.
Proof.
  intros redshifts dz line i a b A L2 LL Hi D B. destruct (C41_los_tophat redshifts dz line i A L2 LL Hi D) as [lo [hi [H1 [H2 [_ E]]]]]. eexists. split; [exact E|].
  pose proof (qsum_between (fun k => nth k line 0%Q) (seq lo (hi + 1 - lo)) a b) as Q. rewrite seq_length in Q. apply Q.
  - intros k Ik. apply in_seq in Ik. apply B, nth_In. lia.
  - destruct (hi + 1 - lo) eqn:F; [lia|discriminate].
Qed.
Print Assumptions C41_los_tophat_between.

(** With descending redshifts (frequencies ascending) nothing is smoothed: every slice comes
    out unchanged or NaN. *)
Lemma ceil_index_desc : forall ar r c, strictly_descending ar -> interpolates ar r c ->
  exists k, Qceiling r = Z.of_nat k /\ k < length ar /\ (nth k ar 0 <= c)%Q /\ (forall j, j < k -> (c < nth j ar 0)%Q).
Proof.
  intros ar r c A [i [t [Hi [T [Er Ec]]]]]. pose proof (A i (S i) ltac:(lia)) as S1.
  destruct (Qlt_le_dec 0 t) as [P|P].
  - exists (S i). split; [|split; [lia|split]].
    + rewrite (Qceiling_comp _ _ Er). assert (U : (Qceiling (inject_Z (Z.of_nat i) + t) <= Z.of_nat (S i))%Z).
      { rewrite <- (Qceiling_Z (Z.of_nat (S i))). apply Qceiling_resp_le. rewrite Nat2Z.inj_succ, <- Z.add_1_r, inject_Z_plus. change (inject_Z 1) with 1%Q. lra. }
      pose proof (Qle_ceiling (inject_Z (Z.of_nat i) + t)) as Lc. assert (Lz : (Z.of_nat i < Qceiling (inject_Z (Z.of_nat i) + t))%Z) by (rewrite Zlt_Qlt; lra). lia.
    + rewrite Ec. nra.
    + intros j Hj. assert ((nth i ar 0 <= nth j ar 0)%Q) by (destruct (Nat.eq_dec j i) as [->|]; [lra|pose proof (A j i ltac:(lia)); lra]). rewrite Ec. nra.
  - assert (t == 0)%Q by lra. exists i. split; [|split; [lia|split]].
    + rewrite (Qceiling_comp _ (inject_Z (Z.of_nat i))) by (rewrite Er; lra). apply Qceiling_Z.
    + rewrite Ec, H. lra.
    + intros j Hj. pose proof (A j i ltac:(lia)). rewrite Ec, H. lra.
Qed.
Theorem C41_los_tophat_descending : forall redshifts dz line i, strictly_descending redshifts -> 2 <= length redshifts -> length line = length redshifts ->
  i < length redshifts -> (0 <= nth i dz 0)%Q ->
  smooth_slice redshifts dz line i = Some None \/ exists m, smooth_slice redshifts dz line i = Some (Some m) /\ (m == nth i line 0)%Q.
Proof.
  intros redshifts dz line i A L2 LL Hi D. set (z := nth i redshifts 0%Q). set (low := (z - nth i dz 0 / 2)%Q). set (high := (z + nth i dz 0 / 2)%Q).
  assert (Lz : (low <= z <= high)%Q) by (unfold low, high; split; assert (0 <= nth i dz 0 / 2)%Q by (apply Qle_shift_div_l; [reflexivity|lra]); lra).
  destruct (find_one_spec redshifts low L2 (or_intror A)) as [r1 [c1 [E1 [K1 I1]]]]. destruct (find_one_spec redshifts high L2 (or_intror A)) as [r2 [c2 [E2 [K2 I2]]]].
  destruct (ceil_index_desc _ _ _ A I1) as [lo [F1 [B1 [G1 S1]]]]. destruct (ceil_index_desc _ _ _ A I2) as [hi [F2 [B2 [G2 S2]]]].
  assert (Iz : In z redshifts) by (apply nth_In; exact Hi).
  destruct (clamped_cases _ _ _ _ K1 Iz) as [Q1 _]. destruct (clamped_cases _ _ _ _ K2 Iz) as [_ [Q2 _]].
  assert (X1 : i <= lo) by (destruct (le_lt_dec i lo); [assumption|]; pose proof (A lo i ltac:(lia)) as T; fold z in T; specialize (Q1 ltac:(lra)); lra).
  assert (X2 : hi <= i) by (destruct (le_lt_dec hi i); [assumption|]; pose proof (S2 i ltac:(lia)) as T; fold z in T; specialize (Q2 ltac:(lra)); lra).
  unfold smooth_slice. fold z. fold low. fold high. rewrite E1, E2, F1, F2, Nat2Z.id. replace (Z.to_nat (Z.of_nat hi + 1)) with (hi + 1) by lia.
  destruct (Nat.eq_dec lo hi) as [Eq|Ne].
  - right. eexists. rewrite mean_cells by lia. split; [reflexivity|]. replace (hi + 1 - lo) with 1 by lia. assert (lo = i) as -> by lia. cbn. field.
  - left. rewrite py_slice_cells by lia. replace (hi + 1 - lo) with 0 by lia. reflexivity.
Qed.
Print Assumptions C41_los_tophat_descending.
Example C41_los_tophat_descending_sat : exists (redshifts : list Q) (dz : list Q) (line : list Q) (i : nat), strictly_descending redshifts /\ 2 <= length redshifts /\ length line = length redshifts /\ i < length redshifts /\ (0 <= nth i dz 0)%Q.
Proof. exists [9; 8; 7]%Q, [1; 1; 1]%Q, [3; 6; 12]%Q, 1. split; [|cbn; repeat split; try lia; discriminate]. intros [|[|i]] [|[|[|j]]] H; cbn in H; try lia; reflexivity. Qed.

(** * Rebinning *)
Lemma floor_index : forall ar r c, strictly_ascending ar -> interpolates ar r c ->
  exists k, LosModel.truncate r = Z.of_nat k /\ k < length ar /\ (nth k ar 0 <= c)%Q /\ (forall j, k < j < length ar -> (c < nth j ar 0)%Q).
Proof.
  intros ar r c A [i [t [Hi [T [Er Ec]]]]]. pose proof (A i (S i) ltac:(lia)) as S1.
  assert (Z0 : (0 <= inject_Z (Z.of_nat i))%Q) by (change 0%Q with (inject_Z 0); rewrite <- Zle_Qle; lia).
  assert (TR : LosModel.truncate r = Qfloor r) by (unfold LosModel.truncate; replace (Qle_bool 0 r) with true; [reflexivity|]; symmetry; apply Qle_bool_iff; rewrite Er; lra). rewrite TR.
  destruct (Qlt_le_dec t 1) as [P|P].
  - exists i. split; [|split; [lia|split]].
    + rewrite (Qfloor_comp _ _ Er). pose proof (Qfloor_le (inject_Z (Z.of_nat i) + t)) as F1. pose proof (Qlt_floor (inject_Z (Z.of_nat i) + t)) as F2.
      rewrite inject_Z_plus in F2. change (inject_Z 1) with 1%Q in F2.
      assert (U : (Qfloor (inject_Z (Z.of_nat i) + t) < Z.of_nat i + 1)%Z) by (rewrite Zlt_Qlt, inject_Z_plus; change (inject_Z 1) with 1%Q; lra).
      assert (V : (Z.of_nat i - 1 < Qfloor (inject_Z (Z.of_nat i) + t))%Z).
      { assert ((inject_Z (Z.of_nat i) < inject_Z (Qfloor (inject_Z (Z.of_nat i) + t) + 1))%Q) by (rewrite inject_Z_plus; change (inject_Z 1) with 1%Q; lra). rewrite <- Zlt_Qlt in H. lia. }
      lia.
    + rewrite Ec. nra.
    + intros j Hj. assert ((nth (S i) ar 0 <= nth j ar 0)%Q) by (destruct (Nat.eq_dec j (S i)) as [->|]; [lra|pose proof (A (S i) j ltac:(lia)); lra]). rewrite Ec. nra.
  - assert (t == 1)%Q by lra. exists (S i). split; [|split; [lia|split]].
    + rewrite (Qfloor_comp _ (inject_Z (Z.of_nat (S i)))) by (rewrite Er, Nat2Z.inj_succ, <- Z.add_1_r, inject_Z_plus; change (inject_Z 1) with 1%Q; lra). apply Qfloor_Z.
    + rewrite Ec, H. lra.
    + intros j Hj. pose proof (A (S i) j ltac:(lia)). rewrite Ec, H. lra.
Qed.
Lemma floor_index_desc : forall ar r c, strictly_descending ar -> interpolates ar r c ->
  exists k, LosModel.truncate r = Z.of_nat k /\ k < length ar /\ (c <= nth k ar 0)%Q /\ (forall j, k < j < length ar -> (nth j ar 0 < c)%Q).
Proof.
  intros ar r c A [i [t [Hi [T [Er Ec]]]]]. pose proof (A i (S i) ltac:(lia)) as S1.
  assert (Z0 : (0 <= inject_Z (Z.of_nat i))%Q) by (change 0%Q with (inject_Z 0); rewrite <- Zle_Qle; lia).
  assert (TR : LosModel.truncate r = Qfloor r) by (unfold LosModel.truncate; replace (Qle_bool 0 r) with true; [reflexivity|]; symmetry; apply Qle_bool_iff; rewrite Er; lra). rewrite TR.
  destruct (Qlt_le_dec t 1) as [P|P].
  - exists i. split; [|split; [lia|split]].
    + rewrite (Qfloor_comp _ _ Er). pose proof (Qfloor_le (inject_Z (Z.of_nat i) + t)) as F1. pose proof (Qlt_floor (inject_Z (Z.of_nat i) + t)) as F2.
      rewrite inject_Z_plus in F2. change (inject_Z 1) with 1%Q in F2.
      assert (U : (Qfloor (inject_Z (Z.of_nat i) + t) < Z.of_nat i + 1)%Z) by (rewrite Zlt_Qlt, inject_Z_plus; change (inject_Z 1) with 1%Q; lra).
      assert (V : (Z.of_nat i - 1 < Qfloor (inject_Z (Z.of_nat i) + t))%Z).
      { assert ((inject_Z (Z.of_nat i) < inject_Z (Qfloor (inject_Z (Z.of_nat i) + t) + 1))%Q) by (rewrite inject_Z_plus; change (inject_Z 1) with 1%Q; lra). rewrite <- Zlt_Qlt in H. lia. }
      lia.
    + rewrite Ec. nra.
    + intros j Hj. assert ((nth j ar 0 <= nth (S i) ar 0)%Q) by (destruct (Nat.eq_dec j (S i)) as [->|]; [lra|pose proof (A (S i) j ltac:(lia)); lra]). rewrite Ec. nra.
  - assert (t == 1)%Q by lra. exists (S i). split; [|split; [lia|split]].
    + rewrite (Qfloor_comp _ (inject_Z (Z.of_nat (S i)))) by (rewrite Er, Nat2Z.inj_succ, <- Z.add_1_r, inject_Z_plus; change (inject_Z 1) with 1%Q; lra). apply Qfloor_Z.
    + rewrite Ec, H. lra.
    + intros j Hj. pose proof (A (S i) j ltac:(lia)). rewrite Ec, H. lra.
Qed.
Lemma round_zero : forall q, (0 < q)%Q -> (round_half_even q = 0%Z <-> (q <= 1 # 2)%Q) /\ (0 <= round_half_even q)%Z.
Proof.
  intros q P. unfold round_half_even. pose proof (Qfloor_le q). pose proof (Qlt_floor q) as F. rewrite inject_Z_plus in F. change (inject_Z 1) with 1%Q in F.
  assert (F0 : (0 <= Qfloor q)%Z) by (change 0%Z with (Qfloor 0); apply Qfloor_resp_le; lra).
  destruct (Z_lt_le_dec 0 (Qfloor q)) as [B|B].
  - assert (1 <= q)%Q by (assert ((inject_Z 1 <= inject_Z (Qfloor q))%Q) by (rewrite <- Zle_Qle; lia); change (inject_Z 1) with 1%Q in *; lra).
    destruct (Qcompare (q - inject_Z (Qfloor q)) (1 # 2)); [destruct (Z.even (Qfloor q))| |]; (split; [split; intro; [lia|exfalso; lra]|lia]).
  - assert (E0 : Qfloor q = 0%Z) by lia. rewrite E0 in *. change (inject_Z 0) with 0%Q in *. destruct (Qcompare_spec (q - 0) (1 # 2)) as [C|C|C]; cbn [Z.even]; (split; [split; intro; try reflexivity; try lia; try lra; exfalso; lra|lia]).
Qed.

Lemma all_some_map : forall {A} (f : nat -> option A) l, (forall i, In i l -> f i <> None) ->
  exists r, all_some (map f l) = Some r /\ length r = length l /\ forall d k, k < length l -> f (nth k l 0) = Some (nth k r d).
Proof.
  induction l as [|a l IH]; intro H; [exists []; cbn; repeat split; intros; lia|].
  destruct IH as [r [E [L N]]]; [intros; apply H; right; assumption|]. destruct (f a) as [x|] eqn:F; [|exfalso; apply (H a); [left; reflexivity|exact F]].
  exists (x :: r). cbn [map all_some]. rewrite F, E. cbn [length]. repeat split; [lia|]. intros d [|k] Hk; cbn [nth]; [exact F|apply N; lia].
Qed.
Lemma last_nth : forall (l : list Q), l <> [] -> last l 0%Q = nth (length l - 1) l 0%Q.
Proof. induction l as [|a [|b l] IH]; intro N; [congruence|reflexivity|]. cbn [last]. cbn [last] in IH. rewrite IH by discriminate. cbn [length nth]. replace (S (S (length l)) - 1) with (S (S (length l) - 1)) by lia. reflexivity. Qed.
Lemma arange_length : forall a b s, length (arange a b s) = Z.to_nat (Qceiling ((b - a) / s)).
Proof. intros. unfold arange. rewrite map_length, seq_length. reflexivity. Qed.
Lemma arange_nth : forall a b s i, i < length (arange a b s) -> (nth i (arange a b s) 0 == a + inject_Z (Z.of_nat i) * s)%Q.
Proof.
  intros a b s i H. unfold arange in *. set (f := fun i => (a + inject_Z (Z.of_nat i) * s)%Q) in *. rewrite (nth_indep _ 0%Q (f 0)) by exact H. rewrite map_length, seq_length in H.
  rewrite map_nth, seq_nth by exact H. reflexivity.
Qed.
Definition n_out (distances : list Q) (cell : Q) : Q := ((last distances 0 - nth 0 distances 0) / cell)%Q.
Lemma n_out_pos : forall distances cell, strictly_ascending distances -> 2 <= length distances -> (0 < cell)%Q -> (0 < n_out distances cell)%Q.
Proof.
  intros d c A L C. unfold n_out. rewrite last_nth by (intro; subst; cbn in L; lia). pose proof (A 0 (length d - 1) ltac:(lia)). apply Qlt_shift_div_l; [exact C|lra].
Qed.
Lemma truncate_pos : forall q, (0 <= q)%Q -> LosModel.truncate q = Qfloor q.
Proof. intros q H. unfold LosModel.truncate. replace (Qle_bool 0 q) with true; [reflexivity|]. symmetry. apply Qle_bool_iff. exact H. Qed.

(** The window that slice [k] is averaged over: the [s] cells ending at k + (s-1)//2. *)
Definition window_sum (s : nat) (line : list Q) (top : Z) : Q :=
  qsum (map (fun b => if (0 <=? top - Z.of_nat b)%Z then nth (Z.to_nat (top - Z.of_nat b)) line 0%Q else 0%Q) (seq 0 s)).
Lemma conv_full_window : forall s line top, (conv_full s line top == window_sum s line top / inject_Z (Z.of_nat s))%Q.
Proof.
  intros s line top. unfold conv_full, window_sum. unfold Qdiv. rewrite Qmult_comm, <- qsum_scale. apply qsum_ext. intros b _. unfold cell_or_zero.
  destruct (Z.ltb_spec (top - Z.of_nat b) 0); destruct (Z.leb_spec 0 (top - Z.of_nat b)); try lia; reflexivity.
Qed.

(** The call succeeds iff the output is less than twice as long as the input; it returns
    floor(n) slices but ceil(n) redshifts. *)
Theorem C43_mpc : forall distances line cell, strictly_ascending distances -> 2 <= length distances -> (0 < cell)%Q ->
  let n := n_out distances cell in let s := Z.to_nat (round_half_even (inject_Z (Z.of_nat (length distances)) / n)) in
  ((inject_Z (Z.of_nat (length distances)) * 2 <= n)%Q -> bin_in_mpc distances line cell = None) /\
  ((n < inject_Z (Z.of_nat (length distances)) * 2)%Q ->
   exists slices outd, bin_in_mpc distances line cell = Some (slices, outd) /\
   Z.of_nat (length slices) = Qfloor n /\ Z.of_nat (length outd) = Qceiling n /\ 1 <= s /\
   (forall i, i < length outd -> (nth i outd 0 == nth 0 distances 0 + inject_Z (Z.of_nat i) * cell)%Q) /\
   forall i, i < length slices -> exists k, k < length distances /\
     (nth k distances 0 <= nth i outd 0)%Q /\ (forall j, k < j < length distances -> (nth i outd 0 < nth j distances 0)%Q) /\
     (nth i slices 0 == window_sum s line (Z.of_nat k + (Z.of_nat s - 1) / 2) / inject_Z (Z.of_nat s))%Q).
Proof.
  intros distances line cell A L C n s. pose proof (n_out_pos distances cell A L C) as P. fold n in P.
  assert (PL : (0 < inject_Z (Z.of_nat (length distances)))%Q) by (change 0%Q with (inject_Z 0); rewrite <- Zlt_Qlt; lia).
  assert (PQ : (0 < inject_Z (Z.of_nat (length distances)) / n)%Q) by (apply Qlt_shift_div_l; [exact P|lra]).
  destruct (round_zero _ PQ) as [R0 R1].
  assert (F0 : (0 <= Qfloor n)%Z) by (change 0%Z with (Qfloor 0); apply Qfloor_resp_le; lra).
  unfold bin_in_mpc. fold (n_out distances cell). fold n.
  assert (Qeq_bool n 0 = false) as -> by (destruct (Qeq_bool n 0) eqn:E; [apply Qeq_bool_iff in E; lra|reflexivity]).
  rewrite (truncate_pos n) by lra.
  replace (round_half_even (inject_Z (Z.of_nat (length distances)) / n) <? 0)%Z with false by (symmetry; apply Z.ltb_ge; exact R1).
  replace (Qfloor n <? 0)%Z with false by (symmetry; apply Z.ltb_ge; exact F0). cbn [orb]. split.
  - intro H. assert (T : (inject_Z (Z.of_nat (length distances)) / n <= 1 # 2)%Q) by (apply Qle_shift_div_r; [exact P|lra]). apply R0 in T. rewrite T. cbn [Z.eqb andb].
    assert (Fl : (2 <= Qfloor n)%Z).
    { change 2%Z with (Qfloor (inject_Z 2)). apply Qfloor_resp_le. assert (inject_Z 2 <= inject_Z (Z.of_nat (length distances)))%Q by (rewrite <- Zle_Qle; lia). change (inject_Z 2) with 2%Q in *. lra. }
    replace (0 <? Z.to_nat (Qfloor n)) with true by (symmetry; apply Nat.ltb_lt; lia). reflexivity.
  - intro H. assert (S1 : (1 <= round_half_even (inject_Z (Z.of_nat (length distances)) / n))%Z).
    { assert (round_half_even (inject_Z (Z.of_nat (length distances)) / n) <> 0%Z); [|lia]. intro E. apply R0 in E.
      assert (Z : ((1 # 2) * n < inject_Z (Z.of_nat (length distances)))%Q) by lra. apply (Qlt_not_le _ _ Z). rewrite <- (Qmult_div_r (inject_Z (Z.of_nat (length distances))) n) by lra. rewrite Qmult_comm. apply Qmult_le_compat_r; lra. }
    replace (round_half_even (inject_Z (Z.of_nat (length distances)) / n) =? 0)%Z with false by (symmetry; apply Z.eqb_neq; lia). cbn [andb]. fold s.
    set (outd := arange (nth 0 distances 0%Q) (last distances 0%Q) cell).
    assert (LO : length outd = Z.to_nat (Qceiling n)) by (apply arange_length).
    assert (FC : (Qfloor n <= Qceiling n)%Z) by (rewrite Zle_Qle; pose proof (Qfloor_le n); pose proof (Qle_ceiling n); lra).
    set (f := fun i => option_map (fun r => conv_same s line (LosModel.truncate r)) (find_one distances (nth i outd 0%Q))).
    destruct (all_some_map f (seq 0 (Z.to_nat (Qfloor n)))) as [r [E [LR N]]].
    { intros i _. unfold f. destruct (find_one_spec distances (nth i outd 0%Q) L (or_introl A)) as [q [c [E1 _]]]. rewrite E1. discriminate. }
    rewrite seq_length in *. exists r, outd. rewrite E. split; [reflexivity|]. split; [lia|]. split; [lia|]. split; [unfold s; lia|]. split; [intros i Hi; apply arange_nth; exact Hi|].
    intros i Hi. specialize (N 0%Q i ltac:(lia)). rewrite seq_nth in N by lia. cbn [Nat.add] in N. unfold f in N.
    destruct (find_one_spec distances (nth i outd 0%Q) L (or_introl A)) as [q [c [E1 [K I]]]]. rewrite E1 in N. cbn [option_map] in N. injection N as N.
    assert (Lo : (nth 0 distances 0 <= nth i outd 0)%Q) by (unfold outd; rewrite arange_nth by (fold outd; lia); assert (0 <= inject_Z (Z.of_nat i) * cell)%Q by (apply Qmult_le_0_compat; [change 0%Q with (inject_Z 0); rewrite <- Zle_Qle; lia|lra]); lra).
    assert (Hi2 : (nth i outd 0 <= last distances 0)%Q).
    { unfold outd; rewrite arange_nth by (fold outd; lia). assert (B : (inject_Z (Z.of_nat i) <= n)%Q) by (pose proof (Qfloor_le n); assert ((inject_Z (Z.of_nat i) <= inject_Z (Qfloor n))%Q) by (rewrite <- Zle_Qle; lia); lra).
      assert (B2 : (inject_Z (Z.of_nat i) * cell <= n * cell)%Q) by (apply Qmult_le_compat_r; lra). unfold n, n_out in B2. rewrite (Qmult_comm (_ / cell)), Qmult_div_r in B2 by lra. lra. }
    assert (Ec : (c == nth i outd 0)%Q).
    { assert (I0 : In (nth 0 distances 0%Q) distances) by (apply nth_In; lia). assert (I9 : In (last distances 0%Q) distances) by (rewrite last_nth by (intro; subst; cbn in L; lia); apply nth_In; lia).
      destruct K as [lo [hi [_ [_ [B [C1 [C2 C3]]]]]]]. apply C3. pose proof (B _ I0). pose proof (B _ I9). lra. }
    destruct (floor_index _ _ _ A I) as [k [TK [Bk [G1 G2]]]]. exists k. split; [exact Bk|]. split; [lra|]. split; [intros j Hj; specialize (G2 j Hj); lra|].
    rewrite <- N, TK. unfold conv_same. apply conv_full_window.
Qed.
Print Assumptions C43_mpc.
Example C43_mpc_sat : exists sl outd, bin_in_mpc [0; 3; 7; 10]%Q [1; 1; 1; 1]%Q 4 = Some (sl, outd) /\ length sl = 2 /\ length outd = 3 /\ (nth 0 sl 0 == 1 # 2)%Q.
Proof. vm_compute. eexists. eexists. split; [reflexivity|]. repeat split. Qed.
(** The lengths agree iff the depth is a whole number of cells; otherwise there is one
    redshift without a slice. *)
Corollary C43_mpc_lengths : forall distances line cell slices outd, strictly_ascending distances -> 2 <= length distances -> (0 < cell)%Q ->
  bin_in_mpc distances line cell = Some (slices, outd) ->
  (length slices = length outd <-> exists z, (n_out distances cell == inject_Z z)%Q) /\
  ((~ exists z, (n_out distances cell == inject_Z z)%Q) -> length outd = S (length slices)).
Proof.
  intros distances line cell slices outd A L C E. destruct (C43_mpc distances line cell A L C) as [R S]. set (n := n_out distances cell) in *.
  destruct (Qlt_le_dec n (inject_Z (Z.of_nat (length distances)) * 2)) as [H|H]; [|rewrite (R H) in E; discriminate].
  destruct (S H) as [sl [od [E' [L1 [L2 _]]]]]. rewrite E' in E. injection E as <- <-.
  pose proof (Qfloor_le n) as F1. pose proof (Qle_ceiling n) as F2. pose proof (Qlt_floor n) as F3. pose proof (Qceiling_lt n) as F4.
  assert (G : (exists z, (n == inject_Z z)%Q) <-> Qfloor n = Qceiling n).
  { split; [intros [z Z]; rewrite (Qfloor_comp _ _ Z), (Qceiling_comp _ _ Z), Qfloor_Z, Qceiling_Z; reflexivity|intro Q; exists (Qfloor n); rewrite Q in F1 at 1; rewrite Q; lra]. }
  split; [rewrite G; lia|]. rewrite G. intro NE.
  assert (Qceiling n <= Qfloor n + 1)%Z; [|assert (Qfloor n <= Qceiling n)%Z by (rewrite Zle_Qle; lra); lia].
  rewrite <- (Qceiling_Z (Qfloor n + 1)). apply Qceiling_resp_le. lra.
Qed.
Print Assumptions C43_mpc_lengths.

Lemma window_constant : forall s line top c, (forall k, k < length line -> (nth k line 0 == c)%Q) -> (0 <= top)%Z -> (top < Z.of_nat (length line))%Z ->
  (window_sum s line top == inject_Z (Z.of_nat (Nat.min s (Z.to_nat top + 1))) * c)%Q.
Proof.
  intros s line top c K T0 T1. unfold window_sum. induction s as [|s IH]; [cbn [seq map qsum fold_right Nat.min Z.of_nat]; change (inject_Z 0) with 0%Q; ring|]. rewrite seq_S, map_app, qsum_app, IH. cbn [map qsum fold_right Nat.add].
  destruct (Z.leb_spec 0 (top - Z.of_nat s)) as [H|H].
  - rewrite K by lia. replace (Nat.min (S s) (Z.to_nat top + 1)) with (Nat.min s (Z.to_nat top + 1) + 1) by lia. rewrite Nat2Z.inj_add, inject_Z_plus. change (inject_Z (Z.of_nat 1)) with 1%Q. lra.
  - replace (Nat.min (S s) (Z.to_nat top + 1)) with (Nat.min s (Z.to_nat top + 1)) by lia. lra.
Qed.
(** The first slice of a constant light cone is too faint by the factor ceil(s/2)/s. *)
Theorem C43_mpc_first_slice : forall distances line cell slices outd c, strictly_ascending distances -> 2 <= length distances -> (0 < cell)%Q ->
  length line = length distances -> (forall k, k < length line -> (nth k line 0 == c)%Q) ->
  bin_in_mpc distances line cell = Some (slices, outd) -> 0 < length slices ->
  let s := Z.to_nat (round_half_even (inject_Z (Z.of_nat (length distances)) / n_out distances cell)) in
  (nth 0 slices 0 == c * (inject_Z (Z.of_nat ((s + 1) / 2)) / inject_Z (Z.of_nat s)))%Q.
Proof.
  intros distances line cell slices outd c A L C LL K E Z s. destruct (C43_mpc distances line cell A L C) as [R S]. set (n := n_out distances cell) in *. pose proof (n_out_pos distances cell A L C) as P. fold n in P.
  destruct (Qlt_le_dec n (inject_Z (Z.of_nat (length distances)) * 2)) as [H|H]; [|rewrite (R H) in E; discriminate].
  destruct (S H) as [sl [od [E' [L1 [L2 [S1 [O V]]]]]]]. rewrite E' in E. injection E as E1 E2. subst sl od. fold s in V, S1.
  destruct (V 0 Z) as [k [Bk [G1 [G2 W]]]].
  assert (FC : (Qfloor n <= Qceiling n)%Z) by (rewrite Zle_Qle; pose proof (Qfloor_le n); pose proof (Qle_ceiling n); lra).
  specialize (O 0 ltac:(lia)). change (inject_Z (Z.of_nat 0)) with 0%Q in O.
  assert (k = 0) by (destruct k; [reflexivity|]; pose proof (A 0 (Datatypes.S k) ltac:(lia)); lra). subst k.
  assert (N1 : (1 <= n)%Q) by (pose proof (Qfloor_le n); assert ((inject_Z 1 <= inject_Z (Qfloor n))%Q) by (rewrite <- Zle_Qle; lia); change (inject_Z 1) with 1%Q in *; lra).
  assert (SL : s <= length distances).
  { unfold s. assert (B : (inject_Z (Z.of_nat (length distances)) / n <= inject_Z (Z.of_nat (length distances)))%Q).
    { apply Qle_shift_div_r; [exact P|]. assert ((0 <= inject_Z (Z.of_nat (length distances)))%Q) by (change 0%Q with (inject_Z 0); rewrite <- Zle_Qle; lia). nra. }
    set (q := (inject_Z (Z.of_nat (length distances)) / n)%Q) in *. assert (RB : (round_half_even q <= Z.of_nat (length distances))%Z); [|lia].
    unfold round_half_even. pose proof (Qfloor_le q) as F1. assert (FB : (Qfloor q <= Z.of_nat (length distances))%Z) by (rewrite Zle_Qle; lra).
    destruct (Z.eq_dec (Qfloor q) (Z.of_nat (length distances))) as [Eq|Ne].
    - assert (E0 : (q - inject_Z (Qfloor q) == 0)%Q) by (clear - Eq F1 B; rewrite Eq in F1 |- *; lra). rewrite E0. cbn [Qcompare]. change (0 ?= 1 # 2)%Q with Lt. cbv iota. lia.
    - destruct (Qcompare (q - inject_Z (Qfloor q)) (1 # 2)); [destruct (Z.even (Qfloor q))| |]; lia. }
  rewrite W. rewrite (window_constant s line _ c K).
  - assert (Hs : Z.to_nat (Z.of_nat 0 + (Z.of_nat s - 1) / 2) + 1 = (s + 1) / 2).
    { apply Nat2Z.inj. rewrite Nat2Z.inj_add, Z2Nat.id, Nat2Z.inj_div, Nat2Z.inj_add by (change (Z.of_nat 0) with 0%Z; rewrite Z.add_0_l; apply Z.div_pos; lia). change (Z.of_nat 0) with 0%Z. change (Z.of_nat 1) with 1%Z. change (Z.of_nat 2) with 2%Z. Z.div_mod_to_equations. lia. }
    rewrite Hs. replace (Nat.min s ((s + 1) / 2)) with ((s + 1) / 2).
    + field. intro F. assert (0 < inject_Z (Z.of_nat s))%Q by (change 0%Q with (inject_Z 0); rewrite <- Zlt_Qlt; lia). lra.
    + assert ((s + 1) / 2 <= s); [|lia]. apply Nat.div_le_upper_bound; lia.
  - change (Z.of_nat 0) with 0%Z. rewrite Z.add_0_l. apply Z.div_pos; lia.
  - change (Z.of_nat 0) with 0%Z. rewrite Z.add_0_l. apply Z.div_lt_upper_bound; lia.
Qed.
Print Assumptions C43_mpc_first_slice.
Example C43_mpc_first_slice_sat : exists (distances : list Q) (line : list Q) (cell : Q) (slices : list Q) (outd : list Q) (c : Q), strictly_ascending distances /\ 2 <= length distances /\ (0 < cell)%Q /\ length line = length distances /\ ((forall k, k < length line -> (nth k line 0 == c)%Q)) /\ bin_in_mpc distances line cell = Some (slices, outd) /\ 0 < length slices.
Proof. eexists [0; 3; 7; 10]%Q, [1; 1; 1; 1]%Q, 4%Q, _, _, 1%Q. split; [intros [|[|[|i]]] [|[|[|[|j]]]] H; cbn in H; try lia; reflexivity|]. split; [cbn; lia|]. split; [reflexivity|]. split; [reflexivity|]. split; [intros [|[|[|[|k]]]] H; cbn in H; try lia; reflexivity|]. split; [vm_compute; reflexivity|cbn; lia]. Qed.

(** * [bin_lightcone_in_frequency]: as many frequencies as slices, but every slice averages the
    [s] slices that END at the wanted frequency, and the first one is divided by [s]. *)
Theorem C43_frequency : forall freqs line dnu ratio, strictly_descending freqs -> 2 <= length freqs -> (0 < dnu)%Q ->
  let n := ((nth 0 freqs 0 - last freqs 0) / dnu)%Q in let s := Z.to_nat (Z.max 1 (round_half_even ratio)) in
  ((n <= 1)%Q -> bin_in_frequency freqs line dnu ratio = None) /\
  ((1 < n)%Q -> exists slices outf, bin_in_frequency freqs line dnu ratio = Some (slices, outf) /\
   length slices = length outf /\ Z.of_nat (length outf) = Qceiling n /\
   (forall i, i < length outf -> (nth i outf 0 == nth 0 freqs 0 - inject_Z (Z.of_nat i) * dnu)%Q) /\
   (nth 0 slices 0 == nth 0 line 0 / inject_Z (Z.of_nat s))%Q /\
   forall i, i < length outf -> exists k, k < length freqs /\
     (nth i outf 0 <= nth k freqs 0)%Q /\ (forall j, k < j < length freqs -> (nth j freqs 0 < nth i outf 0)%Q) /\
     (nth i slices 0 == window_sum s line (Z.of_nat k) / inject_Z (Z.of_nat s))%Q).
Proof.
  intros freqs line dnu ratio A L D n s.
  set (outf := arange (nth 0 freqs 0%Q) (last freqs 0%Q) (- dnu)%Q).
  assert (EQ : ((last freqs 0 - nth 0 freqs 0) / - dnu == n)%Q) by (unfold n; field; lra).
  assert (LO : length outf = Z.to_nat (Qceiling n)) by (unfold outf; rewrite arange_length, (Qceiling_comp _ _ EQ); reflexivity).
  assert (P : (0 < n)%Q). { unfold n. rewrite last_nth by (intro; subst; cbn in L; lia). pose proof (A 0 (length freqs - 1) ltac:(lia)). apply Qlt_shift_div_l; lra. }
  unfold bin_in_frequency. fold outf. split.
  - intro H. assert (Qceiling n <= 1)%Z by (change 1%Z with (Qceiling 1); apply Qceiling_resp_le; exact H). replace (length outf <? 2) with true; [reflexivity|]. symmetry. apply Nat.ltb_lt. lia.
  - intro H. assert (C2 : (2 <= Qceiling n)%Z). { pose proof (Qle_ceiling n). assert (1 < Qceiling n)%Z; [|lia]. rewrite Zlt_Qlt. change (inject_Z 1) with 1%Q. lra. }
    replace (length outf <? 2) with false by (symmetry; apply Nat.ltb_ge; lia). fold s.
    assert (MS : map (fun nu => option_map (fun r => conv_full s line (LosModel.truncate r)) (find_one freqs nu)) outf =
      map (fun i => option_map (fun r => conv_full s line (LosModel.truncate r)) (find_one freqs (nth i outf 0%Q))) (seq 0 (length outf))).
    { rewrite <- (map_map (fun i => nth i outf 0%Q) (fun nu => option_map (fun r => conv_full s line (LosModel.truncate r)) (find_one freqs nu))). f_equal. clearbody outf. clear. induction outf as [|a l IH]; [reflexivity|]. cbn [length seq map nth]. f_equal. rewrite <- seq_shift, map_map. exact IH. }
    rewrite MS. set (f := fun i => option_map (fun r => conv_full s line (LosModel.truncate r)) (find_one freqs (nth i outf 0%Q))).
    destruct (all_some_map f (seq 0 (length outf))) as [r [E [LR N]]].
    { intros i _. unfold f. destruct (find_one_spec freqs (nth i outf 0%Q) L (or_intror A)) as [q [c [E1 _]]]. rewrite E1. discriminate. }
    rewrite seq_length in *. rewrite E. exists r, outf. split; [reflexivity|]. split; [exact LR|]. split; [lia|].
    assert (O : forall i, i < length outf -> (nth i outf 0 == nth 0 freqs 0 - inject_Z (Z.of_nat i) * dnu)%Q) by (intros i Hi; unfold outf; rewrite arange_nth by exact Hi; ring). split; [exact O|].
    assert (V : forall i, i < length outf -> exists k, k < length freqs /\
     (nth i outf 0 <= nth k freqs 0)%Q /\ (forall j, k < j < length freqs -> (nth j freqs 0 < nth i outf 0)%Q) /\
     (nth i r 0 == window_sum s line (Z.of_nat k) / inject_Z (Z.of_nat s))%Q).
    { intros i Hi. specialize (N 0%Q i Hi). rewrite seq_nth in N by lia. cbn [Nat.add] in N. unfold f in N.
      destruct (find_one_spec freqs (nth i outf 0%Q) L (or_intror A)) as [q [c [E1 [K I]]]]. rewrite E1 in N. cbn [option_map] in N. injection N as N.
      assert (I0 : In (nth 0 freqs 0%Q) freqs) by (apply nth_In; lia). assert (I9 : In (last freqs 0%Q) freqs) by (rewrite last_nth by (intro; subst; cbn in L; lia); apply nth_In; lia).
      assert (Zi : (0 <= inject_Z (Z.of_nat i))%Q) by (change 0%Q with (inject_Z 0); rewrite <- Zle_Qle; lia).
      assert (H1 : (nth i outf 0 <= nth 0 freqs 0)%Q) by (rewrite O by exact Hi; assert (0 <= inject_Z (Z.of_nat i) * dnu)%Q by (apply Qmult_le_0_compat; lra); lra).
      assert (H2 : (last freqs 0 <= nth i outf 0)%Q).
      { rewrite O by exact Hi. assert (B : (inject_Z (Z.of_nat i) <= n)%Q).
        { pose proof (Qceiling_lt n) as F4. assert ((inject_Z (Z.of_nat i) <= inject_Z (Qceiling n - 1))%Q) by (rewrite <- Zle_Qle; lia). lra. }
        assert (B2 : (inject_Z (Z.of_nat i) * dnu <= n * dnu)%Q) by (apply Qmult_le_compat_r; lra). unfold n in B2. rewrite (Qmult_comm (_ / dnu)), Qmult_div_r in B2 by lra. lra. }
      assert (Ec : (c == nth i outf 0)%Q) by (destruct K as [lo [hi [_ [_ [B [C1 [C2' C3]]]]]]]; apply C3; pose proof (B _ I0); pose proof (B _ I9); lra).
      destruct (floor_index_desc _ _ _ A I) as [k [TK [Bk [G1 G2]]]]. exists k. split; [exact Bk|]. split; [lra|]. split; [intros j Hj; specialize (G2 j Hj); lra|].
      rewrite <- N, TK. apply conv_full_window. }
    split; [|exact V].
    destruct (V 0 ltac:(lia)) as [k [Bk [G1 [G2 W]]]]. specialize (O 0 ltac:(lia)). change (inject_Z (Z.of_nat 0)) with 0%Q in O.
    assert (k = 0) by (destruct k; [reflexivity|]; pose proof (A 0 (S k) ltac:(lia)); lra). subst k. rewrite W.
    assert (S1 : 1 <= s) by (unfold s; lia). assert (WS : (window_sum s line (Z.of_nat 0) == nth 0 line 0)%Q).
    { unfold window_sum. destruct s as [|s']; [lia|]. cbn [seq map]. change (Z.of_nat 0 - Z.of_nat 0)%Z with 0%Z. cbn [Z.leb Z.compare Z.to_nat]. cbn [qsum fold_right].
      fold (qsum (map (fun b => if (0 <=? Z.of_nat 0 - Z.of_nat b)%Z then nth (Z.to_nat (Z.of_nat 0 - Z.of_nat b)) line 0%Q else 0%Q) (seq 1 s'))).
      rewrite (qsum_ext _ (fun _ => 0%Q)); [rewrite qsum_const; lra|]. intros b Hb. apply in_seq in Hb. destruct (Z.leb_spec 0 (Z.of_nat 0 - Z.of_nat b)); [lia|reflexivity]. }
    rewrite WS. reflexivity.
Qed.
Print Assumptions C43_frequency.
Example C43_frequency_sat : exists sl outf, bin_in_frequency [10; 9; 8; 7]%Q [6; 6; 6; 6]%Q (3 # 2) (2 # 1) = Some (sl, outf) /\ length sl = 2 /\ (nth 0 sl 0 == 3)%Q /\ (nth 1 sl 0 == 6)%Q.
Proof. vm_compute. eexists. eexists. split; [reflexivity|]. repeat split. Qed.
