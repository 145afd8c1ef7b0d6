(** More of C38: a uniform shift in a periodic box. *)
From Coq Require Import List Arith Reals Bool Lia Lra Psatz.
From Verif Require Import RLib StatsProps PvModel PvProps.
Import ListNotations.
Local Open Scope R_scope.

(** Positions as multiples of a unit: which bin they fall into. *)
Lemma in_bin_units : forall depth M D j p, (0 < depth)%nat -> (0 < M)%nat -> 0 < D ->
  in_bin depth D j (INR p * (D / (INR depth * INR M))) =
  ((j * M <=? p) && (if S j =? depth then p <=? S j * M else p <? S j * M))%nat.
Proof.
  intros depth M D j p Hd HM HD. assert (Pd : 0 < INR depth) by now apply lt_0_INR. assert (PM : 0 < INR M) by now apply lt_0_INR.
  set (w := D / (INR depth * INR M)). assert (W : 0 < w) by (apply Rdiv_lt_0_compat; [lra|now apply Rmult_lt_0_compat]).
  assert (C : forall a b, INR a * w <= INR b * w <-> (a <= b)%nat).
  { intros a b. split; intro H; [apply INR_le; apply Rmult_le_reg_r in H; assumption|apply Rmult_le_compat_r; [lra|apply le_INR; exact H]]. }
  assert (Ew : forall a, INR a * (D / INR depth) = INR (a * M) * w) by (intro a; unfold w; rewrite mult_INR; field; lra).
  unfold in_bin. rewrite !edge_eq by lia. rewrite !Ew. f_equal.
  - destruct (Rle_dec (INR (j * M) * w) (INR p * w)) as [K|K]; rewrite C in K; symmetry; [now apply Nat.leb_le|now apply Nat.leb_nle].
  - destruct (S j =? depth)%nat.
    + destruct (Rle_dec (INR p * w) (INR (S j * M) * w)) as [K|K]; rewrite C in K; symmetry; [now apply Nat.leb_le|now apply Nat.leb_nle].
    + destruct (Rlt_dec (INR p * w) (INR (S j * M) * w)) as [K|K]; symmetry.
      * apply Nat.ltb_lt. apply Nat.nle_gt. intro G. apply C in G. lra.
      * apply Nat.ltb_ge. apply Rnot_lt_le in K. now apply C in K.
Qed.

(** If every cell of a periodic box is shifted by k cells towards larger positions, cell j
    holds afterwards what cell j - k held, counted around the box, except for one particle:
    the last one of the box ends exactly on an edge and is counted one cell too far. *)
Theorem C38_periodic_shift : forall depth num D dT k j, (1 <= k < depth)%nat -> (0 < num)%nat -> 0 < D -> length dT = depth -> (j < depth)%nat ->
  nth j (distorted depth num D true dT (repeat (INR k * (D / INR depth)) depth)) 0 =
  nth ((j + depth - k) mod depth) dT 0 +
  (if Nat.eqb j k then last dT 0 / INR num else if Nat.eqb j (k - 1) then - (last dT 0 / INR num) else 0).
Proof.
  intros depth num D dT k j Hk Hn HD L Hj. assert (HN : (2 <= depth * num)%nat) by nia.
  set (M := (depth * num - 1)%nat). assert (HM0 : (0 < M)%nat) by (unfold M; lia).
  assert (HM : 0 < INR M) by (apply lt_0_INR; lia). assert (HP : 0 < INR depth) by (apply lt_0_INR; lia).
  set (s := INR k * (D / INR depth)). set (w := D / (INR depth * INR M)).
  assert (W : 0 < w) by (apply Rdiv_lt_0_compat; [lra|now apply Rmult_lt_0_compat]).
  assert (DW : D = INR (depth * M) * w) by (unfold w; rewrite mult_INR; field; lra).
  assert (PQ : forall q, (q < depth * num)%nat -> moved depth num D (repeat s depth) q = INR (q * depth + k * M) * w).
  { intros q Hq. unfold moved, N. assert (I0 : interpolated (repeat s depth) (depth * num) q = s).
    { pose proof (interpolated_between (repeat s depth) (depth * num) q s s HN ltac:(rewrite repeat_length; lia) Hq) as I.
      assert (forall x, In x (repeat s depth) -> s <= x <= s) by (intros x Ix; apply repeat_spec in Ix; lra). specialize (I H). lra. }
    rewrite I0. unfold linspace. fold M. rewrite Rminus_0_r, Rplus_0_l. unfold s, w. rewrite plus_INR, !mult_INR. field. lra. }
  assert (WQ : forall q, (q < depth * num)%nat -> wrap D true (moved depth num D (repeat s depth) q) =
     INR (if depth * M <? q * depth + k * M then q * depth + k * M - depth * M else q * depth + k * M)%nat * w).
  { intros q Hq. rewrite (PQ q Hq). unfold wrap. assert (0 <= INR (q * depth + k * M) * w) by (apply Rmult_le_pos; [apply pos_INR|lra]).
    destruct (Rlt_dec (INR (q * depth + k * M) * w) 0) as [X|_]; [lra|].
    destruct (Nat.ltb_spec (depth * M) (q * depth + k * M)) as [X|X].
    - destruct (Rlt_dec D (INR (q * depth + k * M) * w)) as [_|Y].
      + rewrite minus_INR by lia. rewrite DW at 1. ring.
      + exfalso. apply Y. rewrite DW at 1. apply Rmult_lt_compat_r; [lra|]. now apply lt_INR.
    - destruct (Rlt_dec D (INR (q * depth + k * M) * w)) as [Y|_]; [|reflexivity].
      exfalso. rewrite DW in Y at 1. apply Rmult_lt_reg_r in Y; [|lra]. apply INR_lt in Y. lia. }
  assert (IB : forall q, (q < depth * num)%nat ->
    in_bin depth D j (wrap D true (moved depth num D (repeat s depth) q)) =
    if Nat.eqb q M then Nat.eqb j k else Nat.eqb (q / num) ((j + depth - k) mod depth)).
  { intros q Hq. rewrite (WQ q Hq). unfold w. rewrite in_bin_units by (lia || lra). clear PQ WQ W DW w s HM HP.
    assert (Hm : (q / num < depth)%nat) by (apply Nat.div_lt_upper_bound; lia).
    pose proof (proj2 (bin_of_particle depth num q (q / num) Hn Hq Hm) eq_refl) as [A1 A2]. fold M in A1, A2.
    set (m := (q / num)%nat) in *.
    assert (Q1 : (q * depth <= depth * M)%nat) by (unfold M; nia).
    assert (NE : (q <> M -> q * depth < S m * M)%nat).
    { intro X. destruct (Nat.eqb_spec (S m) depth) as [E|E]; [|exact A2]. rewrite E. assert (q < M)%nat by (unfold M in *; lia). nia. }
    assert (Z0 : (m <> 0 -> m * M < q * depth)%nat).
    { intros X. unfold m in *. pose proof (Nat.mul_div_le q num ltac:(lia)) as Y. assert (m * (depth * num) <= q * depth)%nat by (unfold m; nia).
      unfold M. rewrite Nat.mul_sub_distr_l. unfold m in *. nia. }
    assert (T : ((j + depth - k) mod depth = if k <=? j then j - k else j + depth - k)%nat).
    { destruct (Nat.leb_spec k j) as [J|J]; [replace (j + depth - k)%nat with (j - k + 1 * depth)%nat by lia; rewrite Nat.mod_add by lia|]; apply Nat.mod_small; lia. }
    rewrite T. clear T.
    destruct (Nat.eqb_spec q M) as [E|E].
    - subst q. replace (depth * M <? M * depth + k * M)%nat with true by (symmetry; apply Nat.ltb_lt; nia).
      replace (M * depth + k * M - depth * M)%nat with (k * M)%nat by nia.
      destruct (Nat.eqb_spec j k) as [J|J].
      + subst j. rewrite Nat.leb_refl. destruct (S k =? depth)%nat; [apply Nat.leb_le|apply Nat.ltb_lt]; lia.
      + destruct (Nat.lt_trichotomy j k) as [G|[G|G]]; [|contradiction|].
        * assert (S j <> depth) by lia. replace (S j =? depth)%nat with false by (symmetry; now apply Nat.eqb_neq).
          replace (k * M <? S j * M)%nat with false by (symmetry; apply Nat.ltb_ge; nia). apply andb_false_r.
        * replace (j * M <=? k * M)%nat with false by (symmetry; apply Nat.leb_gt; nia). reflexivity.
    - specialize (NE E).
      assert (K : forall p t, (t * M <= p)%nat -> (p < S t * M)%nat -> (t < depth)%nat ->
        ((j * M <=? p) && (if S j =? depth then p <=? S j * M else p <? S j * M))%nat = Nat.eqb t j).
      { intros p t H1 H2 H3. destruct (Nat.eqb_spec t j) as [J|J].
        - subst t. apply andb_true_iff. split; [now apply Nat.leb_le|]. destruct (S j =? depth)%nat; [apply Nat.leb_le|apply Nat.ltb_lt]; lia.
        - apply not_true_is_false. intro B. apply andb_true_iff in B as [B1 B2]. apply Nat.leb_le in B1.
          destruct (Nat.lt_trichotomy t j) as [G|[G|G]]; [nia|contradiction|].
          destruct (Nat.eqb_spec (S j) depth) as [F|F]; [lia|]. apply Nat.ltb_lt in B2. nia. }
      destruct (Nat.leb_spec depth (m + k)) as [B|B].
      + assert (m <> 0)%nat by lia. specialize (Z0 H).
        replace (depth * M <? q * depth + k * M)%nat with true by (symmetry; apply Nat.ltb_lt; nia).
        rewrite (K _ (m + k - depth)%nat) by nia.
        destruct (Nat.leb_spec k j) as [J|J].
        * replace (m + k - depth =? j)%nat with false by (symmetry; apply Nat.eqb_neq; lia). symmetry. apply Nat.eqb_neq. lia.
        * destruct (Nat.eqb_spec (m + k - depth) j) as [F|F]; symmetry; [apply Nat.eqb_eq|apply Nat.eqb_neq]; lia.
      + replace (depth * M <? q * depth + k * M)%nat with false by (symmetry; apply Nat.ltb_ge; nia).
        rewrite (K _ (m + k)%nat) by nia.
        destruct (Nat.leb_spec k j) as [J|J].
        * destruct (Nat.eqb_spec (m + k) j) as [F|F]; symmetry; [apply Nat.eqb_eq|apply Nat.eqb_neq]; lia.
        * replace (m + k =? j)%nat with false by (symmetry; apply Nat.eqb_neq; lia). symmetry. apply Nat.eqb_neq. lia. }
  assert (WM : weight num dT M = last dT 0 / INR num).
  { unfold weight. f_equal. replace (M / num)%nat with (depth - 1)%nat.
    - rewrite <- L. clear. induction dT as [|x l IH]; [reflexivity|]. destruct l as [|y l]; [reflexivity|]. cbn [length Nat.sub]. cbn [length Nat.sub] in IH. rewrite Nat.sub_0_r in IH. cbn [nth last]. exact IH.
    - unfold M. apply (Nat.div_unique _ _ _ (num - 1)); nia. }
  assert (MD : (M / num)%nat = (depth - 1)%nat) by (unfold M; symmetry; apply (Nat.div_unique _ _ _ (num - 1)); nia).
  set (t := ((j + depth - k) mod depth)%nat) in *.
  assert (Ht : (t < depth)%nat) by (apply Nat.mod_upper_bound; lia).
  assert (Tlast : Nat.eqb (depth - 1) t = Nat.eqb j (k - 1)).
  { unfold t. destruct (Nat.leb_spec k j) as [J|J].
    - replace (j + depth - k)%nat with (j - k + 1 * depth)%nat by lia. rewrite Nat.mod_add, Nat.mod_small by lia.
      replace (j =? k - 1)%nat with false by (symmetry; apply Nat.eqb_neq; lia). apply Nat.eqb_neq. lia.
    - rewrite Nat.mod_small by lia. destruct (Nat.eqb_spec j (k - 1)) as [F|F]; [apply Nat.eqb_eq|apply Nat.eqb_neq]; lia. }
  unfold distorted, N.
  set (F := fun j => rsum (map (fun q => if in_bin depth D j (wrap D true (moved depth num D (repeat s depth) q)) then weight num dT q else 0) (seq 0 (depth * num)))).
  rewrite (nth_indep _ 0 (F 0%nat)) by (rewrite map_length, seq_length; exact Hj). rewrite (map_nth F), seq_nth by exact Hj. unfold F. cbn [Nat.add].
  set (c := if Nat.eqb j k then last dT 0 / INR num else if Nat.eqb j (k - 1) then - (last dT 0 / INR num) else 0).
  rewrite (rsum_ext _ (fun q => (fun m => if Nat.eqb m t then nth t dT 0 else 0) (q / num)%nat / INR num + (if Nat.eqb M q then (fun _ => c) q else 0))).
  - rewrite rsum_plus. f_equal.
    + rewrite (rsum_blocks (fun m => if Nat.eqb m t then nth t dT 0 else 0) num depth Hn).
      rewrite (rsum_ext _ (fun m => if Nat.eqb t m then nth m dT 0 else 0)).
      * apply (rsum_delta Nat.eqb (fun m => nth m dT 0)); [apply Nat.eqb_eq|apply seq_NoDup|apply in_seq; lia].
      * intros m _. rewrite Nat.eqb_sym. destruct (Nat.eqb t m) eqn:E; [|reflexivity]. apply Nat.eqb_eq in E. now rewrite E.
    + apply (rsum_delta Nat.eqb (fun _ => c)); [apply Nat.eqb_eq|apply seq_NoDup|apply in_seq; unfold M; lia].
  - intros q Iq. apply in_seq in Iq. rewrite IB by lia. rewrite (Nat.eqb_sym M q). cbv beta.
    destruct (Nat.eqb_spec q M) as [E|E].
    + subst q. rewrite WM, MD, Tlast. unfold c. destruct (Nat.eqb_spec j k) as [J|J].
      * replace (j =? k - 1)%nat with false by (symmetry; apply Nat.eqb_neq; lia). unfold Rdiv. ring.
      * destruct (Nat.eqb j (k - 1)) eqn:J1; [|unfold Rdiv; ring]. apply Nat.eqb_eq in Tlast. rewrite <- Tlast, <- MD.
        unfold weight in WM. rewrite WM. ring.
    + unfold weight. destruct (Nat.eqb (q / num) t) eqn:E2; [|unfold Rdiv; ring]. apply Nat.eqb_eq in E2. rewrite E2. ring.
Qed.
Print Assumptions C38_periodic_shift.

(** So a periodic box does not simply go around: with the default ten particles a tenth of the last
    cell arrives one cell too far. *)
Theorem C38_periodic_shift_refuted : forall depth num D dT k, (1 <= k < depth)%nat -> (0 < num)%nat -> 0 < D -> length dT = depth -> last dT 0 <> 0 ->
  nth k (distorted depth num D true dT (repeat (INR k * (D / INR depth)) depth)) 0 = nth 0 dT 0 + last dT 0 / INR num /\
  nth k (distorted depth num D true dT (repeat (INR k * (D / INR depth)) depth)) 0 <> nth 0 dT 0.
Proof.
  intros depth num D dT k Hk Hn HD L Hl. rewrite C38_periodic_shift by (lia || assumption). rewrite Nat.eqb_refl.
  replace ((k + depth - k) mod depth)%nat with 0%nat by (replace (k + depth - k)%nat with (0 + 1 * depth)%nat by lia; rewrite Nat.mod_add, Nat.mod_small; lia).
  split; [reflexivity|]. assert (0 < INR num) by now apply lt_0_INR. intro X.
  assert (last dT 0 / INR num = 0) by lra. apply Hl. replace (last dT 0) with (last dT 0 / INR num * INR num) by (field; lra). rewrite H0. ring.
Qed.
Print Assumptions C38_periodic_shift_refuted.
Example C38_periodic_shift_refuted_sat : exists (depth : nat) (num : nat) (D : R) (dT : list R) (k : nat), (1 <= k < depth)%nat /\ (0 < num)%nat /\ 0 < D /\ length dT = depth /\ last dT 0 <> 0.
Proof. exists 4%nat, 10%nat, 100, [1; 2; 3; 4], 2%nat. repeat split; try lia; try lra; try reflexivity. cbn. lra. Qed.

Example C38_periodic_sat : (1 <= 1 < 3)%nat /\ (0 < 10)%nat /\ length [5; 7; 9] = 3%nat /\ last [5; 7; 9] 0 <> 0.
Proof. cbn. repeat split; auto; try lia. Qed.
