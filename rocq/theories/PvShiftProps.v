(** More of C38: where the signal goes under a uniform shift. *)
From Coq Require Import List Arith Reals Bool Lia Lra Psatz.
From Verif Require Import RLib StatsProps PvModel PvProps.
Import ListNotations.
Local Open Scope R_scope.

(** If every cell is shifted by k cells towards larger positions, in a box that is not
    periodic, cell j holds afterwards what cell j - k held before, and the first k are empty. *)
Theorem C38_uniform_shift : forall depth num D dT k j, (1 <= k < depth)%nat -> (0 < num)%nat -> 0 < D -> length dT = depth -> (j < depth)%nat ->
  nth j (distorted depth num D false dT (repeat (INR k * (D / INR depth)) depth)) 0 = if (j <? k)%nat then 0 else nth (j - k) dT 0.
Proof.
  intros depth num D dT k j Hk Hn HD L Hj. assert (HN : (2 <= depth * num)%nat) by nia.
  assert (HM : 0 < INR (depth * num - 1)) by (apply lt_0_INR; lia). assert (HP : 0 < INR depth) by (apply lt_0_INR; lia).
  set (s := INR k * (D / INR depth)).
  assert (PQ : forall q, (q < depth * num)%nat -> wrap D false (moved depth num D (repeat s depth) q) = INR q * (D / INR (depth * num - 1)) + s).
  { intros q Hq. unfold moved, N. assert (I0 : interpolated (repeat s depth) (depth * num) q = s).
    { pose proof (interpolated_between (repeat s depth) (depth * num) q s s HN ltac:(rewrite repeat_length; lia) Hq) as I.
      assert (forall x, In x (repeat s depth) -> s <= x <= s) by (intros x Ix; apply repeat_spec in Ix; lra). specialize (I H). lra. }
    rewrite I0. unfold linspace, wrap. rewrite Rminus_0_r, Rplus_0_l. reflexivity. }
  assert (IB : forall q, (q < depth * num)%nat ->
    in_bin depth D j (wrap D false (moved depth num D (repeat s depth) q)) = ((k <=? j) && Nat.eqb (q / num) (j - k))%nat).
  { intros q Hq. rewrite (PQ q Hq).
    assert (W : 0 < D / (INR depth * INR (depth * num - 1))) by (apply Rdiv_lt_0_compat; [lra|apply Rmult_lt_0_compat; lra]).
    assert (E2 : INR q * (D / INR (depth * num - 1)) + s = INR (q * depth + k * (depth * num - 1)) * (D / (INR depth * INR (depth * num - 1)))).
    { unfold s. rewrite plus_INR, !mult_INR. field. lra. }
    assert (E1 : forall a, INR a * (D / INR depth) = INR (a * (depth * num - 1)) * (D / (INR depth * INR (depth * num - 1)))).
    { intro a. rewrite mult_INR. field. lra. }
    unfold in_bin. rewrite !edge_eq by lia. rewrite !E1, E2. clear E1 E2.
    set (M := (depth * num - 1)%nat) in *. set (w := D / (INR depth * INR M)) in *.
    assert (C : forall a b, INR a * w <= INR b * w <-> (a <= b)%nat).
    { intros a b. split; intro H; [apply INR_le; apply Rmult_le_reg_r in H; assumption|apply Rmult_le_compat_r; [lra|apply le_INR; exact H]]. }
    assert (B : in_bin depth D j (INR (q * depth + k * M) * w) = ((j * M <=? q * depth + k * M) && (if S j =? depth then q * depth + k * M <=? S j * M else q * depth + k * M <? S j * M))%nat).
    { unfold in_bin. rewrite !edge_eq by lia. assert (Ew : forall a, INR a * (D / INR depth) = INR (a * M) * w) by (intro a; unfold w; rewrite mult_INR; field; lra).
      rewrite !Ew. f_equal.
      - destruct (Rle_dec (INR (j * M) * w) (INR (q * depth + k * M) * w)) as [K|K]; rewrite C in K; symmetry; [now apply Nat.leb_le|now apply Nat.leb_nle].
      - destruct (S j =? depth)%nat.
        + destruct (Rle_dec (INR (q * depth + k * M) * w) (INR (S j * M) * w)) as [K|K]; rewrite C in K; symmetry; [now apply Nat.leb_le|now apply Nat.leb_nle].
        + destruct (Rlt_dec (INR (q * depth + k * M) * w) (INR (S j * M) * w)) as [K|K]; symmetry.
          * apply Nat.ltb_lt. apply Nat.nle_gt. intro G. apply C in G. lra.
          * apply Nat.ltb_ge. apply Rnot_lt_le in K. now apply C in K. }
    assert (B' : in_bin depth D j (INR (q * depth + k * M) * w) =
      ((if Rle_dec (INR (j * M) * w) (INR (q * depth + k * M) * w) then true else false) &&
       (if S j =? depth then if Rle_dec (INR (q * depth + k * M) * w) (INR (S j * M) * w) then true else false
        else if Rlt_dec (INR (q * depth + k * M) * w) (INR (S j * M) * w) then true else false)%nat)).
    { unfold in_bin. rewrite !edge_eq by lia. assert (Ew : forall a, INR a * (D / INR depth) = INR (a * M) * w) by (intro a; unfold w; rewrite mult_INR; field; lra).
      rewrite !Ew. reflexivity. }
    rewrite <- B', B. clear B B' C PQ W w s HM HP.
    assert (Hm : (q / num < depth)%nat) by (apply Nat.div_lt_upper_bound; lia).
    pose proof (proj2 (bin_of_particle depth num q (q / num) Hn Hq Hm) eq_refl) as [A1 A2]. fold M in A1, A2.
    set (m := (q / num)%nat) in *.
    assert (Mp : (depth <= M + 1)%nat) by (unfold M; nia).
    assert (Q1 : (q * depth <= depth * M)%nat) by (unfold M; nia).
    (* never exactly on an inner edge *)
    assert (NE : (S m <> depth -> q * depth < S m * M)%nat) by (intro X; replace (Nat.eqb (S m) depth) with false in A2 by (symmetry; now apply Nat.eqb_neq); exact A2).
    assert (A2' : (q * depth <= S m * M)%nat) by (destruct (S m =? depth)%nat; lia).
    assert (Z0 : (m <> 0 -> m * M < q * depth)%nat).
    { intros X. unfold m in *. pose proof (Nat.mul_div_le q num ltac:(lia)) as Y. assert (m * (depth * num) <= q * depth)%nat by (unfold m; nia).
      unfold M. rewrite Nat.mul_sub_distr_l. unfold m in *. nia. }
    destruct (Nat.leb_spec k j) as [Kj|Kj]; cbn [andb].
    - destruct (Nat.eqb_spec m (j - k)) as [E|E].
      + assert (Ej : j = (m + k)%nat) by lia. apply andb_true_iff. split; [apply Nat.leb_le; rewrite Ej; nia|].
        assert (S m <> depth) by lia. specialize (NE H).
        destruct (S j =? depth)%nat; [apply Nat.leb_le|apply Nat.ltb_lt]; rewrite Ej; nia.
      + apply not_true_is_false. intro T. apply andb_true_iff in T as [T1 T2]. apply Nat.leb_le in T1.
        assert (T3 : (q * depth + k * M <= S j * M)%nat) by (destruct (S j =? depth)%nat; [apply Nat.leb_le in T2|apply Nat.ltb_lt in T2]; lia).
        destruct (Nat.lt_trichotomy m (j - k)) as [G|[G|G]]; [|contradiction|].
        * assert (S m <> depth) by lia. specialize (NE H). assert (S m + k <= j)%nat by lia. nia.
        * assert (m <> 0)%nat by lia. specialize (Z0 H). assert (S j <= m + k)%nat by lia. nia.
    - apply not_true_is_false. intro T. apply andb_true_iff in T as [T1 T2]. apply Nat.leb_le in T1.
      assert (Sj : (S j < depth)%nat) by lia. replace (S j =? depth)%nat with false in T2 by (symmetry; apply Nat.eqb_neq; lia).
      apply Nat.ltb_lt in T2. nia. }
  unfold distorted, N.
  set (F := fun j => rsum (map (fun q => if in_bin depth D j (wrap D false (moved depth num D (repeat s depth) q)) then weight num dT q else 0) (seq 0 (depth * num)))).
  rewrite (nth_indep _ 0 (F 0%nat)) by (rewrite map_length, seq_length; exact Hj). rewrite (map_nth F), seq_nth by exact Hj. unfold F. cbn [Nat.add].
  destruct (Nat.ltb_spec j k) as [J|J].
  - rewrite (rsum_ext _ (fun _ => 0)); [rewrite rsum_const; ring|]. intros q Iq. apply in_seq in Iq. rewrite IB by lia.
    replace (k <=? j)%nat with false by (symmetry; apply Nat.leb_gt; lia). reflexivity.
  - rewrite (rsum_ext _ (fun q => (fun m => if Nat.eqb m (j - k) then nth (j - k) dT 0 else 0) (q / num)%nat / INR num)).
    + rewrite (rsum_blocks (fun m => if Nat.eqb m (j - k) then nth (j - k) dT 0 else 0) num depth Hn).
      rewrite (rsum_ext _ (fun m => if Nat.eqb (j - k) m then nth m dT 0 else 0)).
      * apply (rsum_delta Nat.eqb (fun m => nth m dT 0)); [apply Nat.eqb_eq|apply seq_NoDup|apply in_seq; lia].
      * intros m _. rewrite Nat.eqb_sym. destruct (Nat.eqb (j - k) m) eqn:E; [|reflexivity]. apply Nat.eqb_eq in E. subst m. reflexivity.
    + intros q Iq. apply in_seq in Iq. rewrite IB by lia. replace (k <=? j)%nat with true by (symmetry; apply Nat.leb_le; lia). cbn [andb].
      unfold weight. cbv beta. destruct (Nat.eqb (q / num) (j - k)) eqn:E; [|unfold Rdiv; ring]. apply Nat.eqb_eq in E. rewrite E. reflexivity.
Qed.
Print Assumptions C38_uniform_shift.
Example C38_uniform_shift_sat : exists (depth : nat) (num : nat) (D : R) (dT : list R) (k : nat) (j : nat), (1 <= k < depth)%nat /\ (0 < num)%nat /\ 0 < D /\ length dT = depth /\ (j < depth)%nat.
Proof. exists 3%nat, 2%nat, 10, [1; 2; 3], 1%nat, 2%nat. repeat split; first [lra | lia | reflexivity | discriminate | congruence | auto]. Qed.

Example C38_uniform_sat : (1 <= 1 < 3)%nat /\ (0 < 2)%nat /\ length [5; 7; 9] = 3%nat /\
  nth 1 (distorted 3 2 6 false [5; 7; 9] (repeat (INR 1 * (6 / INR 3)) 3)) 0 = 5.
Proof. repeat split; auto. rewrite C38_uniform_shift by (auto; lra || lia). reflexivity. Qed.
