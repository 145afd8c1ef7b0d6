(** C38: redshift-space distortion of a line of sight. *)
From Coq Require Import List Arith Reals Bool Lia Lra Psatz.
From Verif Require Import RLib StatsProps PvModel.
Import ListNotations.
Local Open Scope R_scope.

Lemma edge_eq : forall depth D j, (0 < depth)%nat -> edge depth D j = INR j * (D / INR depth).
Proof. intros. unfold edge, linspace. rewrite Nat.sub_succ, Nat.sub_0_r, Rminus_0_r. ring. Qed.
(** Each position between 0 and the box depth is in exactly one bin, others in none. *)
Lemma bins_indicator : forall depth D p w, (0 < depth)%nat -> 0 < D ->
  rsum (map (fun j => if in_bin depth D j p then w else 0) (seq 0 depth)) = if Rle_dec 0 p then if Rle_dec p D then w else 0 else 0.
Proof.
  intros depth D p w Hd HD. destruct depth as [|m]; [lia|].
  assert (HI : 0 < INR (S m)) by (apply lt_0_INR; lia).
  assert (W : 0 < D / INR (S m)) by (apply Rdiv_lt_0_compat; assumption).
  assert (Emax : edge (S m) D (S m) = D) by (rewrite edge_eq by lia; field; lra).
  assert (P : forall k, (k <= m)%nat ->
    rsum (map (fun j => if in_bin (S m) D j p then w else 0) (seq 0 k)) = if Rle_dec 0 p then if Rlt_dec p (edge (S m) D k) then w else 0 else 0).
  { induction k as [|k IH]; intro Hk.
    - cbn [seq map]. unfold rsum. cbn [fold_right]. assert (E0 : edge (S m) D 0 = 0) by (rewrite edge_eq by lia; change (INR 0) with 0; ring). rewrite E0.
      destruct (Rle_dec 0 p); [|reflexivity]. destruct (Rlt_dec p 0); [lra|reflexivity].
    - rewrite seq_S, map_app, rsum_app, IH by lia. cbn [Nat.add map]. rewrite rsum_cons. unfold rsum at 1. cbn [fold_right].
      unfold in_bin. replace (Nat.eqb (S k) (S m)) with false by (symmetry; apply Nat.eqb_neq; lia).
      assert (LT : edge (S m) D k < edge (S m) D (S k)) by (rewrite !edge_eq by lia; rewrite (S_INR k); lra).
      assert (P0 : 0 <= edge (S m) D k) by (rewrite edge_eq by lia; apply Rmult_le_pos; [apply pos_INR|lra]).
      destruct (Rle_dec 0 p); destruct (Rlt_dec p (edge (S m) D k)); destruct (Rle_dec (edge (S m) D k) p); destruct (Rlt_dec p (edge (S m) D (S k))); cbn [andb]; lra. }
  rewrite seq_S, map_app, rsum_app, P by lia. cbn [Nat.add map]. rewrite rsum_cons. unfold rsum at 1. cbn [fold_right].
  unfold in_bin. rewrite Nat.eqb_refl. rewrite Emax.
  assert (LT : edge (S m) D m < D) by (apply Rlt_le_trans with (edge (S m) D (S m)); [|lra]; rewrite !edge_eq by lia; apply Rmult_lt_compat_r; [exact W|apply lt_INR; lia]).
  assert (P0 : 0 <= edge (S m) D m) by (rewrite edge_eq by lia; apply Rmult_le_pos; [apply pos_INR|lra]).
  destruct (Rle_dec 0 p); destruct (Rlt_dec p (edge (S m) D m)); destruct (Rle_dec (edge (S m) D m) p); destruct (Rle_dec p D); cbn [andb]; lra.
Qed.
(** The particles of a cell share its signal. *)
Lemma rsum_blocks : forall (f : nat -> R) num k, (0 < num)%nat ->
  rsum (map (fun q => f (q / num)%nat / INR num) (seq 0 (k * num))) = rsum (map f (seq 0 k)).
Proof.
  intros f num k H. assert (HI : 0 < INR num) by (apply lt_0_INR; lia). induction k as [|k IH]; [reflexivity|].
  replace (S k * num)%nat with (k * num + num)%nat by lia. rewrite seq_app, map_app, rsum_app, IH, seq_S, map_app, rsum_app. f_equal.
  rewrite (rsum_ext _ (fun _ => f k / INR num)).
  - rewrite rsum_const, seq_length. cbn [Nat.add map]. unfold rsum. cbn [fold_right]. field. lra.
  - intros q I. apply in_seq in I. do 2 f_equal. symmetry. apply Nat.div_unique with (q - k * num)%nat; lia.
Qed.
Lemma rsum_nth : forall l, rsum (map (fun k => nth k l 0) (seq 0 (length l))) = rsum l.
Proof.
  induction l as [|x l IH]; [reflexivity|]. cbn [length seq map]. rewrite !rsum_cons. cbn [nth]. f_equal.
  rewrite <- seq_shift, map_map. exact IH.
Qed.

(** What a line of sight holds afterwards is what the particles still inside the box carry. *)
Theorem C38_balance : forall depth num D periodic dT dr, (0 < depth)%nat -> (0 < num)%nat -> 0 < D -> length dT = depth ->
  rsum (map (weight num dT) (seq 0 (depth * num))) = rsum dT /\
  rsum (distorted depth num D periodic dT dr) =
    rsum (map (fun q => let p := wrap D periodic (moved depth num D dr q) in
                        if Rle_dec 0 p then if Rle_dec p D then weight num dT q else 0 else 0) (seq 0 (depth * num))).
Proof.
  intros depth num D periodic dT dr Hd Hn HD L. split.
  - unfold weight. rewrite (rsum_blocks (fun k => nth k dT 0) num depth Hn). rewrite <- L. apply rsum_nth.
  - unfold distorted, N. rewrite rsum_swap. apply rsum_ext. intros q _. cbv zeta. apply bins_indicator; assumption.
Qed.
Print Assumptions C38_balance.
Example C38_balance_sat : exists (depth : nat) (num : nat) (D : R) (dT : list R), (0 < depth)%nat /\ (0 < num)%nat /\ 0 < D /\ length dT = depth.
Proof. exists 3%nat, 2%nat, 10, [1; 2; 3]. repeat split; first [lra | lia | reflexivity | discriminate | congruence | auto]. Qed.

(** A particle is back inside after the wrap iff it moved at most one box length out. *)
Lemma wrap_inside : forall D p, 0 < D -> (0 <= wrap D true p <= D <-> - D <= p <= 2 * D).
Proof.
  intros D p HD. unfold wrap. destruct (Rlt_dec p 0); cbv zeta.
  - destruct (Rlt_dec D (p + D)); lra.
  - destruct (Rlt_dec D p); lra.
Qed.
Lemma interpolated_between : forall l n q lo hi, (2 <= n)%nat -> (2 <= length l)%nat -> (q < n)%nat ->
  (forall x, In x l -> lo <= x <= hi) -> lo <= interpolated l n q <= hi.
Proof.
  intros l n q lo hi Hn Hl Hq B. unfold interpolated. set (x := (q * (length l - 1))%nat). set (j := (x / (n - 1))%nat).
  assert (HM : (x mod (n - 1) < n - 1)%nat) by (apply Nat.mod_upper_bound; lia).
  assert (HI : 0 < INR (n - 1)) by (apply lt_0_INR; lia).
  pose proof (Nat.div_mod x (n - 1) ltac:(lia)) as DM. fold j in DM.
  assert (Hj : (j <= length l - 1)%nat) by (apply Nat.div_le_upper_bound; [lia|]; unfold x; nia).
  assert (F : 0 <= INR (x mod (n - 1)) / INR (n - 1) < 1).
  { split; [apply Rmult_le_pos; [apply pos_INR|left; apply Rinv_0_lt_compat; exact HI]|].
    apply Rmult_lt_reg_r with (INR (n - 1)); [exact HI|]. unfold Rdiv. rewrite Rmult_assoc, Rinv_l by lra. rewrite Rmult_1_r, Rmult_1_l. apply lt_INR. exact HM. }
  assert (B1 : lo <= nth j l 0 <= hi) by (apply B, nth_In; lia).
  destruct (Nat.eq_dec j (length l - 1)) as [E|E].
  - assert (M0 : (x mod (n - 1) = 0)%nat) by (unfold x in *; nia). rewrite M0. cbn [INR]. unfold Rdiv. rewrite Rmult_0_l, Rmult_0_r. lra.
  - assert (B2 : lo <= nth (S j) l 0 <= hi) by (apply B, nth_In; lia).
    set (f := INR (x mod (n - 1)) / INR (n - 1)) in *. clearbody f. nra.
Qed.
(** Periodic boxes: every line of sight keeps its signal as long as no cell is shifted by
    more than the box depth. *)
Theorem C38_periodic_conserves : forall depth num D dT dr, (2 <= depth)%nat -> (0 < num)%nat -> 0 < D ->
  length dT = depth -> length dr = depth -> (forall x, In x dr -> - D <= x <= D) ->
  rsum (distorted depth num D true dT dr) = rsum dT.
Proof.
  intros depth num D dT dr Hd Hn HD L1 L2 B.
  destruct (C38_balance depth num D true dT dr ltac:(lia) Hn HD L1) as [B1 B2]. rewrite B2, <- B1.
  apply rsum_ext. intros q I. apply in_seq in I. cbv zeta.
  assert (IN : 0 <= wrap D true (moved depth num D dr q) <= D).
  { apply wrap_inside; [exact HD|]. unfold moved, N. assert (2 <= depth * num)%nat by nia.
    pose proof (interpolated_between dr (depth * num) q (- D) D ltac:(lia) ltac:(lia) ltac:(lia) B) as Ib.
    assert (Lb : 0 <= linspace 0 D (depth * num) q <= D).
    { unfold linspace. assert (0 < INR (depth * num - 1)) by (apply lt_0_INR; lia).
      assert (INR q <= INR (depth * num - 1)) by (apply le_INR; lia). pose proof (pos_INR q).
      assert (Q : 0 <= INR q / INR (depth * num - 1) <= 1).
      { split; [apply Rmult_le_pos; [lra|left; apply Rinv_0_lt_compat; lra]|].
        apply Rmult_le_reg_r with (INR (depth * num - 1)); [lra|]. unfold Rdiv. rewrite Rmult_assoc, Rinv_l by lra. lra. }
      replace (0 + INR q * ((D - 0) / INR (depth * num - 1))) with (D * (INR q / INR (depth * num - 1))) by (field; lra). nra. }
    lra. }
  destruct (Rle_dec 0 (wrap D true (moved depth num D dr q))); [|lra]. destruct (Rle_dec (wrap D true (moved depth num D dr q)) D); [reflexivity|lra].
Qed.
Print Assumptions C38_periodic_conserves.
Example C38_periodic_conserves_sat : exists (depth : nat) (num : nat) (D : R) (dT : list R) (dr : list R), (2 <= depth)%nat /\ (0 < num)%nat /\ 0 < D /\ length dT = depth /\ length dr = depth /\ (forall x, In x dr -> - D <= x <= D).
Proof. exists 4%nat, 10%nat, 100, [1; 2; 3; 4], [0; 5; -5; 100]. repeat split; try lia; try lra; try reflexivity; cbn in H; intuition lra. Qed.

(** Without periodic boundaries a non-negative line of sight never gains signal. *)
Theorem C38_open_loses : forall depth num D dT dr, (0 < depth)%nat -> (0 < num)%nat -> 0 < D ->
  length dT = depth -> (forall x, In x dT -> 0 <= x) -> rsum (distorted depth num D false dT dr) <= rsum dT.
Proof.
  intros depth num D dT dr Hd Hn HD L P.
  destruct (C38_balance depth num D false dT dr Hd Hn HD L) as [B1 B2]. rewrite B2, <- B1.
  apply rsum_le. intros q I. apply in_seq in I. cbv zeta.
  assert (0 <= weight num dT q).
  { unfold weight. assert (0 < INR num) by (apply lt_0_INR; lia). apply Rmult_le_pos; [|left; apply Rinv_0_lt_compat; assumption].
    apply P, nth_In. rewrite L. apply Nat.div_lt_upper_bound; lia. }
  destruct (Rle_dec 0 (wrap D false (moved depth num D dr q))); [|lra]. destruct (Rle_dec (wrap D false (moved depth num D dr q)) D); lra.
Qed.
Print Assumptions C38_open_loses.
Example C38_open_loses_sat : exists (depth : nat) (num : nat) (D : R) (dT : list R), (0 < depth)%nat /\ (0 < num)%nat /\ 0 < D /\ length dT = depth /\ (forall x, In x dT -> 0 <= x).
Proof. exists 4%nat, 10%nat, 100, [1; 2; 3; 4]. repeat split; try lia; try lra; try reflexivity. intros x H. cbn in H. intuition lra. Qed.

Lemma bin_of_particle : forall depth num q j, (0 < num)%nat -> (q < depth * num)%nat -> (j < depth)%nat ->
  ((j * (depth * num - 1) <= q * depth)%nat /\
   (if Nat.eqb (S j) depth then (q * depth <= S j * (depth * num - 1))%nat else (q * depth < S j * (depth * num - 1))%nat))
  <-> (q / num = j)%nat.
Proof.
  intros depth num q j Hn Hq Hj.
  assert (P : forall k n, q = (k * num + n)%nat -> (n < num)%nat -> (k < depth)%nat ->
    (k * (depth * num - 1) <= q * depth)%nat /\ (q * depth <= S k * (depth * num - 1))%nat /\ (S k <> depth -> (q * depth < S k * (depth * num - 1))%nat)).
  { intros k n E Hlt Hk. assert (K1 : (S k * (depth * num - 1) = S k * (depth * num) - S k)%nat) by (rewrite Nat.mul_sub_distr_l; lia).
    assert (K0 : (k * (depth * num - 1) = k * (depth * num) - k)%nat) by (rewrite Nat.mul_sub_distr_l; lia).
    assert (K2 : (q * depth <= (k * num + (num - 1)) * depth)%nat) by (apply Nat.mul_le_mono_r; lia).
    assert (K3 : ((k * num + (num - 1)) * depth + depth = S k * (depth * num))%nat).
    { transitivity ((k * num + (num - 1) + 1) * depth)%nat; [ring|]. replace (k * num + (num - 1) + 1)%nat with (S k * num)%nat by lia. ring. }
    assert (K4 : (q * depth = k * (depth * num) + n * depth)%nat) by (subst q; ring).
    repeat split; lia. }
  set (k := (q / num)%nat). assert (Hk : (k < depth)%nat) by (apply Nat.div_lt_upper_bound; lia).
  pose proof (Nat.div_mod q num ltac:(lia)) as DM. fold k in DM. pose proof (Nat.mod_upper_bound q num ltac:(lia)) as MB.
  destruct (P k (q mod num)%nat ltac:(lia) MB Hk) as (P1 & P2 & P3). split.
  - intros [A B]. destruct (Nat.lt_trichotomy j k) as [T|[T|T]]; [|auto|].
    + replace (Nat.eqb (S j) depth) with false in B by (symmetry; apply Nat.eqb_neq; lia).
      assert (S j * (depth * num - 1) <= k * (depth * num - 1))%nat by (apply Nat.mul_le_mono_r; lia). lia.
    + assert (S k * (depth * num - 1) <= j * (depth * num - 1))%nat by (apply Nat.mul_le_mono_r; lia). specialize (P3 ltac:(lia)). lia.
  - intro E. rewrite <- E. split; [exact P1|]. destruct (Nat.eqb (S k) depth) eqn:T; [exact P2|]. apply P3. apply Nat.eqb_neq. exact T.
Qed.
(** Without velocities the box comes back unchanged, periodic or not. *)
Theorem C38_no_velocity : forall depth num D periodic dT, (2 <= depth)%nat -> (0 < num)%nat -> 0 < D -> length dT = depth ->
  distorted depth num D periodic dT (repeat 0 depth) = dT.
Proof.
  intros depth num D periodic dT Hd Hn HD L. assert (HN : (2 <= depth * num)%nat) by nia.
  assert (HM : 0 < INR (depth * num - 1)) by (apply lt_0_INR; lia). assert (HP : 0 < INR depth) by (apply lt_0_INR; lia).
  assert (PQ : forall q, (q < depth * num)%nat -> wrap D periodic (moved depth num D (repeat 0 depth) q) = INR q * (D / INR (depth * num - 1))).
  { intros q Hq. unfold moved, N. assert (I0 : interpolated (repeat 0 depth) (depth * num) q = 0).
    { pose proof (interpolated_between (repeat 0 depth) (depth * num) q 0 0 HN ltac:(rewrite repeat_length; lia) Hq) as I.
      assert (forall x, In x (repeat 0 depth) -> 0 <= x <= 0) by (intros x Ix; apply repeat_spec in Ix; lra). specialize (I H). lra. }
    rewrite I0, Rplus_0_r. unfold linspace. rewrite Rminus_0_r, Rplus_0_l. set (p := INR q * (D / INR (depth * num - 1))).
    assert (0 <= p <= D).
    { unfold p. assert (INR q <= INR (depth * num - 1)) by (apply le_INR; lia). pose proof (pos_INR q).
      split; [apply Rmult_le_pos; [lra|left; apply Rdiv_lt_0_compat; lra]|].
      apply Rmult_le_reg_r with (INR (depth * num - 1)); [lra|]. replace (INR q * (D / INR (depth * num - 1)) * INR (depth * num - 1)) with (INR q * D) by (field; lra). nra. }
    unfold wrap. destruct periodic; [|reflexivity]. destruct (Rlt_dec p 0); [lra|]. cbv zeta. destruct (Rlt_dec D p); [lra|reflexivity]. }
  assert (IB : forall q j, (q < depth * num)%nat -> (j < depth)%nat ->
    in_bin depth D j (wrap D periodic (moved depth num D (repeat 0 depth) q)) = Nat.eqb (q / num) j).
  { intros q j Hq Hj. rewrite (PQ q Hq).
    assert (C : forall a, (INR a * (D / INR depth) <= INR q * (D / INR (depth * num - 1)) <-> (a * (depth * num - 1) <= q * depth)%nat)
      /\ (INR q * (D / INR (depth * num - 1)) <= INR a * (D / INR depth) <-> (q * depth <= a * (depth * num - 1))%nat)).
    { intro a. assert (E1 : INR a * (D / INR depth) = INR (a * (depth * num - 1)) * (D / (INR depth * INR (depth * num - 1)))) by (rewrite mult_INR; field; lra).
      assert (E2 : INR q * (D / INR (depth * num - 1)) = INR (q * depth) * (D / (INR depth * INR (depth * num - 1)))) by (rewrite mult_INR; field; lra).
      rewrite E1, E2. assert (W : 0 < D / (INR depth * INR (depth * num - 1))) by (apply Rdiv_lt_0_compat; [lra|apply Rmult_lt_0_compat; lra]).
      split; (split; [intro H; apply Rmult_le_reg_r in H; [apply INR_le; exact H|exact W]|intro H; apply Rmult_le_compat_r; [lra|apply le_INR; exact H]]). }
    unfold in_bin. rewrite !edge_eq by lia. destruct (C j) as [C1 _]. destruct (C (S j)) as [C2 C3].
    pose proof (bin_of_particle depth num q j Hn Hq Hj) as BP.
    destruct (Nat.eqb (q / num) j) eqn:E.
    - apply Nat.eqb_eq in E. apply BP in E. destruct E as [E1 E2]. destruct (Rle_dec (INR j * (D / INR depth)) (INR q * (D / INR (depth * num - 1)))) as [K|K]; [|exfalso; apply K, C1, E1].
      cbn [andb]. destruct (Nat.eqb (S j) depth).
      + destruct (Rle_dec (INR q * (D / INR (depth * num - 1))) (INR (S j) * (D / INR depth))) as [K2|K2]; [reflexivity|exfalso; apply K2, C3, E2].
      + destruct (Rlt_dec (INR q * (D / INR (depth * num - 1))) (INR (S j) * (D / INR depth))) as [K2|K2]; [reflexivity|]. exfalso. apply Rnot_lt_le in K2. apply C2 in K2. lia.
    - apply Nat.eqb_neq in E. apply not_true_is_false. intro T. apply E, BP. apply andb_true_iff in T. destruct T as [T1 T2].
      destruct (Rle_dec (INR j * (D / INR depth)) (INR q * (D / INR (depth * num - 1)))) as [K|K]; [|discriminate]. split; [apply C1; exact K|].
      destruct (Nat.eqb (S j) depth).
      + destruct (Rle_dec (INR q * (D / INR (depth * num - 1))) (INR (S j) * (D / INR depth))) as [K2|K2]; [apply C3; exact K2|discriminate].
      + destruct (Rlt_dec (INR q * (D / INR (depth * num - 1))) (INR (S j) * (D / INR depth))) as [K2|K2]; [|discriminate].
        destruct (Nat.lt_ge_cases (q * depth) (S j * (depth * num - 1))) as [G|G]; [exact G|]. apply C2 in G. lra. }
  unfold distorted, N. transitivity (map (fun j => nth j dT 0) (seq 0 depth)).
  - apply map_ext_in. intros j Ij. apply in_seq in Ij.
    rewrite (rsum_ext _ (fun q => (fun k => if Nat.eqb k j then nth j dT 0 else 0) (q / num)%nat / INR num)).
    + rewrite (rsum_blocks (fun k => if Nat.eqb k j then nth j dT 0 else 0) num depth Hn).
      rewrite (rsum_ext _ (fun k => if Nat.eqb j k then nth k dT 0 else 0)).
      * apply (rsum_delta Nat.eqb (fun k => nth k dT 0)); [apply Nat.eqb_eq|apply seq_NoDup|apply in_seq; lia].
      * intros k _. rewrite Nat.eqb_sym. destruct (Nat.eqb j k) eqn:E; [|reflexivity]. apply Nat.eqb_eq in E. subst k. reflexivity.
    + intros q Iq. apply in_seq in Iq. rewrite IB by lia. unfold weight. cbv beta. destruct (Nat.eqb (q / num) j) eqn:E; [|unfold Rdiv; ring].
      apply Nat.eqb_eq in E. rewrite E. reflexivity.
  - clear -L. subst depth. induction dT as [|x l IH]; [reflexivity|]. cbn [length seq map nth]. f_equal. rewrite <- seq_shift, map_map. exact IH.
Qed.
Print Assumptions C38_no_velocity.
Example C38_no_velocity_sat : exists (depth : nat) (num : nat) (D : R) (dT : list R), (2 <= depth)%nat /\ (0 < num)%nat /\ 0 < D /\ length dT = depth.
Proof. exists 3%nat, 2%nat, 10, [1; 2; 3]. repeat split; first [lra | lia | reflexivity | discriminate | congruence | auto]. Qed.

(** Matter receding faster than the Hubble flow moves to larger positions. *)
Theorem C38_shift_direction : forall H c z v, 0 < c -> 0 <= z -> - c < v < c -> (forall x, 0 < H x) ->
  (0 < shift H c z v <-> 0 < v) /\ (shift H c z v = 0 <-> v = 0).
Proof.
  intros H c z v Hc Hz Hv HH. unfold shift. set (zo := z_obs c z v). assert (P : 0 < 1 + zo).
  { unfold zo, z_obs. replace (1 + ((1 + z) / (1 - v / c) - 1)) with ((1 + z) / (1 - v / c)) by ring.
    apply Rdiv_lt_0_compat; [lra|]. assert (v / c < 1); [|lra]. apply Rmult_lt_reg_r with c; [lra|]. unfold Rdiv. rewrite Rmult_assoc, Rinv_l by lra. lra. }
  assert (K : (1 + zo) * v / H zo = v * ((1 + zo) / H zo)) by (specialize (HH zo); field; lra).
  assert (Q : 0 < (1 + zo) / H zo) by (apply Rdiv_lt_0_compat; [lra|apply HH]). rewrite K. clear K.
  set (u := (1 + zo) / H zo) in *. clearbody u. clear -Q.
  split; split; intro A; [nra|nra| |subst v; ring]. apply Rmult_integral in A. destruct A; lra.
Qed.
Print Assumptions C38_shift_direction.
Example C38_shift_direction_sat : exists (H : R -> R) (c : R) (z : R) (v : R), 0 < c /\ 0 <= z /\ - c < v < c /\ (forall x, 0 < H x).
Proof. exists (fun _ => 70), (3 * 10 ^ 5), 8, 300. repeat split; try lra. intros; lra. Qed.

(** Every line of sight is treated iff the two transverse sizes agree. If the loop width is
    the smaller of them the other lines of sight are silently set to zero, if it is the
    larger one the call raises. *)
Theorem C38_lines_of_sight : forall shape los depth w ni nj skewer,
  transverse shape los = Some (depth, w, ni, nj) -> (w = ni \/ w = nj) ->
  (let '(mx, my, mz) := shape in mx = my \/ my = mz \/ mx = mz) ->
  (ni = nj -> exists box, distorted_box shape los skewer = Some box /\ forall i j, (i < ni)%nat -> (j < nj)%nat -> box i j = skewer i j) /\
  (w > ni \/ w > nj <-> distorted_box shape los skewer = None)%nat /\
  (forall box, distorted_box shape los skewer = Some box -> forall i j, (w <= i \/ w <= j)%nat -> box i j = repeat 0 depth).
Proof.
  intros [[mx my] mz] los depth w ni nj skewer T W A. unfold distorted_box.
  assert (AS : (Nat.eqb mx my || Nat.eqb my mz || Nat.eqb mx mz)%bool = true).
  { rewrite !orb_true_iff, !Nat.eqb_eq. tauto. }
  rewrite AS, T. split; [|split].
  - intro E. subst nj. assert (w = ni) by (destruct W; assumption). subst w. rewrite Nat.leb_refl. cbn [andb]. eexists. split; [reflexivity|].
    intros i j Hi Hj. cbv beta. apply Nat.ltb_lt in Hi. apply Nat.ltb_lt in Hj. rewrite Hi, Hj. reflexivity.
  - destruct (Nat.leb_spec w ni); destruct (Nat.leb_spec w nj); cbn [andb]; split; intro K; try reflexivity; try discriminate; lia.
  - intros box E i j K. destruct (Nat.leb w ni && Nat.leb w nj)%bool; [|discriminate]. injection E as E. subst box. cbv beta.
    destruct (Nat.ltb_spec i w); destruct (Nat.ltb_spec j w); cbn [andb]; try reflexivity. lia.
Qed.
Print Assumptions C38_lines_of_sight.
Example C38_lines_of_sight_sat : exists (shape : nat * nat * nat) (los : nat) (depth : nat) (w : nat) (ni : nat) (nj : nat), transverse shape los = Some (depth, w, ni, nj) /\ ((w = ni \/ w = nj)) /\ (let '(mx, my, mz) := shape in mx = my \/ my = mz \/ mx = mz).
Proof. eexists (4, 4, 6)%nat, 2%nat, _, _, _, _. split; [reflexivity|]. split; [left; reflexivity|left; reflexivity]. Qed.

(** The same by axis: which boxes raise, and which lines of sight are lost otherwise. *)
Theorem C38_by_axis : forall mx my mz skewer, let some_equal := (mx = my \/ my = mz \/ mx = mz)%nat in
  ((distorted_box (mx, my, mz) 0 skewer = None <-> ~ some_equal \/ mz < my) /\
   (distorted_box (mx, my, mz) 1 skewer = None <-> ~ some_equal \/ mx < mz) /\
   (distorted_box (mx, my, mz) 2 skewer = None <-> ~ some_equal \/ my < mx))%nat /\
  (forall los, (3 <= los)%nat -> distorted_box (mx, my, mz) los skewer = None) /\
  (forall box i j, distorted_box (mx, my, mz) 0 skewer = Some box -> box i j = if (Nat.ltb i my && Nat.ltb j my)%bool then skewer i j else repeat 0 mx) /\
  (forall box i j, distorted_box (mx, my, mz) 1 skewer = Some box -> box i j = if (Nat.ltb i mz && Nat.ltb j mz)%bool then skewer i j else repeat 0 my) /\
  (forall box i j, distorted_box (mx, my, mz) 2 skewer = Some box -> box i j = if (Nat.ltb i mx && Nat.ltb j mx)%bool then skewer i j else repeat 0 mz).
Proof.
  intros mx my mz skewer se. unfold distorted_box, se. cbn [transverse].
  assert (AS : (Nat.eqb mx my || Nat.eqb my mz || Nat.eqb mx mz)%bool = true <-> (mx = my \/ my = mz \/ mx = mz)%nat) by (rewrite !orb_true_iff, !Nat.eqb_eq; tauto).
  destruct (Nat.eqb mx my || Nat.eqb my mz || Nat.eqb mx mz)%bool.
  - assert (T : (mx = my \/ my = mz \/ mx = mz)%nat) by (apply AS; reflexivity). rewrite !Nat.leb_refl. cbn [andb]. rewrite ?andb_true_r.
    split; [split; [|split]|split; [|split; [|split]]].
    + destruct (Nat.leb_spec my mz); split; intro K; try reflexivity; try discriminate; try (right; lia). destruct K as [K|K]; [contradiction|lia].
    + destruct (Nat.leb_spec mz mx); split; intro K; try reflexivity; try discriminate; try (right; lia). destruct K as [K|K]; [contradiction|lia].
    + destruct (Nat.leb_spec mx my); split; intro K; try reflexivity; try discriminate; try (right; lia). destruct K as [K|K]; [contradiction|lia].
    + intros los L. destruct los as [|[|[|los]]]; try lia. reflexivity.
    + intros box i j E. destruct (Nat.leb my mz); [|discriminate]. injection E as E. subst box. reflexivity.
    + intros box i j E. destruct (Nat.leb mz mx); [|discriminate]. injection E as E. subst box. reflexivity.
    + intros box i j E. destruct (Nat.leb mx my); [|discriminate]. injection E as E. subst box. reflexivity.
  - assert (T : ~ (mx = my \/ my = mz \/ mx = mz)%nat) by (intro K; apply AS in K; discriminate).
    split; [tauto|]. split; [reflexivity|]. repeat split; intros; discriminate.
Qed.
Print Assumptions C38_by_axis.

Example C38_sat : distorted_box (4, 4, 3)%nat 0 (fun i j => [INR i]) = None /\
  (exists box, distorted_box (4, 3, 4)%nat 0 (fun i j => [INR i]) = Some box /\ box 0%nat 3%nat = repeat 0 4) /\
  rsum (distorted 2 3 1 true [5; 7] [1/2; -1]) = 12 /\
  (forall x, In x [1/2; -1] -> -1 <= x <= 1).
Proof.
  split; [reflexivity|]. split; [eexists; split; reflexivity|]. assert (B : forall x, In x [1/2; -1] -> -1 <= x <= 1) by (intros x [D|[D|[]]]; subst; lra).
  split; [|exact B]. rewrite C38_periodic_conserves; try reflexivity; try lia; try lra; try assumption. unfold rsum. cbn. lra.
Qed.
