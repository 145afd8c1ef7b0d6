(** Properties C19 and C20: interpolated slices. *)
From Coq Require Import List Arith Bool Reals Lra Lia.
From Verif Require Import LcInterpModel.
Import ListNotations.
Local Open Scope R_scope.

(** ** C19 *)
Lemma linear_weight zl zh z : zl < zh -> zl <= z <= zh -> 0 <= (z - zl) / (zh - zl) <= 1.
Proof.
  intros H [H1 H2]. split.
  - apply Rmult_le_pos; [lra|]. left. apply Rinv_0_lt_compat. lra.
  - apply Rmult_le_reg_r with (zh - zl); [lra|]. unfold Rdiv. rewrite Rmult_assoc, Rinv_l by lra. lra.
Qed.
Lemma convex_between t a b : 0 <= t <= 1 -> Rmin a b <= a * (1 - t) + b * t <= Rmax a b.
Proof.
  intros [H1 H2]. unfold Rmin, Rmax. destruct (Rle_dec a b).
  - split; nra.
  - split; nra.
Qed.
Lemma linear_convex zh zl z hi lo : zl < zh ->
  interp_cell Linear zh zl z hi lo = lo * (1 - (z - zl) / (zh - zl)) + hi * ((z - zl) / (zh - zl)).
Proof. intros H. cbn. field. lra. Qed.
Lemma sigmoid_01 zl zh z : 0 < sigmoid_weight zl zh z < 1.
Proof.
  unfold sigmoid_weight. pose proof (exp_pos (-2 * (-10 + 20 * (z - zl) / (zh - zl)))) as P.
  set (e := exp _) in *. split.
  - apply Rmult_lt_0_compat; [lra|]. apply Rinv_0_lt_compat. lra.
  - apply Rmult_lt_reg_r with (1 + e); [lra|]. unfold Rdiv. rewrite Rmult_assoc, Rinv_l by lra. lra.
Qed.

(** Every cell of the slice at a redshift inside the bracket lies between the values of
    the two snapshots in that cell (all three methods). *)
Theorem C19_between : forall m zh zl z hi lo, zl < zh -> zl <= z <= zh ->
  Rmin lo hi <= interp_cell m zh zl z hi lo <= Rmax lo hi.
Proof.
  intros [| |] zh zl z hi lo H Hz.
  - rewrite linear_convex by assumption. apply convex_between. now apply linear_weight.
  - cbn. destruct (Rlt_dec z ((zh - zl) / 2)); split; try apply Rmin_l; try apply Rmin_r; try apply Rmax_l; apply Rmax_r.
  - cbn. apply convex_between. pose proof (sigmoid_01 zl zh z). lra.
Qed.
Print Assumptions C19_between.
Example C19_between_sat : exists (zh : R) (zl : R) (z : R), zl < zh /\ zl <= z <= zh.
Proof. exists 9, 8, (17/2). repeat split; first [lra | lia | reflexivity | discriminate | congruence | auto]. Qed.

(** Linear: exact at both ends, and the value moves in proportion to the redshift. *)
Theorem C19_linear : forall zh zl z hi lo, zl < zh ->
  interp_cell Linear zh zl zl hi lo = lo /\ interp_cell Linear zh zl zh hi lo = hi
  /\ (interp_cell Linear zh zl z hi lo - lo) * (zh - zl) = (hi - lo) * (z - zl).
Proof. intros. cbn. repeat split; field; lra. Qed.
Print Assumptions C19_linear.
Example C19_linear_sat : exists (zh : R) (zl : R), zl < zh.
Proof. exists 9, 8. repeat split; first [lra | lia | reflexivity | discriminate | congruence | auto]. Qed.

(** Sigmoid: increasing weight, one half in the middle of the bracket, but never
    exactly a snapshot, also at the ends. *)
Theorem C19_sigmoid : forall zh zl z hi lo, zl < zh -> hi <> lo ->
  interp_cell Sigmoid zh zl ((zl + zh) / 2) hi lo = (lo + hi) / 2
  /\ interp_cell Sigmoid zh zl z hi lo <> lo /\ interp_cell Sigmoid zh zl z hi lo <> hi
  /\ (forall z', z < z' -> sigmoid_weight zl zh z < sigmoid_weight zl zh z').
Proof.
  intros zh zl z hi lo H N. cbn. pose proof (sigmoid_01 zl zh z) as W.
  split; [|split; [|split]].
  - replace (sigmoid_weight zl zh ((zl + zh) / 2)) with (1 / 2); [field|].
    unfold sigmoid_weight. replace (-2 * (-10 + 20 * ((zl + zh) / 2 - zl) / (zh - zl))) with 0 by (field; lra).
    rewrite exp_0. field.
  - intros E. assert (K : (hi - lo) * sigmoid_weight zl zh z = 0) by lra. apply Rmult_integral in K as [K|K]; lra.
  - intros E. assert (K : (hi - lo) * (1 - sigmoid_weight zl zh z) = 0) by lra. apply Rmult_integral in K as [K|K]; lra.
  - intros z' Hz. unfold sigmoid_weight.
    assert (E : exp (-2 * (-10 + 20 * (z' - zl) / (zh - zl))) < exp (-2 * (-10 + 20 * (z - zl) / (zh - zl)))).
    { apply exp_increasing. assert (20 * (z - zl) / (zh - zl) < 20 * (z' - zl) / (zh - zl)); [|lra].
      unfold Rdiv. apply Rmult_lt_compat_r; [apply Rinv_0_lt_compat; lra|lra]. }
    pose proof (exp_pos (-2 * (-10 + 20 * (z' - zl) / (zh - zl)))).
    unfold Rdiv at 1 3. rewrite !Rmult_1_l. apply Rinv_lt_contravar; [|lra]. apply Rmult_lt_0_compat; lra.
Qed.
Print Assumptions C19_sigmoid.
Example C19_sigmoid_sat : exists (zh : R) (zl : R) (hi : R) (lo : R), zl < zh /\ hi <> lo.
Proof. exists 9, 8, 1, 2. repeat split; first [lra | lia | reflexivity | discriminate | congruence | auto]. Qed.

(** The slice index wraps with the second side of the snapshot, so slices repeat the
    box periodically along the line of sight when that side is as long as the
    line-of-sight side, as for every cube. *)
Definition side (d : cube) (los_axis : nat) : nat := match los_axis with 0%nat => n0 d | 1%nat => n1 d | _ => n2 d end.
Definition cell (d : cube) (los_axis i a b : nat) : R :=
  match los_axis with 0%nat => val d i a b | 1%nat => val d a i b | _ => val d a b i end.
Theorem C19_periodic_index : forall m dh dl zh zl z k los_axis,
  (los_axis < 3)%nat -> (0 < side dl los_axis)%nat -> n1 dl = side dl los_axis -> side dh los_axis = side dl los_axis ->
  exists f, get_interp_slice m dh dl zh zl z k los_axis = Some f
    /\ forall a b, let i := (k mod side dl los_axis)%nat in
       f a b = interp_cell m zh zl z (cell dh los_axis i a b) (cell dl los_axis i a b).
Proof.
  intros m dh dl zh zl z k los H1 H2 H3 H4. unfold get_interp_slice. rewrite H3.
  assert (B : (k mod side dl los < side dl los)%nat) by (apply Nat.mod_upper_bound; lia).
  apply Nat.ltb_lt in B.
  destruct los as [|[|[|los]]]; [| | |lia]; cbn [get_slice side cell] in *; rewrite H4, B; eexists; (split; [reflexivity|]); reflexivity.
Qed.
Print Assumptions C19_periodic_index.

(** In a snapshot that is longer along the line of sight than along the second axis the
    far part of the box is never used. *)
Theorem C19_long_box_refuted : exists dl k,
  (0 < n2 dl)%nat /\ (k < n2 dl)%nat /\ forall m dh zh zl z, n2 dh = n2 dl ->
  exists f, get_interp_slice m dh dl zh zl z k 2 = Some f
    /\ forall a b, f a b = interp_cell m zh zl z (cell dh 2 0 a b) (cell dl 2 0 a b).
Proof.
  exists (Cube 2 2 4 (fun _ _ c => INR c)), 2%nat. split; [cbn; lia|]. split; [cbn; lia|].
  intros m dh zh zl z E. unfold get_interp_slice. cbn [n1 n2]. change (2 mod 2)%nat with 0%nat.
  cbn [get_slice n2]. rewrite E. cbn. eexists. split; [reflexivity|]. reflexivity.
Qed.
Print Assumptions C19_long_box_refuted.

Example C19_sat : 6 < 7 /\ 6 <= 6.25 <= 7 /\ interp_cell Linear 7 6 6.25 5 1 = 2
  /\ (exists f, get_interp_slice Linear (Cube 2 3 3 (fun a b c => INR (a + b))) (Cube 2 3 3 (fun a b c => 0)) 7 6 6.5 5 1 = Some f /\ f 1%nat 0%nat = 3 / 2).
Proof.
  split; [lra|]. split; [lra|]. split; [cbn; lra|]. eexists. split; [reflexivity|]. cbn. lra.
Qed.

(** ** C20 *)

(** What "step" does: the low snapshot iff the redshift is below half the WIDTH of the
    bracket. *)
Theorem C20_step_transition : forall zh zl z hi lo,
  (z < (zh - zl) / 2 -> interp_cell Step zh zl z hi lo = lo) /\
  ((zh - zl) / 2 <= z -> interp_cell Step zh zl z hi lo = hi).
Proof. intros. cbn. destruct (Rlt_dec z ((zh - zl) / 2)); split; intros; try reflexivity; lra. Qed.
Print Assumptions C20_step_transition.

(** So in every bracket with [z_high <= 3 z_low] (all realistic ones) the slice is
    always the high snapshot. *)
Theorem C20_step_always_high : forall zh zl z hi lo, zh <= 3 * zl -> zl <= z <= zh ->
  interp_cell Step zh zl z hi lo = hi.
Proof. intros. apply C20_step_transition. lra. Qed.
Print Assumptions C20_step_always_high.
Example C20_step_always_high_sat : exists (zh : R) (zl : R) (z : R), zh <= 3 * zl /\ zl <= z <= zh.
Proof. exists 9, 8, (17/2). repeat split; first [lra | lia | reflexivity | discriminate | congruence | auto]. Qed.

(** It picks the nearer snapshot for all values iff the bracket starts at redshift 0. *)
Theorem C20_step_nearest_iff : forall zh zl, zl < zh -> 0 <= zl ->
  ((forall z hi lo, zl <= z < zh ->
      (z < (zl + zh) / 2 -> interp_cell Step zh zl z hi lo = lo) /\
      ((zl + zh) / 2 < z -> interp_cell Step zh zl z hi lo = hi)) <-> zl = 0).
Proof.
  intros zh zl H H0. split.
  - intros A. destruct (Rle_lt_or_eq_dec 0 zl H0) as [P|E]; [exfalso|auto].
    set (z := Rmax zl ((zh - zl) / 2)).
    assert (Z1 : zl <= z < zh).
    { unfold z, Rmax. destruct (Rle_dec zl ((zh - zl) / 2)); lra. }
    assert (Z2 : z < (zl + zh) / 2) by (unfold z, Rmax; destruct (Rle_dec zl ((zh - zl) / 2)); lra).
    destruct (A z 1 0 Z1) as [B _]. specialize (B Z2).
    assert (C : interp_cell Step zh zl z 1 0 = 1) by (apply C20_step_transition; unfold z; apply Rmax_r). lra.
  - intros -> z hi lo Hz. split; intros; apply C20_step_transition; lra.
Qed.
Print Assumptions C20_step_nearest_iff.
Example C20_step_nearest_iff_sat : exists (zh : R) (zl : R), zl < zh /\ 0 <= zl.
Proof. exists 9, 8. repeat split; first [lra | lia | reflexivity | discriminate | congruence | auto]. Qed.

Example C20_sat : 7 <= 3 * 6 /\ 6 <= 6.1 <= 7 /\ interp_cell Step 7 6 6.1 5 1 = 5 /\ interp_cell Step 1 0 (1 / 4) 5 1 = 1.
Proof. split; [lra|]. split; [lra|]. split; apply C20_step_transition; lra. Qed.
