(** More of C57 (output redshifts at equal comoving distance): the list is complete, and
    how long the steps really are. *)
From Coq Require Import List Arith ZArith QArith Qabs Bool Lia Lqa Reals Lra Qreals.
From Verif Require Import LcModel LcSpec LcProofs LcProps.
Import ListNotations.
Local Open Scope nat_scope.

Lemma dist_loop_last w nu0 zh : forall fuel z l, dist_loop fuel w nu0 zh z = Some l ->
  forall x, nth_error l (length l - 1) = Some x -> (x < zh)%Q /\ (zh <= dist_next w nu0 x)%Q.
Proof.
  induction fuel as [|fuel IH]; intros z l E x Hx; cbn [dist_loop] in E; destruct (Qltb z zh) eqn:C; try discriminate.
  - injection E as <-. discriminate.
  - destruct (dist_loop fuel w nu0 zh (dist_next w nu0 z)) as [l'|] eqn:E'; [|discriminate].
    cbn in E. injection E as <-. destruct l' as [|y l'].
    + cbn in Hx. injection Hx as <-. apply Qltb_lt in C. split; [exact C|].
      destruct fuel; cbn [dist_loop] in E'; destruct (Qltb (dist_next w nu0 z) zh) eqn:C'; try discriminate;
        try (now apply Qltb_ge in C').
      destruct (dist_loop fuel w nu0 zh _); discriminate.
    + apply (IH _ _ E' x). cbn [length] in *. replace (S (S (length l')) - 1) with (S (S (length l') - 1)) in Hx by lia. exact Hx.
  - injection E as <-. discriminate.
Qed.

Lemma dist_next_spec w nu0 x y : (0 < nu0)%Q -> (0 < 1 + x)%Q -> (w x < 1 + x)%Q -> (0 < 1 + y)%Q ->
  (1 / (1 + y) == 1 / (1 + x) - w x / ((1 + x) * (1 + x)))%Q -> (y == dist_next w nu0 x)%Q.
Proof.
  intros H0 Hx Hw Hy E. unfold dist_next.
  assert (F : (nu0 / (1 + x) - nu0 * w x / ((1 + x) * (1 + x)) == nu0 * (1 / (1 + y)))%Q).
  { rewrite E. field. intros K. Lqa.lra. }
  rewrite F. field. split; intros K; Lqa.lra.
Qed.

(** The list stops only at the end: the redshift one more cell further would be [z_high] or
    more. *)
Theorem C57_complete : forall fuel w nu0 z_low z_high l, (0 < nu0)%Q -> (0 < 1 + z_low)%Q -> (z_low < z_high)%Q ->
  (forall z, z_low <= z < z_high -> 0 < w z < 1 + z)%Q ->
  redshifts_equal_distance fuel w nu0 z_low z_high = Some l ->
  exists x, nth_error l (length l - 1) = Some x /\
    forall y, (0 < 1 + y)%Q -> (1 / (1 + y) == 1 / (1 + x) - w x / ((1 + x) * (1 + x)))%Q -> (z_high <= y)%Q.
Proof.
  intros fuel w nu0 zl zh l H0 Hl Hlh Hw E. unfold redshifts_equal_distance in E.
  replace (Qltb zl zh) with true in E by (symmetry; now apply Qltb_lt).
  assert (N : l <> []).
  { destruct fuel; cbn [dist_loop] in E; replace (Qltb zl zh) with true in E by (symmetry; now apply Qltb_lt); [discriminate|].
    destruct (dist_loop _ _ _ _ _); [|discriminate]. cbn in E. injection E as <-. discriminate. }
  destruct (nth_error l (length l - 1)) as [x|] eqn:Ex.
  2:{ apply nth_error_None in Ex. destruct l; [congruence|cbn in Ex; lia]. }
  exists x. split; [reflexivity|]. intros y Hy Ey.
  destruct (dist_loop_last _ _ _ _ _ _ E x Ex) as [L1 L2].
  assert (Hin : (zl <= x)%Q).
  { clear -E Ex H0 Hl Hw. assert (G : forall fuel z l, (zl <= z)%Q -> dist_loop fuel w nu0 zh z = Some l -> forall x, In x l -> (zl <= x)%Q).
    { induction fuel0 as [|f IH]; intros z l0 Hz E0 x0 Hi; cbn [dist_loop] in E0; destruct (Qltb z zh) eqn:C; try discriminate.
      - injection E0 as <-. destruct Hi.
      - destruct (dist_loop f w nu0 zh (dist_next w nu0 z)) as [l'|] eqn:E'; [|discriminate]. cbn in E0. injection E0 as <-.
        destruct Hi as [<-|Hi]; [exact Hz|]. apply Qltb_lt in C. apply (IH _ _) with (2 := E'); [|exact Hi].
        assert (W : (0 < w z < 1 + z)%Q) by (apply Hw; Lqa.lra).
        assert (G : (z + w z <= dist_next w nu0 z)%Q) by (apply dist_next_gt; Lqa.lra). Lqa.lra.
      - injection E0 as <-. destruct Hi. }
    apply (G fuel zl l); [Lqa.lra|exact E|]. now apply nth_error_In in Ex. }
  rewrite (dist_next_spec w nu0 x y); try assumption; try Lqa.lra. apply Hw. split; assumption.
Qed.
Print Assumptions C57_complete.
Example C57_complete_sat : exists (fuel : nat) (w : Q -> Q) (nu0 : Q) (z_low : Q) (z_high : Q) (l : list Q), (0 < nu0)%Q /\ (0 < 1 + z_low)%Q /\ (z_low < z_high)%Q /\ ((forall z, z_low <= z < z_high -> 0 < w z < 1 + z)%Q) /\ redshifts_equal_distance fuel w nu0 z_low z_high = Some l.
Proof. eexists 9%nat, (fun z => 1 # 10)%Q, 1%Q, 8%Q, (83 # 10)%Q, _. split; [Lqa.lra|]. split; [Lqa.lra|]. split; [Lqa.lra|]. split; [intros x Hx; split; Lqa.lra|]. vm_compute; reflexivity. Qed.

(** How far apart two neighbours are: with an expansion rate [H] that does not decrease with
    redshift and a comoving distance [D] (derivative c/H), the step is at most
    (1+z')/(1+z) cells and at least that times H(z)/H(z'). *)
Local Open Scope R_scope.
Theorem C57_step_length : forall fuel w nu0 z_low z_high l (H D : R -> R) c dx k z z',
  (0 < nu0)%Q -> (0 < 1 + z_low)%Q -> (z_low < z_high)%Q ->
  (forall x, z_low <= x < z_high -> 0 < w x < 1 + x)%Q ->
  0 < c -> (forall x, Q2R z_low <= x -> 0 < H x) ->
  (forall x y, Q2R z_low <= x -> x <= y -> H x <= H y) ->
  (forall x, Q2R z_low <= x -> derivable_pt_lim D x (c / H x)) ->
  (forall x, (z_low <= x)%Q -> Q2R (w x) = H (Q2R x) * dx / c) ->
  redshifts_equal_distance fuel w nu0 z_low z_high = Some l ->
  nth_error l k = Some z -> nth_error l (S k) = Some z' ->
  dx * ((1 + Q2R z') / (1 + Q2R z)) * (H (Q2R z) / H (Q2R z')) <= D (Q2R z') - D (Q2R z) <= dx * ((1 + Q2R z') / (1 + Q2R z)).
Proof.
  intros fuel w nu0 zl zh l H D c dx k z z' H0 Hl Hlh Hw Hc HP HM HD HW E Ez Ez'.
  unfold redshifts_equal_distance in E.
  replace (Qltb zl zh) with true in E by (symmetry; now apply Qltb_lt).
  assert (G : forall fuel x l, (zl <= x)%Q -> dist_loop fuel w nu0 zh x = Some l -> forall k z z', nth_error l k = Some z -> nth_error l (S k) = Some z' ->
     (zl <= z < zh)%Q /\ z' = dist_next w nu0 z).
  { clear - H0 Hl Hw. induction fuel as [|f IH]; intros x l Hx E k z z' Ez Ez'; cbn [dist_loop] in E; destruct (Qltb x zh) eqn:C; try discriminate.
    - injection E as <-. destruct k; discriminate.
    - destruct (dist_loop f w nu0 zh (dist_next w nu0 x)) as [l'|] eqn:E'; [|discriminate]. cbn in E. injection E as <-.
      apply Qltb_lt in C.
      assert (W : (0 < w x < 1 + x)%Q) by (apply Hw; split; assumption).
      assert (L : (x + w x <= dist_next w nu0 x)%Q) by (apply dist_next_gt; Lqa.lra).
      destruct k as [|k].
      + injection Ez as <-. split; [split; assumption|]. cbn in Ez'.
        destruct f; cbn [dist_loop] in E'; destruct (Qltb (dist_next w nu0 x) zh); try discriminate; try (injection E' as <-; discriminate).
        destruct (dist_loop f w nu0 zh _); [|discriminate]. cbn in E'. injection E' as <-. cbn in Ez'. congruence.
      + apply (IH _ _) with (2 := E') (3 := Ez) (4 := Ez'). Lqa.lra.
    - injection E as <-. destruct k; discriminate. }
  destruct (G fuel zl l (Qle_refl _) E k z z' Ez Ez') as [[B1 B2] Ey]. clear G E Ez Ez'.
  assert (W : (0 < w z < 1 + z)%Q) by (apply Hw; split; assumption).
  assert (L : (z + w z <= dist_next w nu0 z)%Q) by (apply dist_next_gt; Lqa.lra).
  assert (Eq : ((z' - z) * (1 + z) == w z * (1 + z'))%Q).
  { rewrite Ey. unfold dist_next.
    assert (Q1 : ~ (nu0 * (1 + z) - nu0 * w z == 0)%Q).
    { intros K. assert (K' : (nu0 * (1 + z - w z) == 0)%Q) by (rewrite <- K; ring).
      apply Qmult_integral in K' as [K'|K']; Lqa.lra. }
    assert (Q2 : ~ (1 + z == 0)%Q) by (intros K; Lqa.lra).
    field. split; [exact Q2|exact Q1]. }
  rewrite <- Ey in L. clear Ey.
  assert (B1r : Q2R zl <= Q2R z) by now apply Qle_Rle.
  assert (Wr : 0 < Q2R (w z)). { destruct W as [W _]. apply Qlt_Rlt in W. rewrite RMicromega.Q2R_0 in W. exact W. }
  assert (Lr : Q2R z + Q2R (w z) <= Q2R z') by (rewrite <- Q2R_plus; now apply Qle_Rle).
  assert (Zr : 0 < 1 + Q2R z).
  { assert (K : (0 < 1 + z)%Q) by Lqa.lra. apply Qlt_Rlt in K. rewrite Q2R_plus, RMicromega.Q2R_0, RMicromega.Q2R_1 in K. exact K. }
  assert (Er : (Q2R z' - Q2R z) * (1 + Q2R z) = Q2R (w z) * (1 + Q2R z')).
  { apply Qeq_eqR in Eq. rewrite !Q2R_mult, Q2R_minus, !Q2R_plus, RMicromega.Q2R_1 in Eq. exact Eq. }
  rewrite (HW z B1) in Er, Wr. rewrite (HW z B1) in Lr.
  set (a := Q2R z) in *. set (b := Q2R z') in *.
  destruct (MVT_cor2 D (fun x => c / H x) a b ltac:(lra)) as (m & Em & Hm).
  { intros x Hx. apply HD. lra. }
  rewrite Em.
  pose proof (HP a ltac:(lra)) as Pa. pose proof (HP m ltac:(lra)) as Pm. pose proof (HP b ltac:(lra)) as Pb.
  assert (Dx : dx * ((1 + b) / (1 + a)) = c / H a * (b - a)).
  { apply Rmult_eq_reg_r with (1 + a); [|lra]. apply Rmult_eq_reg_r with (H a / c); [|apply Rgt_not_eq, Rdiv_lt_0_compat; lra].
    transitivity (H a * dx / c * (1 + b)); [field; lra|]. rewrite <- Er. field. lra. }
  rewrite Dx.
  assert (M1 : / H m <= / H a) by (apply Rinv_le_contravar; [lra|apply HM; lra]).
  assert (M2 : / H b <= / H m) by (apply Rinv_le_contravar; [lra|apply HM; lra]).
  assert (Pc : 0 <= c * (b - a)) by (apply Rmult_le_pos; lra).
  split.
  - replace (c / H a * (b - a) * (H a / H b)) with (c * (b - a) * / H b) by (field; lra).
    replace (c / H m * (b - a)) with (c * (b - a) * / H m) by (field; lra). apply Rmult_le_compat_l; assumption.
  - replace (c / H a * (b - a)) with (c * (b - a) * / H a) by (field; lra).
    replace (c / H m * (b - a)) with (c * (b - a) * / H m) by (field; lra). apply Rmult_le_compat_l; assumption.
Qed.
Print Assumptions C57_step_length.
Example C57_step_length_sat : exists (fuel : nat) (w : Q -> Q) (nu0 : Q) (z_low : Q) (z_high : Q) (l : list Q) (H D : R -> R) (c : R) (dx : R) (k : nat) (z : Q) (z' : Q), (0 < nu0)%Q /\ (0 < 1 + z_low)%Q /\ (z_low < z_high)%Q /\ ((forall x, z_low <= x < z_high -> 0 < w x < 1 + x)%Q) /\ 0 < c /\ ((forall x, Q2R z_low <= x -> 0 < H x)) /\ ((forall x y, Q2R z_low <= x -> x <= y -> H x <= H y)) /\ ((forall x, Q2R z_low <= x -> derivable_pt_lim D x (c / H x))) /\ ((forall x, (z_low <= x)%Q -> Q2R (w x) = H (Q2R x) * dx / c)) /\ redshifts_equal_distance fuel w nu0 z_low z_high = Some l /\ nth_error l k = Some z /\ nth_error l (S k) = Some z'.
Proof. eexists 9%nat, (fun z => 1 # 10)%Q, 1%Q, 8%Q, (83 # 10)%Q, _, (fun _ => 1), (fun x => 10 * x), 10, 1, 0%nat, _, _. split; [Lqa.lra|]. split; [Lqa.lra|]. split; [Lqa.lra|]. split; [intros x Hx; split; Lqa.lra|]. split; [lra|]. split; [intros; lra|]. split; [intros; lra|]. split; [intros x _; replace (10 / 1) with (10 * 1) by field; apply (derivable_pt_lim_scal id 10 x 1); apply derivable_pt_lim_id|].
  split; [intros x _; unfold Q2R; cbn; lra|]. split; [vm_compute; reflexivity|]. split; reflexivity. Qed.

(** The hypotheses are met: a constant expansion rate, D(z) = 10 z. *)
Example C57_length_sat :
  exists l, redshifts_equal_distance 9 (fun z => 1 # 10)%Q 1 8 (83 # 10) = Some l /\ length l = 3%nat
  /\ (forall x, 8 <= x < 83 # 10 -> 0 < 1 # 10 < 1 + x)%Q
  /\ (forall x, derivable_pt_lim (fun x => 10 * x) x (10 / 1)).
Proof.
  eexists. split; [vm_compute; reflexivity|]. split; [reflexivity|]. split.
  - intros x Hx. split; Lqa.lra.
  - intros x. replace (10 / 1) with (10 * 1) by field. apply (derivable_pt_lim_scal id 10 x 1). apply derivable_pt_lim_id.
Qed.
