(** C83: the slope of the wedge. *)
From Coq Require Import Reals Lra Lia.
From Verif Require Import ConstModel DistModel DistProps WedgeModel.
Local Open Scope R_scope.

(** The expansion rate of a flat cosmology in units of the Hubble constant. *)
Definition rate (OMm z : R) : R := sqrt (OMm * (1 + z) ^ 3 + (1 - OMm)).
Lemma rad_ge_1 : forall om z, 0 < om <= 1 -> 0 <= z -> 1 <= om * (1 + z) ^ 3 + (1 - om).
Proof. intros om z O Hz. assert (1 <= (1 + z) ^ 3) by (apply pow_R1_Rle; lra). nra. Qed.
Lemma rate_ge_1 : forall om z, 0 < om <= 1 -> 0 <= z -> 1 <= rate om z.
Proof. intros om z O Hz. rewrite <- sqrt_1. apply sqrt_le_1_alt. apply rad_ge_1; assumption. Qed.
Lemma rate_mono : forall om x z, 0 < om <= 1 -> 0 <= x <= z -> rate om x <= rate om z.
Proof.
  intros om x z O H. apply sqrt_le_1_alt. assert ((1 + x) ^ 3 <= (1 + z) ^ 3) by (apply pow_incr; lra). nra.
Qed.
Lemma one_over_E_rate : forall om z, one_over_E om z = / rate om z.
Proof. intros. unfold one_over_E, rate, Rdiv. apply Rmult_1_l. Qed.
Lemma one_over_E_cont : forall om, 0 < om <= 1 -> continuous_from_0 (one_over_E om).
Proof.
  intros om O x Hx. pose proof (rad_ge_1 om x O Hx). unfold one_over_E.
  apply (continuity_pt_div (fun _ => 1) (fun x => sqrt (om * (1 + x) ^ 3 + (1 - om)))).
  - apply continuity_pt_const. intros a b. reflexivity.
  - apply (continuity_pt_comp (fun x => om * (1 + x) ^ 3 + (1 - om)) sqrt); [|apply continuity_pt_sqrt; lra]. apply derivable_continuous_pt. reg.
  - apply Rgt_not_eq, sqrt_lt_R0. lra.
Qed.
Lemma factor_eq : forall om quad C z, 0 < om <= 1 -> exact_on quad (one_over_E om) -> 0 <= z ->
  multiplicative_factor quad om z = rate om z / (1 + z) * integral (one_over_E om) C z.
Proof.
  intros om quad C z O X Hz. unfold multiplicative_factor. rewrite (X C z Hz), one_over_E_rate. pose proof (rate_ge_1 om z O Hz).
  replace (1 / / rate om z / (1 + z)) with (rate om z / (1 + z)) by (field; split; lra). reflexivity.
Qed.
Lemma const_integral : forall k C z, 0 <= z -> integral (fun _ => k) C z = k * z.
Proof.
  intros k C z Hz. rewrite (integral_primitive (fun _ => k) C (fun x => k * x)); [ring|exact Hz|].
  intros x _. pose proof (derivable_pt_lim_scal id k x 1 (derivable_pt_lim_id x)) as D. rewrite Rmult_1_r in D. exact D.
Qed.

(** It is the comoving distance times the expansion rate over c (1 + z), for the distance
    this package computes in the same flat cosmology. *)
Theorem C83_slope_distance : forall c quad z, 0 < H0 c -> 0 < Omega0 c <= 1 -> lam c = 1 - Omega0 c -> 0 <= z ->
  exact_on quad (one_over_E (Omega0 c)) -> exact_on quad (inv_E c) ->
  multiplicative_factor quad (Omega0 c) z = cdist c quad z * (H0 c * rate (Omega0 c) z) / (3 * 10 ^ 5 * (1 + z)).
Proof.
  intros c quad z Hh O L Hz X Y. pose proof (one_over_E_cont (Omega0 c) O) as C. rewrite (factor_eq _ quad C z O X Hz).
  assert (F : flat_like c) by (unfold flat_like; lra). pose proof (inv_E_continuous c F) as C'. unfold cdist. rewrite (Y C' z Hz).
  rewrite (integral_ext (inv_E c) (one_over_E (Omega0 c)) C' C z). 2:{ intros x Hx. unfold inv_E, one_over_E. rewrite L. reflexivity. }
  field. split; lra.
Qed.
Print Assumptions C83_slope_distance.
Example C83_slope_distance_sat : exists quad, 0 < H0 const0 /\ 0 < Omega0 const0 <= 1 /\ lam const0 = 1 - Omega0 const0 /\ exact_on quad (one_over_E (Omega0 const0)) /\ exact_on quad (inv_E const0).
Proof. assert (O : 0 < Omega0 const0 <= 1) by (cbn; lra). exists (fun _ z => integral (one_over_E (Omega0 const0)) (one_over_E_cont _ O) z).
split; [cbn; lra|]. split; [exact O|]. split; [cbn; lra|]. split; intros C z _; [apply integral_irrel|]. apply integral_ext. intros x _. unfold inv_E, one_over_E. replace (lam const0) with (1 - Omega0 const0) by (cbn; lra). reflexivity. Qed.

Lemma rate_derivative : forall om z, 0 < om <= 1 -> 0 <= z -> derivable_pt_lim (rate om) z (3 * om * (1 + z) ^ 2 / (2 * rate om z)).
Proof.
  intros om z O Hz. pose proof (rad_ge_1 om z O Hz) as P. pose proof (rate_ge_1 om z O Hz) as Q. unfold rate.
  replace (3 * om * (1 + z) ^ 2 / (2 * sqrt (om * (1 + z) ^ 3 + (1 - om)))) with (/ (2 * sqrt (om * (1 + z) ^ 3 + (1 - om))) * (3 * om * (1 + z) ^ 2)) by (field; unfold rate in Q; lra).
  apply (derivable_pt_lim_comp (fun z => om * (1 + z) ^ 3 + (1 - om)) sqrt); [|apply derivable_pt_lim_sqrt; lra].
  replace (3 * om * (1 + z) ^ 2) with (om * (INR 3 * (1 + z) ^ 2 * (0 + 1)) + 0) by (cbn; ring).
  apply (derivable_pt_lim_plus (fun z => om * (1 + z) ^ 3) (fct_cte (1 - om))); [|apply derivable_pt_lim_const].
  apply (derivable_pt_lim_scal (fun z => (1 + z) ^ 3) om).
  apply (derivable_pt_lim_comp (fun z => 1 + z) (fun y => y ^ 3)); [|apply (derivable_pt_lim_pow (1 + z) 3)].
  apply (derivable_pt_lim_plus (fct_cte 1) id); [apply derivable_pt_lim_const|apply derivable_pt_lim_id].
Qed.
(** Zero today, growing with redshift, between z / (1 + z) and that times the expansion
    rate; with matter only it is 2 (sqrt (1 + z) - 1). *)
Theorem C83_slope : forall om quad, 0 < om <= 1 -> exact_on quad (one_over_E om) ->
  multiplicative_factor quad om 0 = 0 /\
  (forall z, 0 <= z -> z / (1 + z) <= multiplicative_factor quad om z <= z / (1 + z) * rate om z) /\
  (forall z z', 0 <= z -> z < z' -> multiplicative_factor quad om z < multiplicative_factor quad om z') /\
  (om = 1 -> forall z, 0 <= z -> multiplicative_factor quad om z = 2 * (sqrt (1 + z) - 1)).
Proof.
  intros om quad O X. pose proof (one_over_E_cont om O) as C. set (I := integral (one_over_E om) C).
  assert (V : forall z, 0 <= z -> multiplicative_factor quad om z = rate om z / (1 + z) * I z) by (intros z Hz; apply factor_eq; assumption).
  assert (I0 : I 0 = 0) by apply integral_0.
  assert (POS : forall x, 0 <= x -> 0 < one_over_E om x).
  { intros x Hx. rewrite one_over_E_rate. apply Rinv_0_lt_compat. pose proof (rate_ge_1 om x O Hx). lra. }
  assert (HI : forall z, 0 <= z -> I z <= z).
  { intros z Hz. assert (C1 : continuous_from_0 (fun _ : R => 1)) by (intros x _; apply continuity_pt_const; intros a b; reflexivity).
    pose proof (const_integral 1 C1 z Hz) as E. rewrite Rmult_1_l in E. apply Rle_trans with (integral (fun _ : R => 1) C1 z); [|lra]. apply integral_le. intros x Hx. rewrite one_over_E_rate.
    rewrite <- Rinv_1. apply Rinv_le_contravar; [lra|]. apply rate_ge_1; assumption. }
  assert (LO : forall z, 0 <= z -> z / rate om z <= I z).
  { intros z Hz. pose proof (rate_ge_1 om z O Hz) as R1.
    destruct (Req_dec z 0) as [->|N]; [rewrite I0; unfold Rdiv; lra|]. 
    set (g := fun x => I x - x * / rate om z).
    assert (D : forall x, 0 < x -> derivable_pt_lim g x (one_over_E om x - 1 * / rate om z)).
    { intros x Hx. unfold g. apply (derivable_pt_lim_minus I (fun x => x * / rate om z)); [apply integral_derivative; exact Hx|].
      pose proof (derivable_pt_lim_scal_right id x 1 (/ rate om z) (derivable_pt_lim_id x)) as D. exact D. }
    assert (G : forall e, 0 < e < z -> g e <= g z).
    { intros e He. destruct (MVT_cor2 g (fun x => one_over_E om x - 1 * / rate om z) e z (proj2 He)) as (y & Ey & Hy). { intros y Hy. apply D. lra. }
      assert (0 <= one_over_E om y - 1 * / rate om z).
      { rewrite one_over_E_rate. assert (/ rate om z <= / rate om y); [|lra]. apply Rinv_le_contravar; [pose proof (rate_ge_1 om y O ltac:(lra)); lra|]. apply rate_mono; [exact O|lra]. }
      assert (0 <= (one_over_E om y - 1 * / rate om z) * (z - e)) by (apply Rmult_le_pos; lra). lra. }
    assert (LB : forall e, 0 < e < z -> - e <= g e).
    { intros e He. unfold g. assert (0 <= I e). { rewrite <- I0. left. apply integral_increasing; [exact POS|lra|lra]. }
      assert (0 < / rate om z <= 1) by (split; [apply Rinv_0_lt_compat; lra|rewrite <- Rinv_1 at 1; apply Rinv_le_contravar; lra]). nra. }
    assert (0 <= g z). { destruct (Rle_lt_dec 0 (g z)) as [|F]; [assumption|]. set (e := Rmin (- g z) z / 2).
      assert (M : 0 < Rmin (- g z) z) by (apply Rmin_pos; lra). pose proof (Rmin_l (- g z) z). pose proof (Rmin_r (- g z) z).
      assert (E1 : 0 < e < z) by (unfold e; lra). pose proof (G e E1). pose proof (LB e E1). unfold e in *. lra. }
    unfold g in *. unfold Rdiv. lra. }
  split; [rewrite V by lra; rewrite I0; ring|]. split; [|split].
  - intros z Hz. rewrite (V z Hz). pose proof (rate_ge_1 om z O Hz) as R1. pose proof (HI z Hz). pose proof (LO z Hz) as L. 
    assert (Q : 0 < / (1 + z)) by (apply Rinv_0_lt_compat; lra). split.
    + replace (z / (1 + z)) with (rate om z / (1 + z) * (z / rate om z)) by (field; lra). apply Rmult_le_compat_l; [apply Rmult_le_pos; lra|exact L].
    + replace (z / (1 + z) * rate om z) with (rate om z / (1 + z) * z) by (unfold Rdiv; ring). apply Rmult_le_compat_l; [apply Rmult_le_pos; lra|assumption].
  - assert (K : forall a b, 0 < a -> a < b -> multiplicative_factor quad om a < multiplicative_factor quad om b).
    { intros a b Ha Hb. rewrite (V a), (V b) by lra. set (F := fun z => rate om z / (1 + z) * I z).
      set (F' := fun z => (3 * om * (1 + z) ^ 2 / (2 * rate om z) * (1 + z) - 1 * rate om z) / Rsqr (1 + z) * I z + rate om z / (1 + z) * one_over_E om z).
      assert (D : forall z, 0 < z -> derivable_pt_lim F z (F' z)).
      { intros z Hz. apply (derivable_pt_lim_mult (fun z => rate om z / (1 + z)) I).
        - apply (derivable_pt_lim_div (rate om) (fun z => 1 + z)); [apply rate_derivative; lra| |lra].
          assert (D0 : derivable_pt_lim (fun z => 1 + z) z (0 + 1)) by (apply (derivable_pt_lim_plus (fct_cte 1) id); [apply derivable_pt_lim_const|apply derivable_pt_lim_id]). rewrite Rplus_0_l in D0. exact D0.
        - apply integral_derivative. exact Hz. }
      destruct (MVT_cor2 F F' a b Hb) as (y & Ey & Hy). { intros y Hy. apply D. lra. }
      assert (P : 0 < F' y); [|unfold F in Ey; nra].
      assert (Y0 : 0 <= y) by lra. pose proof (rate_ge_1 om y O Y0) as R1. pose proof (HI y Y0) as U. 
      assert (L : 0 <= I y). { rewrite <- I0. left. apply integral_increasing; [exact POS|lra|lra]. }
      assert (SQ : rate om y * rate om y = om * (1 + y) ^ 3 + (1 - om)) by (apply sqrt_sqrt; pose proof (rad_ge_1 om y O Y0); lra).
      unfold F'. rewrite one_over_E_rate. unfold Rsqr. set (r := rate om y) in *. set (w := 1 + y) in *. assert (W : 1 < w) by (unfold w; lra).
      replace ((3 * om * w ^ 2 / (2 * r) * w - 1 * r) / (w * w) * I y + r / w * / r) with ((2 * r * w + (3 * om * w ^ 3 - 2 * (r * r)) * I y) / (2 * r * (w * w))) by (field; split; lra).
      apply Rdiv_lt_0_compat; [|repeat apply Rmult_lt_0_compat; lra]. rewrite SQ.
      replace (3 * om * w ^ 3 - 2 * (om * w ^ 3 + (1 - om))) with (om * w ^ 3 - 2 * (1 - om)) by ring.
      assert (0 < om * w ^ 3) by (apply Rmult_lt_0_compat; [lra|apply pow_lt; lra]).
      assert (I y < w) by (unfold w; lra).
      assert (- (2 * I y) <= (om * w ^ 3 - 2 * (1 - om)) * I y) by nra. nra. }
    intros z z' Hz L. destruct (Req_dec z 0) as [->|N]; [|apply K; lra].
    rewrite (V 0), I0 by lra. rewrite Rmult_0_r. rewrite V by lra. pose proof (rate_ge_1 om z' O ltac:(lra)).
    apply Rmult_lt_0_compat; [apply Rdiv_lt_0_compat; lra|]. rewrite <- I0. apply integral_increasing; [exact POS|lra|lra].
  - intros E z Hz. rewrite (V z Hz). 
    assert (RT : forall x, 0 <= x -> rate om x = (1 + x) * sqrt (1 + x)).
    { intros x Hx. unfold rate. rewrite E. replace (1 * (1 + x) ^ 3 + (1 - 1)) with ((1 + x) * (1 + x) * (1 + x)) by ring.
      rewrite sqrt_mult_alt by nra. rewrite sqrt_square by lra. reflexivity. }
    assert (IV : I z = 2 - 2 * / sqrt (1 + z)).
    { set (G := fun x => - 2 * / sqrt (1 + x)).
      assert (DG : forall x, 0 <= x -> derivable_pt_lim G x (one_over_E om x)).
      { intros x Hx. assert (S0 : 0 < sqrt (1 + x)) by (apply sqrt_lt_R0; lra).
        assert (D1 : derivable_pt_lim (fun y => sqrt (1 + y)) x (/ (2 * sqrt (1 + x)))).
        { replace (/ (2 * sqrt (1 + x))) with (/ (2 * sqrt (1 + x)) * (0 + 1)) by ring. apply (derivable_pt_lim_comp (fun y => 1 + y) sqrt); [apply (derivable_pt_lim_plus (fct_cte 1) id); [apply derivable_pt_lim_const|apply derivable_pt_lim_id]|apply derivable_pt_lim_sqrt; lra]. }
        assert (D2 : derivable_pt_lim (fun y => 1 / sqrt (1 + y)) x ((0 * sqrt (1 + x) - / (2 * sqrt (1 + x)) * 1) / (Rsqr (sqrt (1 + x))))) by (apply (derivable_pt_lim_div (fct_cte 1) (fun y => sqrt (1 + y))); [apply derivable_pt_lim_const|exact D1|lra]).
        pose proof (derivable_pt_lim_scal _ (- 2) x _ D2) as D3. rewrite Rsqr_sqrt in D3 by lra. rewrite one_over_E_rate, (RT x Hx).
        replace (/ ((1 + x) * sqrt (1 + x))) with (- 2 * ((0 * sqrt (1 + x) - / (2 * sqrt (1 + x)) * 1) / (1 + x))) by (field; split; lra).
        intros e He. destruct (D3 e He) as [d Hd]. exists d. intros h1 h2 h3. specialize (Hd h1 h2 h3). unfold mult_real_fct in Hd. unfold G.
        unfold Rdiv in Hd at 2 3. rewrite !Rmult_1_l in Hd. exact Hd. }
      unfold I. rewrite (integral_primitive (one_over_E om) C G z Hz DG). unfold G. rewrite Rplus_0_r, sqrt_1, Rinv_1. ring. }
    rewrite IV, (RT z Hz). assert (S0 : 0 < sqrt (1 + z)) by (apply sqrt_lt_R0; lra). field. split; lra.
Qed.
Print Assumptions C83_slope.
Example C83_slope_sat : exists quad, 0 < Omega0 const0 <= 1 /\ lam const0 = 1 - Omega0 const0 /\ exact_on quad (one_over_E (Omega0 const0)).
Proof.
  assert (O : 0 < Omega0 const0 <= 1) by (cbn; lra). exists (fun _ z => integral (one_over_E (Omega0 const0)) (one_over_E_cont _ O) z).
  split; [exact O|]. split; [cbn; lra|]. intros C z _. apply integral_irrel.
Qed.
