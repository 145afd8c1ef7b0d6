(** C85: distances are the integrals they should be. *)
From Coq Require Import List ZArith Reals Lra Lia Bool.
From Verif Require Import ConstModel UnitsModel DistModel.
Import ListNotations.
Local Open Scope R_scope.

(** * Specification: integrals from 0 *)
Definition continuous_from_0 (f : R -> R) : Prop := forall x, 0 <= x -> continuity_pt f x.
Definition integral (f : R -> R) (C : continuous_from_0 f) (z : R) : R :=
  match Rle_dec 0 z with left H => RiemannInt (continuity_implies_RiemannInt H (fun x Hx => C x (proj1 Hx))) | right _ => 0 end.
(** A quadrature that is exact for f. *)
Definition exact_on (quad : (R -> R) -> R -> R) (f : R -> R) : Prop := forall (C : continuous_from_0 f) z, 0 <= z -> quad f z = integral f C z.

(** * Facts about integrals *)
Lemma integral_primitive : forall f C F z, 0 <= z -> (forall x, 0 <= x -> derivable_pt_lim F x (f x)) -> integral f C z = F z - F 0.
Proof.
  intros f C F z Hz D. unfold integral. destruct (Rle_dec 0 z) as [H|]; [|contradiction]. set (C0 := fun x (Hx : 0 <= x <= z) => C x (proj1 Hx)).
  rewrite (RiemannInt_P20 H (FTC_P1 H C0)).
  assert (A1 : antiderivative f (primitive H (FTC_P1 H C0)) 0 z) by apply RiemannInt_P29.
  assert (A2 : antiderivative f F 0 z). { split; [|exact H]. intros x Hx. exists (exist _ (f x) (D x (proj1 Hx)) : derivable_pt F x). reflexivity. }
  destruct (antiderivative_Ucte f _ F 0 z A1 A2) as [k E]. rewrite (E z), (E 0) by lra. ring.
Qed.
Lemma integral_0 : forall f C, integral f C 0 = 0.
Proof. intros f C. unfold integral. destruct (Rle_dec 0 0); [apply RiemannInt_P9|lra]. Qed.
Lemma integral_irrel : forall f C C' z, integral f C z = integral f C' z.
Proof. intros. unfold integral. destruct (Rle_dec 0 z); [apply RiemannInt_P5|reflexivity]. Qed.
Lemma integral_le : forall f g C C' z, (forall x, 0 <= x -> f x <= g x) -> integral f C z <= integral g C' z.
Proof. intros f g C C' z L. unfold integral. destruct (Rle_dec 0 z) as [H|]; [|lra]. apply RiemannInt_P19; [exact H|]. intros x Hx. apply L. lra. Qed.
Lemma integral_derivative : forall f C z, 0 < z -> derivable_pt_lim (integral f C) z (f z).
Proof.
  intros f C z Hz. set (b := z + 1). assert (H : 0 <= b) by (unfold b; lra). set (C0 := fun x (Hx : 0 <= x <= b) => C x (proj1 Hx)).
  assert (D : derivable_pt_lim (primitive H (FTC_P1 H C0)) z (f z)) by (apply RiemannInt_P28; unfold b; lra).
  intros eps He. destruct (D eps He) as [d Hd]. assert (M : 0 < Rmin d (Rmin z 1)) by (apply Rmin_pos; [apply cond_pos|apply Rmin_pos; lra]). exists (mkposreal _ M). intros h0 Hn Hh. cbn in Hh.
  assert (E : forall y, 0 <= y <= b -> integral f C y = primitive H (FTC_P1 H C0) y). { intros y Hy. unfold integral, primitive. destruct (Rle_dec 0 y) as [a|]; [|lra]. destruct (Rle_dec y b) as [e|]; [|lra]. apply RiemannInt_P5. }
  assert (Hh' : Rabs h0 < z /\ Rabs h0 < 1 /\ Rabs h0 < d) by (repeat split; eapply Rlt_le_trans; [exact Hh| |exact Hh| |exact Hh|]; [eapply Rle_trans; [apply Rmin_r|apply Rmin_l]|eapply Rle_trans; [apply Rmin_r|apply Rmin_r]|apply Rmin_l]).
  destruct Hh' as (h1 & h2 & h3). apply Rabs_def2 in h1. apply Rabs_def2 in h2. rewrite !E by (unfold b; lra). apply Hd; assumption.
Qed.
Lemma integral_increasing : forall f C z z', (forall x, 0 <= x -> 0 < f x) -> 0 <= z -> z < z' -> integral f C z < integral f C z'.
Proof.
  intros f C z z' P Hz L. set (F := integral f C).
  assert (K : forall a b, 0 < a -> a < b -> F a < F b).
  { intros a b Ha Hb. assert (pr : forall x, a < x < b -> derivable_pt F x) by (intros x Hx; exists (f x); apply integral_derivative; lra).
    destruct (MVT_cor2 F f a b Hb) as (x & E & Hx). { intros x Hx. apply integral_derivative. lra. } pose proof (P x ltac:(lra)). nra. }
  destruct (Req_dec z 0) as [-> |N]; [|apply K; lra]. unfold F. rewrite integral_0.
  assert (half : 0 <= integral f C (z' / 2)). { replace 0 with (integral f C 0) by apply integral_0. unfold integral at 2. destruct (Rle_dec 0 (z' / 2)) as [H|]; [|lra].
    rewrite integral_0. set (pr := continuity_implies_RiemannInt H (fun x (Hx : 0 <= x <= z' / 2) => C x (proj1 Hx))). pose proof (RiemannInt_P19 (RiemannInt_P14 0 (z' / 2) 0) pr H) as Q. rewrite RiemannInt_P15 in Q. rewrite Rmult_0_l in Q. apply Q. intros x Hx. unfold fct_cte. apply Rlt_le, P. lra. }
  pose proof (K (z' / 2) z' ltac:(lra) ltac:(lra)) as Q. unfold F in Q. lra.
Qed.

Lemma integral_ext : forall f g C C' z, (forall x, 0 <= x -> f x = g x) -> integral f C z = integral g C' z.
Proof. intros f g C C' z E. apply Rle_antisym; apply integral_le; intros x Hx; rewrite (E x Hx); lra. Qed.

(** * The comoving distance *)
Definition flat_like (c : const) : Prop := 0 < H0 c /\ 0 < Omega0 c /\ 0 <= lam c.
Lemma radicand : forall c x, flat_like c -> 0 <= x -> Omega0 c <= Omega0 c * (1 + x) ^ 3 + lam c /\ 0 < Omega0 c * (1 + x) ^ 3 + lam c.
Proof. intros c x (_ & O & L) Hx. assert (1 <= (1 + x) ^ 3) by (apply pow_R1_Rle; lra). split; nra. Qed.
Lemma inv_E_continuous : forall c, flat_like c -> continuous_from_0 (inv_E c).
Proof.
  intros c F x Hx. destruct (radicand c x F Hx) as [_ P]. unfold inv_E.
  apply (continuity_pt_div (fun _ => 1) (fun x => sqrt (Omega0 c * (1 + x) ^ 3 + lam c))).
  - apply continuity_pt_const. intros a b. reflexivity.
  - apply (continuity_pt_comp (fun x => Omega0 c * (1 + x) ^ 3 + lam c) sqrt); [|apply continuity_pt_sqrt; lra]. apply derivable_continuous_pt. reg.
  - apply Rgt_not_eq, sqrt_lt_R0, P.
Qed.
Lemma inv_E_pos : forall c x, flat_like c -> 0 <= x -> 0 < inv_E c x.
Proof. intros c x F Hx. destruct (radicand c x F Hx) as [_ P]. unfold inv_E. apply Rdiv_lt_0_compat; [lra|]. apply sqrt_lt_R0, P. Qed.
(** Zero at redshift zero, strictly increasing with slope c/H(z), at most c z/H0 over the root of the densities today, and below the
    horizon of the matter alone however large the redshift. *)
Theorem C85_comoving : forall c quad, flat_like c -> exact_on quad (inv_E c) ->
  cdist c quad 0 = 0 /\ (forall z z', 0 <= z -> z < z' -> cdist c quad z < cdist c quad z') /\
  (forall z z', 0 <= z -> z < z' -> exists y, z < y < z' /\ cdist c quad z' - cdist c quad z = 3 * 10 ^ 5 / (H0 c * sqrt (Omega0 c * (1 + y) ^ 3 + lam c)) * (z' - z)) /\
  (forall z, 0 <= z -> cdist c quad z <= 3 * 10 ^ 5 * z / (H0 c * sqrt (Omega0 c + lam c))) /\
  (forall z, 0 <= z -> cdist c quad z < 2 * (3 * 10 ^ 5) / (H0 c * sqrt (Omega0 c))).
Proof.
  intros c quad F X. pose proof (inv_E_continuous c F) as C. destruct F as (H & O & L) eqn:EF. pose proof (conj H (conj O L) : flat_like c) as F'. set (A := 3 * 10 ^ 5 / H0 c). assert (PA : 0 < A) by (apply Rdiv_lt_0_compat; lra).
  assert (V : forall z, 0 <= z -> cdist c quad z = A * integral (inv_E c) C z) by (intros z Hz; unfold cdist; rewrite (X C z Hz); reflexivity).
  assert (INC : forall z z', 0 <= z -> z < z' -> integral (inv_E c) C z < integral (inv_E c) C z') by (intros z z' Hz Hzz; apply integral_increasing; [intros x Hx; apply inv_E_pos; assumption|exact Hz|exact Hzz]).
  repeat split.
  - rewrite V, integral_0 by lra. ring.
  - intros z z' Hz Hzz. rewrite !V by lra. apply Rmult_lt_compat_l; [exact PA|]. apply INC; assumption.
  - intros z z' Hz Hzz. rewrite !V by lra.
    assert (M : exists y, z < y < z' /\ integral (inv_E c) C z' - integral (inv_E c) C z = inv_E c y * (z' - z)).
    { set (b := z' + 1). assert (Hb : 0 <= b) by (unfold b; lra). set (C0 := fun x (Hx : 0 <= x <= b) => C x (proj1 Hx)). set (P := primitive Hb (FTC_P1 Hb C0)).
      assert (E : forall y, 0 <= y <= b -> integral (inv_E c) C y = P y). { intros y Hy. unfold P, integral, primitive. destruct (Rle_dec 0 y) as [a|]; [|lra]. destruct (Rle_dec y b) as [e|]; [|lra]. apply RiemannInt_P5. }
      rewrite !E by (unfold b; lra). destruct (MVT_cor2 P (inv_E c) z z' Hzz) as (y & Ey & Hy). { intros x Hx. apply RiemannInt_P28. unfold b. lra. } exists y. split; [exact Hy|exact Ey]. }
    destruct M as (y & Hy & Ey). exists y. split; [exact Hy|]. rewrite <- Rmult_minus_distr_l, Ey. unfold inv_E, A. destruct (radicand c y F' ltac:(lra)) as [_ P]. field. split; [apply Rgt_not_eq, sqrt_lt_R0, P|lra].
  - intros z Hz. rewrite V by lra. set (m := / sqrt (Omega0 c + lam c)). assert (Cm : continuous_from_0 (fun _ => m)) by (intros x _; apply continuity_pt_const; intros a b; reflexivity).
    assert (Q : integral (inv_E c) C z <= integral (fun _ => m) Cm z). { apply integral_le. intros x Hx. unfold inv_E, m, Rdiv. rewrite Rmult_1_l. apply Rinv_le_contravar; [apply sqrt_lt_R0; lra|]. apply sqrt_le_1_alt. assert (1 <= (1 + x) ^ 3) by (apply pow_R1_Rle; lra). nra. }
    rewrite (integral_primitive (fun _ => m) Cm (fun x => m * x)) in Q; [|exact Hz|intros x _; pose proof (derivable_pt_lim_scal id m x 1 (derivable_pt_lim_id x)) as DD; rewrite Rmult_1_r in DD; exact DD].
    replace (3 * 10 ^ 5 * z / (H0 c * sqrt (Omega0 c + lam c))) with (A * (m * z)) by (unfold A, m; field; split; [apply Rgt_not_eq, sqrt_lt_R0; lra|lra]). apply Rmult_le_compat_l; lra.
  - intros z Hz. rewrite V by lra. set (m := / sqrt (Omega0 c)). assert (Pm : 0 < m) by (apply Rinv_0_lt_compat, sqrt_lt_R0, O). set (g := fun x => m * / (sqrt (1 + x) * (1 + x))). set (G := fun x => - 2 * m * / sqrt (1 + x)).
    assert (DG : forall x, 0 <= x -> derivable_pt_lim G x (g x)).
    { intros x Hx. unfold G, g. assert (S0 : 0 < sqrt (1 + x)) by (apply sqrt_lt_R0; lra).
      assert (D1 : derivable_pt_lim (fun y => sqrt (1 + y)) x (/ (2 * sqrt (1 + x)))). { replace (/ (2 * sqrt (1 + x))) with (/ (2 * sqrt (1 + x)) * (0 + 1)) by ring. apply (derivable_pt_lim_comp (fun y => 1 + y) sqrt); [apply (derivable_pt_lim_plus (fct_cte 1) id); [apply derivable_pt_lim_const|apply derivable_pt_lim_id]|apply derivable_pt_lim_sqrt; lra]. }
      assert (D2 : derivable_pt_lim (fun y => 1 / sqrt (1 + y)) x ((0 * sqrt (1 + x) - / (2 * sqrt (1 + x)) * 1) / (Rsqr (sqrt (1 + x))))) by (apply (derivable_pt_lim_div (fct_cte 1) (fun y => sqrt (1 + y))); [apply derivable_pt_lim_const|exact D1|lra]).
      pose proof (derivable_pt_lim_scal _ (- 2 * m) x _ D2) as D3. rewrite Rsqr_sqrt in D3 by lra.
      replace (- 2 * m * ((0 * sqrt (1 + x) - / (2 * sqrt (1 + x)) * 1) / (1 + x))) with (m * / (sqrt (1 + x) * (1 + x))) in D3 by (field; split; lra).
      intros e He. destruct (D3 e He) as [d Hd]. exists d. intros h0 h1 h2. specialize (Hd h0 h1 h2). unfold mult_real_fct, Rdiv in Hd. rewrite !Rmult_1_l in Hd. exact Hd. }
    assert (Cg : continuous_from_0 g). { intros x Hx. unfold g. apply (continuity_pt_mult (fun _ => m) (fun x => / (sqrt (1 + x) * (1 + x)))); [apply continuity_pt_const; intros a b; reflexivity|]. apply (continuity_pt_inv (fun x => sqrt (1 + x) * (1 + x))); [|assert (0 < sqrt (1 + x)) by (apply sqrt_lt_R0; lra); nra]. apply (continuity_pt_mult (fun x => sqrt (1 + x)) (fun x => 1 + x)); [apply (continuity_pt_comp (fun x => 1 + x) sqrt); [|apply continuity_pt_sqrt; lra]|]; apply derivable_continuous_pt; reg. }
    assert (Q : integral (inv_E c) C z <= integral g Cg z).
    { apply integral_le. intros x Hx. unfold inv_E, g, m. rewrite <- Rinv_mult. unfold Rdiv. rewrite Rmult_1_l. assert (S0 : 0 < sqrt (1 + x)) by (apply sqrt_lt_R0; lra). assert (SO : 0 < sqrt (Omega0 c)) by (apply sqrt_lt_R0; lra). assert (P3 : 0 < sqrt (1 + x) * (1 + x)) by nra. apply Rinv_le_contravar; [nra|].
      replace (sqrt (Omega0 c) * (sqrt (1 + x) * (1 + x))) with (sqrt (Omega0 c * (1 + x) ^ 3)); [apply sqrt_le_1_alt; lra|]. rewrite sqrt_mult_alt by lra. f_equal. replace ((1 + x) ^ 3) with ((1 + x) * ((1 + x) * (1 + x))) by ring. rewrite sqrt_mult_alt by lra. rewrite sqrt_square by lra. reflexivity. }
    rewrite (integral_primitive g Cg G z Hz DG) in Q. unfold G in Q. rewrite Rplus_0_r, sqrt_1, Rinv_1, Rmult_1_r in Q. assert (S0 : 0 < / sqrt (1 + z)) by (apply Rinv_0_lt_compat, sqrt_lt_R0; lra).
    replace (2 * (3 * 10 ^ 5) / (H0 c * sqrt (Omega0 c))) with (A * (2 * m)) by (unfold A, m; field; split; [apply Rgt_not_eq, sqrt_lt_R0; lra|lra]). apply Rmult_lt_compat_l; [exact PA|]. nra.
Qed.
Print Assumptions C85_comoving.
Example C85_comoving_sat : exists quad, flat_like const0 /\ exact_on quad (inv_E const0).
Proof.
  assert (F : flat_like const0) by (unfold flat_like; cbn; lra). exists (fun _ z => integral (inv_E const0) (inv_E_continuous const0 F) z). split; [exact F|]. intros C z _. apply integral_irrel.
Qed.

(** * The luminosity distance *)
Lemma ldist_flat : forall c x, q0 c = Omega0 c / 2 - lam c -> Omega0 c + lam c = 1 -> flat_like c -> 0 <= x -> ldist c x = inv_E c x.
Proof.
  intros c x Q S F Hx. unfold ldist, inv_E. replace (ldist_denom c x) with (Omega0 c * (1 + x) ^ 3 + lam c). { destruct (radicand c x F Hx) as [_ P]. destruct (Rle_dec 0 (Omega0 c * (1 + x) ^ 3 + lam c)); [reflexivity|lra]. }
  unfold ldist_denom. rewrite Q. replace (lam c) with (1 - Omega0 c) by lra. field.
Qed.
(** In a flat cosmology with up-to-date q0 the luminosity distance is (1+z) times the comoving distance: by integration when lambda is
    not 0, and by the closed formula when it is. *)
Theorem C85_luminosity_flat : forall c quad z, flat_like c -> Omega0 c + lam c = 1 -> q0 c = Omega0 c / 2 - lam c -> exact_on quad (inv_E c) -> exact_on quad (ldist c) -> 0 <= z -> luminosity_distance c quad z 0 = (1 + z) * cdist c quad z.
Proof.
  intros c quad z F S Q X1 X2 Hz. pose proof (inv_E_continuous c F) as C. unfold luminosity_distance, cdist. destruct (Req_EM_T (lam c) 0) as [L0|L0].
  - assert (O1 : Omega0 c = 1) by lra. assert (Q1 : q0 c = / 2) by lra. rewrite (X1 C z Hz), Q1.
    set (G := fun x => - 2 * / sqrt (1 + x)).
    assert (DG : forall x, 0 <= x -> derivable_pt_lim G x (inv_E c x)).
    { intros x Hx. unfold G, inv_E. rewrite O1, L0, Rmult_1_l, Rplus_0_r. assert (S0 : 0 < sqrt (1 + x)) by (apply sqrt_lt_R0; lra).
      assert (D1 : derivable_pt_lim (fun y => sqrt (1 + y)) x (/ (2 * sqrt (1 + x)))). { replace (/ (2 * sqrt (1 + x))) with (/ (2 * sqrt (1 + x)) * (0 + 1)) by ring. apply (derivable_pt_lim_comp (fun y => 1 + y) sqrt); [apply (derivable_pt_lim_plus (fct_cte 1) id); [apply derivable_pt_lim_const|apply derivable_pt_lim_id]|apply derivable_pt_lim_sqrt; lra]. }
      assert (D2 : derivable_pt_lim (fun y => 1 / sqrt (1 + y)) x ((0 * sqrt (1 + x) - / (2 * sqrt (1 + x)) * 1) / (Rsqr (sqrt (1 + x))))) by (apply (derivable_pt_lim_div (fct_cte 1) (fun y => sqrt (1 + y))); [apply derivable_pt_lim_const|exact D1|lra]).
      pose proof (derivable_pt_lim_scal _ (- 2) x _ D2) as D3. rewrite Rsqr_sqrt in D3 by lra.
      replace ((1 + x) ^ 3) with ((1 + x) * ((1 + x) * (1 + x))) by ring. rewrite sqrt_mult_alt by lra. rewrite sqrt_square by lra.
      replace (- 2 * ((0 * sqrt (1 + x) - / (2 * sqrt (1 + x)) * 1) / (1 + x))) with (1 / (sqrt (1 + x) * (1 + x))) in D3 by (field; split; lra).
      intros e He. destruct (D3 e He) as [d Hd]. exists d. intros h0 h1 h2. specialize (Hd h0 h1 h2). unfold mult_real_fct in Hd. unfold Rdiv in *. rewrite !Rmult_1_l in Hd. rewrite Rmult_1_l. exact Hd. }
    rewrite (integral_primitive _ C G z Hz DG). unfold G. rewrite Rplus_0_r, sqrt_1, Rinv_1. replace (2 * / 2 * z) with z by field. set (s := sqrt (1 + z)). assert (S0 : 0 < s) by (apply sqrt_lt_R0; lra). assert (SS : s * s = 1 + z) by (apply sqrt_sqrt; lra).
    replace z with (s * s - 1) by lra. destruct F as (H & _). field. repeat split; nra.
  - rewrite (X1 C z Hz). destruct (Rlt_dec 0 0); [lra|].
    assert (C' : continuous_from_0 (ldist c)). { intros x Hx. destruct (Req_dec x 0) as [E0|N0].
      - subst x. assert (CD : continuity_pt (ldist_denom c) 0) by (apply derivable_continuous_pt; unfold ldist_denom; reg).
        assert (D0 : ldist_denom c 0 = 1) by (unfold ldist_denom; ring).
        assert (CQ : continuity_pt (fun x => 1 / sqrt (ldist_denom c x)) 0). { apply (continuity_pt_div (fun _ => 1) (fun x => sqrt (ldist_denom c x))); [apply continuity_pt_const; intros a b; reflexivity|apply (continuity_pt_comp (ldist_denom c) sqrt); [exact CD|apply continuity_pt_sqrt; lra]|rewrite D0, sqrt_1; lra]. }
        intros e He. destruct (CQ e He) as (a & Ha & Qa). destruct (CD 1 ltac:(lra)) as (b & Hb & Qb). exists (Rmin a b). split; [apply Rmin_pos; assumption|]. intros y [Dy Ny]. specialize (Qa y (conj Dy (Rlt_le_trans _ _ _ Ny (Rmin_l _ _)))). specialize (Qb y (conj Dy (Rlt_le_trans _ _ _ Ny (Rmin_r _ _)))). cbn in Qb. unfold R_dist in Qb. rewrite D0 in Qb. apply Rabs_def2 in Qb. unfold ldist. destruct (Rle_dec 0 (ldist_denom c y)); [|lra]. destruct (Rle_dec 0 (ldist_denom c 0)); [exact Qa|lra].
      - assert (P0 : 0 < x) by lra. intros e He. destruct (C x Hx e He) as (a & Ha & Qa). exists (Rmin a x). split; [apply Rmin_pos; assumption|]. intros y [Dy Ny]. specialize (Qa y (conj Dy (Rlt_le_trans _ _ _ Ny (Rmin_l _ _)))). pose proof (Rlt_le_trans _ _ _ Ny (Rmin_r _ _)) as Ny'. cbn in Ny'. unfold R_dist in Ny'. apply Rabs_def2 in Ny'. rewrite !ldist_flat by (assumption || lra). exact Qa. }
    assert (E : (if Rle_dec z 0 then 0 else quad (ldist c) z) = integral (inv_E c) C z). { destruct (Rle_dec z 0) as [Z0|Z0]. - replace z with 0 by lra. symmetry. apply integral_0. - rewrite (X2 C' z Hz). apply integral_ext. intros x Hx. apply ldist_flat; assumption. }
    rewrite E. destruct F as (H & _). field. lra.
Qed.
Print Assumptions C85_luminosity_flat.
Example C85_luminosity_sat : exists quad, exact_on quad (inv_E const0) /\ exact_on quad (ldist const0) /\ Omega0 const0 + lam const0 = 1 /\ q0 const0 = Omega0 const0 / 2 - lam const0.
Proof.
  assert (F : flat_like const0) by (unfold flat_like; cbn; lra). assert (Q : q0 const0 = Omega0 const0 / 2 - lam const0) by (cbn; lra). assert (S : Omega0 const0 + lam const0 = 1) by (cbn; lra).
  exists (fun _ z => integral (inv_E const0) (inv_E_continuous const0 F) z). repeat split; try assumption; intros C z _; [apply integral_irrel|]. apply integral_ext. intros x Hx. symmetry. apply ldist_flat; assumption.
Qed.
(** When lambda is set to zero on its own, q0 keeps the value of a flat cosmology, 3/2 Omega - 1, and the closed formula is evaluated with
    it: right iff the matter density is one. *)
Theorem C85_zero_lambda : forall c quad k, lam c = 0 -> 0 < H0 c -> 0 < Omega0 c <= 4 / 3 -> q0 c = 3 / 2 * Omega0 c - 1 ->
  let right z := 3 * 10 ^ 5 * z / H0 c * (1 + z * (1 - Omega0 c / 2) / (sqrt (1 + Omega0 c * z) + 1 + Omega0 c / 2 * z)) in
  (forall z, 0 <= z -> luminosity_distance c quad z k = right z) <-> Omega0 c = 1.
Proof.
  intros c quad k L H O Q right. unfold luminosity_distance. destruct (Req_EM_T (lam c) 0) as [_|N]; [|contradiction]. split.
  - intro E. specialize (E (1 / 2) ltac:(lra)). unfold right in E. rewrite Q in E. set (o := Omega0 c) in *.
    apply (Rmult_eq_reg_l (3 * 10 ^ 5 * (1 / 2) / H0 c)) in E; [|apply Rgt_not_eq, Rdiv_lt_0_compat; lra].
    replace (1 + 2 * (3 / 2 * o - 1) * (1 / 2)) with (3 / 2 * o) in E by field. replace (1 + o * (1 / 2)) with (1 + o / 2) in E by field. set (s := sqrt (3 / 2 * o)) in *. set (t := sqrt (1 + o / 2)) in *.
    assert (Ps : 0 <= s) by apply sqrt_pos. assert (Pt : 0 <= t) by apply sqrt_pos. assert (Ss : s * s = 3 / 2 * o) by (apply sqrt_sqrt; lra). assert (St : t * t = 1 + o / 2) by (apply sqrt_sqrt; lra).
    set (d1 := s + 1 + (3 / 2 * o - 1) * (1 / 2)) in *. set (d2 := t + 1 + o / 2 * (1 / 2)) in *. assert (P1 : 0 < d1) by (unfold d1; nra). assert (P2 : 0 < d2) by (unfold d2; nra).
    assert (X : (2 - 3 / 2 * o) * d2 = (1 - o / 2) * d1). { apply (Rmult_eq_reg_r (/ (2 * d1 * d2))); [|apply Rgt_not_eq, Rinv_0_lt_compat; nra]. apply (Rplus_eq_reg_l 1). etransitivity; [|etransitivity; [exact E|]]; field; lra. }
    destruct (Rtotal_order o 1) as [Lo|[Eo|Go]]; [exfalso|exact Eo|exfalso].
    + assert (st : s < t) by nra. assert (DD : d1 < d2) by (unfold d1, d2; lra). pose proof (Rmult_lt_compat_r d2 (1 - o / 2) (2 - 3 / 2 * o) P2 ltac:(lra)). pose proof (Rmult_lt_compat_l (1 - o / 2) d1 d2 ltac:(lra) DD). lra.
    + assert (ts : t < s) by nra. assert (DD : d2 < d1) by (unfold d1, d2; lra). pose proof (Rmult_lt_compat_r d2 (2 - 3 / 2 * o) (1 - o / 2) P2 ltac:(lra)). pose proof (Rmult_lt_compat_l (1 - o / 2) d2 d1 ltac:(lra) DD). lra.
  - intros O1 z Hz. unfold right. rewrite Q, O1. replace (2 * (3 / 2 * 1 - 1) * z) with (1 * z) by field. replace (3 / 2 * 1 - 1) with (1 / 2) by field. reflexivity.
Qed.
Print Assumptions C85_zero_lambda.
Example C85_zero_lambda_sat : let c := set_const (SetOmegaLambda 0) (set_const (SetOmegaMatter (3 / 10)) const0) in lam c = 0 /\ 0 < H0 c /\ 0 < Omega0 c <= 4 / 3 /\ q0 c = 3 / 2 * Omega0 c - 1 /\ Omega0 c <> 1.
Proof. cbn. lra. Qed.
Lemma cosh_ge_1 : forall x, 1 <= cosh x.
Proof. intro x. unfold cosh. pose proof (exp_pos x) as P. rewrite exp_Ropp. set (u := exp x) in *. assert (Q : (u + / u) / 2 - 1 = (u - 1) ^ 2 / (2 * u)) by (field; lra). assert (0 <= (u - 1) ^ 2 / (2 * u)). { apply Rmult_le_pos; [apply pow2_ge_0|]. apply Rlt_le, Rinv_0_lt_compat. lra. } lra. Qed.
Lemma sinh_ge : forall x, 0 <= x -> x <= sinh x.
Proof.
  intros x Hx. destruct (Req_dec x 0) as [-> |N]; [unfold sinh; rewrite Ropp_0, exp_0; lra|]. destruct (MVT_cor2 sinh cosh 0 x ltac:(lra)) as (y & E & _); [intros; apply derivable_pt_lim_sinh|]. assert (S0 : sinh 0 = 0) by (unfold sinh; rewrite Ropp_0, exp_0; lra). rewrite S0 in E. pose proof (cosh_ge_1 y). nra.
Qed.
(** A positive k lengthens (the hyperbolic sine of an open universe), a negative k shortens; with lambda zero k is ignored; without a
    positive redshift the integrated distance is zero. *)
Theorem C85_curvature : forall c quad z, 0 < H0 c -> 0 <= z -> 0 <= quad (ldist c) z ->
  (lam c <> 0 -> (forall k, 0 < k -> luminosity_distance c quad z 0 <= luminosity_distance c quad z k) /\ (forall k, k < 0 -> luminosity_distance c quad z k <= luminosity_distance c quad z 0)) /\
  (lam c = 0 -> forall k, luminosity_distance c quad z k = luminosity_distance c quad z 0) /\
  (lam c <> 0 -> forall z' k, z' <= 0 -> luminosity_distance c quad z' k = 0).
Proof.
  intros c quad z H Hz P. assert (B : 0 <= 3 * 10 ^ 5 * (1 + z) / H0 c) by (apply Rmult_le_pos; [lra|apply Rlt_le, Rinv_0_lt_compat, H]). split; [intro LL; split|split]; unfold luminosity_distance.
  - intros k K. destruct (Req_EM_T (lam c) 0); [contradiction|]. destruct (Rlt_dec 0 0); [lra|]. destruct (Rlt_dec 0 k); [|lra]. set (d := if Rle_dec z 0 then 0 else quad (ldist c) z). assert (Pd : 0 <= d) by (unfold d; destruct (Rle_dec z 0); lra).
    assert (S0 : 0 < sqrt k) by (apply sqrt_lt_R0, K). assert (I : d <= sinh (sqrt k * d) / sqrt k). { apply (Rmult_le_reg_l (sqrt k)); [exact S0|]. replace (sqrt k * (sinh (sqrt k * d) / sqrt k)) with (sinh (sqrt k * d)) by (field; lra). apply sinh_ge. apply Rmult_le_pos; lra. }
    replace (3 * 10 ^ 5 * (1 + z) * d / H0 c) with (3 * 10 ^ 5 * (1 + z) / H0 c * d) by (field; lra). set (e := sinh (sqrt k * d) / sqrt k) in *. replace (3 * 10 ^ 5 * (1 + z) * e / H0 c) with (3 * 10 ^ 5 * (1 + z) / H0 c * e) by (field; lra). apply Rmult_le_compat_l; assumption.
  - intros k K. destruct (Req_EM_T (lam c) 0); [contradiction|]. destruct (Rlt_dec 0 0); [lra|]. destruct (Rlt_dec 0 k); [lra|]. destruct (Rlt_dec k 0); [|lra]. set (d := if Rle_dec z 0 then 0 else quad (ldist c) z). assert (Pd : 0 <= d) by (unfold d; destruct (Rle_dec z 0); lra).
    assert (S0 : 0 < sqrt (- k)) by (apply sqrt_lt_R0; lra). assert (I : sin (sqrt (- k) * d) / sqrt (- k) <= d). { apply (Rmult_le_reg_l (sqrt (- k))); [exact S0|]. replace (sqrt (- k) * (sin (sqrt (- k) * d) / sqrt (- k))) with (sin (sqrt (- k) * d)) by (field; lra). destruct (Req_dec d 0) as [-> |N]; [rewrite Rmult_0_r, sin_0; lra|]. apply Rlt_le, sin_lt_x. apply Rmult_lt_0_compat; lra. }
    replace (3 * 10 ^ 5 * (1 + z) * d / H0 c) with (3 * 10 ^ 5 * (1 + z) / H0 c * d) by (field; lra). set (e := sin (sqrt (- k) * d) / sqrt (- k)) in *. replace (3 * 10 ^ 5 * (1 + z) * e / H0 c) with (3 * 10 ^ 5 * (1 + z) / H0 c * e) by (field; lra). apply Rmult_le_compat_l; assumption.
  - intros L k. destruct (Req_EM_T (lam c) 0); [reflexivity|contradiction].
  - intros L z' k Z. destruct (Req_EM_T (lam c) 0); [contradiction|]. destruct (Rle_dec z' 0); [|contradiction]. rewrite !Rmult_0_r. assert (sinh 0 = 0) as -> by (unfold sinh; rewrite Ropp_0, exp_0; lra). rewrite sin_0. destruct (Rlt_dec 0 k); [|destruct (Rlt_dec k 0)]; unfold Rdiv; ring.
Qed.
Print Assumptions C85_curvature.
Example C85_curvature_sat : exists c quad z, 0 < H0 c /\ 0 <= z /\ 0 <= quad (ldist c) z.
Proof. exists const0, (fun _ z => z), 7. cbn. lra. Qed.

(** * From distance to redshift *)
(** At every redshift of the table within one of the first guess the inversion is exact, whatever other distances are converted in the
    same call, provided the distances increase and the interpolation goes through its points. A distance given as an integer gives an
    integer redshift. *)
Definition interpolates (interp : list (R * R) -> R -> R) : Prop := forall pts x y, NoDup (map fst pts) -> In (x, y) pts -> interp pts x = y.
Theorem C85_inverse_at_nodes : forall D guess interp table dmin dmax z, interpolates interp -> NoDup table -> (forall a b, In a table -> In b table -> D a = D b -> a = b) -> In z table -> guess dmin - 1 < z < guess dmax + 1 -> cdist_to_z D guess interp table dmin dmax (Flt (D z)) = Flt z.
Proof.
  intros D guess interp table dmin dmax z I N J Z [G1 G2]. unfold cdist_to_z. cbn [store_like val]. f_equal. set (K := kept guess dmin dmax table).
  assert (KT : forall a, In a K -> In a table) by (intros a Ha; unfold K, kept in Ha; apply filter_In in Ha; destruct Ha as [Ha _]; apply filter_In in Ha; apply Ha).
  apply I.
  - rewrite map_map. cbn [fst]. assert (NK : NoDup K) by (unfold K, kept; apply NoDup_filter, NoDup_filter, N). clearbody K. clear - NK KT J. induction K as [|a K IH]; [constructor|]. inversion NK as [|? ? NI NK2]; subst. cbn [map]. constructor; [|apply IH; [intros b Hb; apply KT; right; exact Hb|exact NK2]]. intro X. apply in_map_iff in X. destruct X as (b & Eb & Ib). apply J in Eb; [subst b; contradiction|apply KT; right; exact Ib|apply KT; left; reflexivity].
  - apply in_map_iff. exists z. split; [reflexivity|]. unfold K, kept. apply filter_In. split; [apply filter_In; split; [exact Z|]|]; [destruct (Rlt_dec (guess dmin - 1) z)|destruct (Rlt_dec z (guess dmax + 1))]; (reflexivity || lra).
Qed.
Print Assumptions C85_inverse_at_nodes.
Example C85_inverse_at_nodes_sat : exists (D guess : R -> R) interp table dmin dmax z, interpolates interp /\ NoDup table /\ (forall a b, In a table -> In b table -> D a = D b -> a = b) /\ In z table /\ guess dmin - 1 < z < guess dmax + 1.
Proof. exists (fun z => 3000 * z), (fun d => d / 3000), (fun pts x => match find (fun p => if Req_EM_T (fst p) x then true else false) pts with Some p => snd p | None => 0 end), [0; 7; 8; 9], 21000, 27000, 8. split.
  { intros pts x y N I. induction pts as [|p r IH]; [destruct I|]. inversion N as [|? ? N1 N2]; subst. cbn [find]. destruct (Req_EM_T (fst p) x) as [E|E].
  - destruct I as [-> |I]; [reflexivity|]. exfalso. apply N1. rewrite E. apply (in_map fst) in I. exact I.
  - destruct I as [-> |I]; [exfalso; apply E; reflexivity|]. apply IH; assumption. }
  split; [repeat constructor; cbn; intuition lra|]. split; [intros a b _ _ E; lra|]. split; [cbn; auto|lra]. Qed.
Theorem C85_integer_refuted : forall D guess interp table dmin dmax k, let right := val (cdist_to_z D guess interp table dmin dmax (Flt (IZR k))) in 0 <= right ->
  exists m, cdist_to_z D guess interp table dmin dmax (Int k) = Int m /\ IZR m <= right < IZR m + 1 /\ (IZR m = right <-> exists n, right = IZR n).
Proof.
  intros D guess interp table dmin dmax k right P. unfold cdist_to_z in *. cbn [store_like val] in *. fold right. exists (truncate right). split; [reflexivity|]. assert (T : IZR (truncate right) <= right < IZR (truncate right) + 1) by (unfold truncate; destruct (Rle_dec 0 right); [|contradiction]; pose proof (base_Int_part right); lra). split; [exact T|]. split.
  - intro E. exists (truncate right). symmetry. exact E.
  - intros [n E]. revert T. generalize (truncate right) as t. intros t [T1 T2]. rewrite E in *. f_equal. apply le_IZR in T1. rewrite <- plus_IZR in T2. apply lt_IZR in T2. lia.
Qed.
Print Assumptions C85_integer_refuted.
