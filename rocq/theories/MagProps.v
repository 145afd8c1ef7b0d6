(** C86: magnitudes and particle masses; C87: the analytic noise. *)
From Coq Require Import List Reals Lra Lia Bool.
From Verif Require Import MagModel.
Import ListNotations.
Local Open Scope R_scope.

Lemma Rpower_mono : forall a b c, 1 < a -> b < c -> Rpower a b < Rpower a c.
Proof. intros. apply Rpower_lt; assumption. Qed.
(** Five magnitudes are a factor of one hundred in flux; brighter is larger; numbers and quantities agree; plain arrays are refused. *)
Theorem C86_flux : forall m, exists f, mag_to_flux (Number m) = Value f /\ mag_to_flux (Quantity m mag) = Value f /\ 0 < f /\ mag_to_flux (Number (m + 5)) = Value (f / 100) /\
  (forall m', m < m' -> exists f', mag_to_flux (Number m') = Value f' /\ f' < f) /\ mag_to_flux (Array m) = Raised /\
  m = - (5 / 2) * (ln f / ln 10) - 486 / 10.
Proof.
  intro m. eexists. repeat split.
  - apply exp_pos.
  - unfold mag_to_flux. cbn [attach]. f_equal. replace (- (m + 5 + 486 / 10) / (5 / 2)) with (- (m + 486 / 10) / (5 / 2) + - (2)) by field. rewrite Rpower_plus, Rpower_Ropp. replace (Rpower 10 2) with 100; [field|]. replace 2 with (INR 2) by (cbn; ring). rewrite Rpower_pow by lra. ring.
  - intros m' H. eexists. split; [reflexivity|]. apply Rpower_mono; lra.
  - unfold Rpower. rewrite ln_exp. field. pose proof (ln_increasing 1 10 ltac:(lra) ltac:(lra)) as Q. rewrite ln_1 in Q. lra.
Qed.
Print Assumptions C86_flux.
(** The apparent magnitude of a number or of a magnitude always fails; only plain arrays get through, and those are what the inverse
    refuses. The luminosity always fails. *)
Theorem C86_magnitudes : forall dm z m, Muv_to_muv dm z (Number m) = Raised /\ (forall u, Muv_to_muv dm z (Quantity m u) = Raised) /\ Muv_to_muv dm z (Array m) = Value (m + dm - 5 / 2 * (ln (1 + z) / ln 10)) /\
  muv_to_Muv dm z (Number m) = InUnit (m - dm + 5 / 2 * (ln (1 + z) / ln 10)) mag /\ muv_to_Muv dm z (Quantity m mag) = InUnit (m - dm + 5 / 2 * (ln (1 + z) / ln 10)) mag /\ muv_to_Muv dm z (Array m) = Raised /\ (forall a, Muv_to_L1500 a = Raised).
Proof. intros dm z m. repeat split; try reflexivity. intro u; destruct u; reflexivity. Qed.
Print Assumptions C86_magnitudes.
(** Were units ignored, the two would be inverse to each other. *)
Theorem C86_magnitudes_inverse : forall dm z m v, Muv_to_muv dm z (Array m) = Value v -> muv_to_Muv dm z (Number v) = InUnit m mag.
Proof. intros dm z m v E. cbn in *. injection E as <-. f_equal. ring. Qed.
Print Assumptions C86_magnitudes_inverse.
Example C86_magnitudes_inverse_sat : exists (dm : R) (z : R) (m : R) (v : R), Muv_to_muv dm z (Array m) = Value v.
Proof. eexists 48, 7, (-20), _. cbn. reflexivity. Qed.
(** A field of view in square degrees gives the area (pi/180)^2 D^2 per square degree, but a plain number is taken as steradians: right
    iff it is zero. *)
Theorem C86_field_of_view : forall D x, 0 < D -> FoV_cMpc2 D (Quantity x deg2) = Value (x * (PI / 180 * D) ^ 2) /\ FoV_cMpc2 D (Number x) = FoV_cMpc2 D (Quantity x rad2) /\ (FoV_cMpc2 D (Number x) = FoV_cMpc2 D (Quantity x deg2) <-> x = 0).
Proof.
  intros D x P. split; [|split; [reflexivity|]].
  - cbn [FoV_cMpc2 attach]. f_equal. ring.
  - cbn [FoV_cMpc2 attach]. split; [|intros ->; f_equal; ring]. intro E. injection E as E. destruct (Req_dec x 0) as [|N]; [assumption|exfalso]. assert (E' : x * D ^ 2 * 1 = x * D ^ 2 * (PI / 180) ^ 2) by lra. apply Rmult_eq_reg_l in E'; [|apply Rmult_integral_contrapositive_currified; [exact N|apply pow_nonzero; lra]]. pose proof PI_4 as P4. pose proof PI_RGT_0 as P0. set (u := PI / 180) in *. assert (0 < u < 1) by (unfold u; lra). nra.
Qed.
Print Assumptions C86_field_of_view.
Example C86_field_of_view_sat : exists (D : R), 0 < D.
Proof. exists 9000. repeat split; first [lra | lia | reflexivity | discriminate | congruence | auto]. Qed.

Lemma cbrt_pos : forall x, 0 < cbrt x.
Proof. intro x. apply exp_pos. Qed.
Lemma cbrt_cube : forall x, 0 < x -> cbrt x ^ 3 = x.
Proof. intros x H. unfold cbrt. rewrite <- Rpower_pow by apply exp_pos. rewrite Rpower_mult. replace (/ 3 * INR 3) with 1 by (cbn; field). apply Rpower_1, H. Qed.
Lemma cube_inj : forall x y, 0 < x -> 0 < y -> x ^ 3 = y ^ 3 -> x = y.
Proof. intros x y Hx Hy E. assert (Q : (x - y) * (x * x + x * y + y * y) = 0) by (ring_simplify; lra). apply Rmult_integral in Q. destruct Q; [lra|nra]. Qed.
Lemma cbrt_of_cube : forall x, 0 < x -> cbrt (x ^ 3) = x.
Proof. intros x H. apply cube_inj; [apply cbrt_pos|exact H|]. apply cbrt_cube, pow_lt, H. Qed.
(** Particle number and mass are inverse to each other, n^3 particles of this mass make up the matter of the box, and giving the total
    number is the same as giving the number per direction. *)
Theorem C86_particles : forall rho L m n, 0 < rho -> 0 < L -> 0 < m -> 0 < n ->
  ParticleMass_to_ParticleNumber rho L m ^ 3 * m = rho * L ^ 3 /\
  particle_number_to_particle_mass rho L (Some (ParticleMass_to_ParticleNumber rho L m)) None = Some m /\
  (forall m', particle_number_to_particle_mass rho L (Some n) None = Some m' -> ParticleMass_to_ParticleNumber rho L m' = n /\ n ^ 3 * m' = rho * L ^ 3) /\
  particle_number_to_particle_mass rho L None (Some (n ^ 3)) = particle_number_to_particle_mass rho L (Some n) None /\
  (forall t, particle_number_to_particle_mass rho L (Some n) t = particle_number_to_particle_mass rho L (Some n) None) /\ particle_number_to_particle_mass rho L None None = None.
Proof.
  intros rho L m n Hr HL Hm Hn. assert (C : cbrt (rho / m) ^ 3 = rho / m) by (apply cbrt_cube, Rdiv_lt_0_compat; assumption). pose proof (cbrt_pos (rho / m)) as P. repeat split.
  - unfold ParticleMass_to_ParticleNumber. rewrite Rpow_mult_distr, C. field. lra.
  - unfold ParticleMass_to_ParticleNumber, particle_number_to_particle_mass. f_equal. set (c := cbrt (rho / m)) in *. replace (L / (c * L)) with (/ c) by (field; lra). rewrite pow_inv, C. field. lra.
  - injection H as <-. unfold ParticleMass_to_ParticleNumber. apply cube_inj; [apply Rmult_lt_0_compat; [apply cbrt_pos|exact HL]|exact Hn|]. rewrite Rpow_mult_distr, cbrt_cube; [field; lra|]. apply Rdiv_lt_0_compat; [exact Hr|]. apply Rmult_lt_0_compat; [exact Hr|]. exact (pow_lt (L / n) 3 (Rdiv_lt_0_compat _ _ HL Hn)).
  - injection H as <-. field. lra.
  - cbn [particle_number_to_particle_mass]. rewrite cbrt_of_cube by exact Hn. reflexivity.
Qed.
Print Assumptions C86_particles.
Example C86_particles_sat : exists (rho : R) (L : R) (m : R) (n : R), 0 < rho /\ 0 < L /\ 0 < m /\ 0 < n.
Proof. exists 2, 100, 3, 64. repeat split; first [lra | lia | reflexivity | discriminate | congruence | auto]. Qed.
(** The number of particles needed to resolve a halo is not what [halo_mass_to_particle_number] returns: it takes the particle mass for
    a number per direction; the two agree iff (n_h/M)^8 times the matter in the box to the power two is one. *)
Theorem C86_halo_refuted : forall rho L M nh, 0 < rho -> 0 < L -> 0 < M -> 0 < nh ->
  exists v, halo_mass_to_particle_number rho L M nh = Some v /\ v = rho * L ^ 3 * (nh / M) ^ 3 /\ (v = ParticleMass_to_ParticleNumber rho L (M / nh) <-> (rho * L ^ 3) ^ 2 * (nh / M) ^ 8 = 1).
Proof.
  intros rho L M nh Hr HL HM Hn. eexists. split; [reflexivity|]. split; [field; lra|]. unfold ParticleMass_to_ParticleNumber. set (x := nh / M). assert (Px : 0 < x) by (apply Rdiv_lt_0_compat; assumption). set (c := cbrt (rho / (M / nh))).
  assert (C3 : c ^ 3 = rho * x). { unfold c. rewrite cbrt_cube; [unfold x; field; lra|]. apply Rdiv_lt_0_compat; [exact Hr|apply Rdiv_lt_0_compat; assumption]. }
  replace (rho * (L / (M / nh)) ^ 3) with (rho * L ^ 3 * x ^ 3) by (unfold x; field; lra). assert (PW : 0 < rho * L ^ 3) by (apply Rmult_lt_0_compat; [exact Hr|apply pow_lt, HL]). assert (Pc : 0 < c) by apply cbrt_pos.
  assert (EQ : (rho * L ^ 3 * x ^ 3) ^ 3 = (c * L) ^ 3 * ((rho * L ^ 3) ^ 2 * x ^ 8)). { rewrite (Rpow_mult_distr c), C3. ring. }
  assert (PL : 0 < c * L) by (apply Rmult_lt_0_compat; assumption). split; intro E.
  - rewrite E in EQ. apply (Rmult_eq_reg_l ((c * L) ^ 3)); [rewrite <- EQ; ring|]. apply Rgt_not_eq, pow_lt, PL.
  - apply cube_inj; [apply Rmult_lt_0_compat; [exact PW|apply pow_lt, Px]|exact PL|]. rewrite EQ, E. ring.
Qed.
Print Assumptions C86_halo_refuted.
Example C86_halo_refuted_sat : exists (rho : R) (L : R) (M : R) (nh : R), 0 < rho /\ 0 < L /\ 0 < M /\ 0 < nh.
Proof. exists 2, 100, 3, 64. repeat split; first [lra | lia | reflexivity | discriminate | congruence | auto]. Qed.
Example C86_sat : ParticleMass_to_ParticleNumber 8 3 1 = 6 /\ particle_number_to_particle_mass 8 3 (Some 6) None = Some 1.
Proof. split; [unfold ParticleMass_to_ParticleNumber; replace (8 / 1) with (2 ^ 3) by field; rewrite cbrt_of_cube by lra; ring|cbn; f_equal; field]. Qed.

(** * C87 *)
Definition physical (s : setup) (nu k t : R) : Prop := 0 < nu /\ 0 < k /\ 0 < t /\ 0 < at_nu (Aeff s) nu /\ 0 < Nstat s /\ 0 < B s /\ 0 < epsilon s.
Definition closed_form (dist : R -> R) (s : setup) (nu k t : R) : R :=
  2 * 3 * 10 ^ 2 * Rpower k (3 / 2) * Rabs (dist nu) * sqrt (Rabs (dist nu - dist (nu + B s))) * at_nu (Tsys s) nu ^ 2 * Rmax s ^ 2 * sqrt (2 * INR (multipole s) + 1) /
  (nu * (B s * 10 ^ 6) * (t * 3600) * Nstat s ^ 2 * at_nu (Aeff s) nu * sqrt (at_nu (Aeff s) nu) * sqrt (epsilon s)).
(** The formula: proportional to k^(3/2), the distance, the root of the depth, the temperature squared and the radius squared; inverse to the frequency, the
    time, the bandwidth, the number of stations squared and the collecting area to the power 3/2. *)
Theorem C87_formula : forall dist s nu k t, physical s nu k t -> noise_error_ps dist s nu k t = closed_form dist s nu k t.
Proof.
  intros dist s nu k t (Hnu & Hk & Ht & HA & HN & HB & He). unfold noise_error_ps, closed_form. cbv zeta. set (A := at_nu (Aeff s) nu) in *. set (d := Rabs (dist nu - dist (nu + B s))). set (T := at_nu (Tsys s) nu).
  assert (SA : 0 < sqrt A) by (apply sqrt_lt_R0, HA). assert (SE : 0 < sqrt (epsilon s)) by (apply sqrt_lt_R0, He).
  assert (S1 : sqrt (dist nu ^ 2 * d * ((3 * 10 ^ 5 / nu / 10 ^ 3) ^ 2 / A)) = Rabs (dist nu) * sqrt d * (3 * 10 ^ 2 / nu) / sqrt A).
  { replace (dist nu ^ 2 * d * ((3 * 10 ^ 5 / nu / 10 ^ 3) ^ 2 / A)) with ((dist nu * (3 * 10 ^ 2 / nu)) ^ 2 * d / A) by (field; lra). rewrite sqrt_div_alt by exact HA. rewrite sqrt_mult_alt by apply pow2_ge_0. rewrite <- (Rsqr_pow2 (dist nu * (3 * 10 ^ 2 / nu))), sqrt_Rsqr_abs, Rabs_mult. rewrite (Rabs_right (3 * 10 ^ 2 / nu)) by (apply Rle_ge, Rlt_le, Rdiv_lt_0_compat; lra). field. lra. }
  rewrite S1. assert (BT : 0 < B s * 10 ^ 6 * (t * 60 * 60)) by (repeat apply Rmult_lt_0_compat; lra).
  assert (S2 : (T / sqrt (B s * 10 ^ 6 * (t * 60 * 60))) ^ 2 = T ^ 2 / (B s * 10 ^ 6 * (t * 3600))). { unfold Rdiv at 1. rewrite Rpow_mult_distr, pow_inv, pow2_sqrt by lra. field. repeat split; lra. }
  rewrite S2. pose proof PI_RGT_0. replace (Nstat s * A) with (Nstat s * (sqrt A * sqrt A)) by (rewrite sqrt_sqrt by lra; reflexivity). replace (Rmax s ^ 2 * PI * A) with (Rmax s ^ 2 * PI * (sqrt A * sqrt A)) by (rewrite sqrt_sqrt by lra; reflexivity). replace (Nstat s ^ 2 * A * sqrt A) with (Nstat s ^ 2 * (sqrt A * sqrt A) * sqrt A) by (rewrite sqrt_sqrt by lra; reflexivity).
  replace (nu * (B s * 10 ^ 6) * (t * 3600) * Nstat s ^ 2 * A) with (nu * (B s * 10 ^ 6) * (t * 3600) * Nstat s ^ 2 * (sqrt A * sqrt A)) by (rewrite sqrt_sqrt by lra; reflexivity). field. repeat split; lra.
Qed.
Print Assumptions C87_formula.
(** Scaling: longer observation, more stations, hotter system, larger array, wider bins. *)
Theorem C87_scaling : forall dist s nu k t a, physical s nu k t -> 0 < a ->
  noise_error_ps dist s nu k (a * t) = noise_error_ps dist s nu k t / a /\
  noise_error_ps dist (Setup (Rmax s) (Aeff s) (a * Nstat s) (Tsys s) (B s) (epsilon s) (multipole s)) nu k t = noise_error_ps dist s nu k t / a ^ 2 /\
  noise_error_ps dist (Setup (a * Rmax s) (Aeff s) (Nstat s) (Tsys s) (B s) (epsilon s) (multipole s)) nu k t = noise_error_ps dist s nu k t * a ^ 2 /\
  noise_error_ps dist (Setup (Rmax s) (Aeff s) (Nstat s) (Fun_ (fun n => a * at_nu (Tsys s) n)) (B s) (epsilon s) (multipole s)) nu k t = noise_error_ps dist s nu k t * a ^ 2 /\
  noise_error_ps dist (Setup (Rmax s) (Aeff s) (Nstat s) (Tsys s) (B s) (a * epsilon s) (multipole s)) nu k t = noise_error_ps dist s nu k t / sqrt a /\
  noise_error_ps dist s nu (a * k) t = noise_error_ps dist s nu k t * Rpower a (3 / 2) /\
  (forall l, noise_error_ps dist (Setup (Rmax s) (Aeff s) (Nstat s) (Tsys s) (B s) (epsilon s) l) nu k t * sqrt (2 * INR (multipole s) + 1) = noise_error_ps dist s nu k t * sqrt (2 * INR l + 1)).
Proof.
  intros dist s nu k t a P Ha. pose proof P as (Hnu & Hk & Ht & HA & HN & HB & He).
  assert (SA : 0 < sqrt (at_nu (Aeff s) nu)) by (apply sqrt_lt_R0, HA). assert (SE : 0 < sqrt (epsilon s)) by (apply sqrt_lt_R0, He). assert (Sa : 0 < sqrt a) by (apply sqrt_lt_R0, Ha).
  assert (PA : forall x, 0 < x -> 0 < a * x) by (intros; apply Rmult_lt_0_compat; assumption).
  repeat split; [| | | | | |intro l]; rewrite !C87_formula by (first [exact P|unfold physical; cbn [Rmax Aeff Nstat Tsys B epsilon multipole]; repeat split; try assumption; apply PA; assumption]); unfold closed_form; cbn [Rmax Aeff Nstat Tsys B epsilon multipole at_nu]; try (field; repeat split; lra).
  - rewrite sqrt_mult_alt by lra. field. repeat split; lra.
  - rewrite <- (Rpower_mult_distr a k) by assumption. field. repeat split; lra.
Qed.
Print Assumptions C87_scaling.
(** Positive whenever distances change across the band; a number and a constant function are the same. *)
Theorem C87_positive : forall dist s nu k t, physical s nu k t -> Rmax s <> 0 -> at_nu (Tsys s) nu <> 0 -> dist nu <> 0 -> dist nu <> dist (nu + B s) -> 0 < noise_error_ps dist s nu k t.
Proof.
  intros dist s nu k t P HR HT HD HDD. rewrite C87_formula by exact P. destruct P as (Hnu & Hk & Ht & HA & HN & HB & He). unfold closed_form. assert (SQ : forall x, x <> 0 -> 0 < x ^ 2) by (intros x Hx; rewrite <- Rsqr_pow2; apply Rlt_0_sqr, Hx). pose proof (SQ _ HR) as Q1. pose proof (SQ _ HT) as Q2. assert (Q3 : 0 < Nstat s ^ 2) by (apply SQ; lra). set (r2 := Rmax s ^ 2) in *. set (t2 := at_nu (Tsys s) nu ^ 2) in *. set (n2 := Nstat s ^ 2) in *. clearbody r2 t2 n2. assert (T2 : 0 < 10 ^ 2) by lra. assert (T6 : 0 < 10 ^ 6) by lra. set (c2 := 10 ^ 2) in *. set (c6 := 10 ^ 6) in *. clearbody c2 c6. apply Rdiv_lt_0_compat; repeat apply Rmult_lt_0_compat; try lra; try (apply sqrt_lt_R0; assumption).
  - apply exp_pos.
  - apply Rabs_pos_lt, HD.
  - apply sqrt_lt_R0, Rabs_pos_lt. lra.
  - apply sqrt_lt_R0. pose proof (pos_INR (multipole s)). lra.
Qed.
Print Assumptions C87_positive.
Example C87_sat : physical lofar 150 (1 / 10) 1000 /\ at_nu (Aeff lofar) 150 = 526 /\ Rmax lofar <> 0.
Proof. unfold physical, lofar. cbn [Rmax Aeff Nstat Tsys B epsilon multipole at_nu]. replace (150 / 150) with 1 by field. rewrite Rinv_1. lra. Qed.
