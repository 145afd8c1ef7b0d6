(** C36, C63: unit conversions. *)
From Coq Require Import List ZArith Reals Bool Lia Lra.
From Verif Require Import ConstModel ConstSpec ConstProps UnitsModel.
Import ListNotations.
Local Open Scope R_scope.

(** ** C36 *)
(** Frequencies and redshifts, proper and comoving lengths, grid and solar masses, angles
    and lengths are converted back and forth without loss. *)
Theorem C36_inverse_pairs :
  (forall nu, nu <> 0 -> z_to_nu (nu_to_z nu) = nu) /\
  (forall z, z <> -1 -> nu_to_z (z_to_nu z) = z) /\
  (forall d z, z <> -1 -> p_to_c (c_to_p d z) z = d /\ c_to_p (p_to_c d z) z = d) /\
  (forall g M, g <> 0 -> Mgrid_2_Msolar g (Msolar_2_Mgrid g M) = M /\ Msolar_2_Mgrid g (Mgrid_2_Msolar g M) = M) /\
  (forall ld x z, ld <> 0 -> z <> -1 -> deg_to_cdist ld (angular_size_comoving ld x z) z = x /\ angular_size_comoving ld (deg_to_cdist ld x z) z = x).
Proof.
  split; [|split; [|split; [|split]]].
  - intros nu H. unfold z_to_nu, nu_to_z, nu0. field. split; lra.
  - intros z H. unfold z_to_nu, nu_to_z, nu0. field. lra.
  - intros d z H. unfold p_to_c, c_to_p. assert (1 + z <> 0) by lra. split; field; assumption.
  - intros g M H. unfold Mgrid_2_Msolar, Msolar_2_Mgrid.
    assert (S : 0 < solar_masses_per_gram).
    { unfold solar_masses_per_gram. apply Rdiv_lt_0_compat; [lra|apply pow_lt; lra]. }
    split; field; split; lra.
  - intros ld x z H1 H2. unfold deg_to_cdist, angular_size_comoving, angular_size, c_to_p. assert (1 + z <> 0) by lra.
    split; field; auto; repeat split; auto; lra.
Qed.
Print Assumptions C36_inverse_pairs.

(** The angle of a comoving length x (with the package's value 3.1415 of pi): x / D_C in degrees, D_C the
    luminosity distance over 1+z; and the proper length of that angle. *)
Theorem C36_angle_value : forall DC x z, DC <> 0 -> z <> -1 ->
  angular_size_comoving ((1 + z) * DC) x z = x / DC * (180 / (31415 / 10000)) /\
  angular_size ((1 + z) * DC) (c_to_p x z * 1000) z = x / DC * (180 / (31415 / 10000)) * 3600.
Proof. intros DC x z H1 H2. assert (1 + z <> 0) by lra. unfold angular_size_comoving, angular_size, c_to_p. split; field; auto. Qed.
Print Assumptions C36_angle_value.
Example C36_angle_value_sat : exists (DC : R) (z : R), DC <> 0 /\ z <> -1.
Proof. exists 9000, 8. repeat split; first [lra | lia | reflexivity | discriminate | congruence | auto]. Qed.
(** The frequency of the 21-cm line at redshift z. *)
Theorem C36_frequency_value : forall z, z <> -1 -> z_to_nu z * (1 + z) = z_to_nu 0 /\ 1420 <= z_to_nu 0 <= 1421 /\ c_to_p 1 z * (1 + z) = 1.
Proof. intros z H. assert (1 + z <> 0) by lra. unfold z_to_nu, c_to_p, nu0. repeat split; try (field; lra); lra. Qed.
Print Assumptions C36_frequency_value.
Example C36_frequency_value_sat : exists (z : R), z <> -1.
Proof. exists 8. repeat split; first [lra | lia | reflexivity | discriminate | congruence | auto]. Qed.

(** Frequency falls with redshift. *)
Theorem C36_frequency_decreasing : forall z z', -1 < z -> z < z' -> z_to_nu z' < z_to_nu z.
Proof. intros z z' H1 H2. unfold z_to_nu, nu0. apply Rmult_lt_compat_l; [lra|]. apply Rinv_lt_contravar; [apply Rmult_lt_0_compat; lra|lra]. Qed.
Print Assumptions C36_frequency_decreasing.
Example C36_frequency_decreasing_sat : exists (z : R) (z' : R), -1 < z /\ z < z'.
Proof. exists 8, 9. repeat split; first [lra | lia | reflexivity | discriminate | congruence | auto]. Qed.

Lemma Rpower_pos x y : 0 < Rpower x y.
Proof. apply exp_pos. Qed.
Lemma fpow_pos x y : 0 < x -> fpow x y = Some (Rpower x y).
Proof. intro H. unfold fpow. destruct (Rlt_dec x 0); [lra|]. destruct (Req_EM_T x 0); [lra|reflexivity]. Qed.
Lemma conv_fact_pos c z : -1 < z -> 0 < Omega0 c * Delc c z / Omz c z -> exists f, conv_fact c z = Some f /\ 0 < f.
Proof.
  intros H P. unfold conv_fact. pose proof PI_RGT_0. assert (0 < PI ^ 2) by (apply pow_lt; assumption).
  rewrite fpow_pos by (apply Rdiv_lt_0_compat; [apply Rdiv_lt_0_compat; lra|assumption]). cbn [bind].
  eexists. split; [reflexivity|]. apply Rmult_lt_0_compat; [apply Rmult_lt_0_compat; [lra|apply Rpower_pos]|lra].
Qed.

(** Mass and virial temperature are inverse and increasing for every cosmology with h > 0
    wherever the overdensity is positive; where it is negative the results are NaN ... *)
Theorem C36_virial : forall c z, -1 < z -> 0 < h c ->
  (0 < Omega0 c * Delc c z / Omz c z ->
   (forall T, 0 < T -> exists M, Tvir_to_M c T z = Some M /\ 0 < M /\ M_to_Tvir c M z = Some T) /\
   (forall M, 0 < M -> exists T, M_to_Tvir c M z = Some T /\ 0 < T /\ Tvir_to_M c T z = Some M) /\
   (forall M M' T T', 0 < M -> M < M' -> M_to_Tvir c M z = Some T -> M_to_Tvir c M' z = Some T' -> T < T')) /\
  (Omega0 c * Delc c z / Omz c z < 0 -> forall x, Tvir_to_M c x z = None /\ M_to_Tvir c x z = None).
Proof.
  intros c z Hz Hh. split.
  2:{ intros N x. assert (Q : Omega0 c * Delc c z / Omz c z / 18 / PI ^ 2 < 0).
      { pose proof PI_RGT_0. assert (0 < / PI ^ 2) by (apply Rinv_0_lt_compat, pow_lt; assumption). unfold Rdiv at 1 2. nra. }
      unfold Tvir_to_M, M_to_Tvir, conv_fact, fpow at 1 3. destruct (Rlt_dec _ 0); [split; reflexivity|contradiction]. }
  intro P. destruct (conv_fact_pos c z Hz P) as (f & E & F). split; [|split].
  - intros T HT. assert (TF : 0 < T / f) by (apply Rdiv_lt_0_compat; assumption).
    exists (10 ^ 8 / h c * Rpower (T / f) (3 / 2)). unfold Tvir_to_M, M_to_Tvir. rewrite E. cbn [bind]. rewrite (fpow_pos _ _ TF). cbn [bind].
    split; [reflexivity|]. split; [apply Rmult_lt_0_compat; [apply Rdiv_lt_0_compat; lra|apply Rpower_pos]|].
    replace (10 ^ 8 / h c * Rpower (T / f) (3 / 2) * h c / 10 ^ 8) with (Rpower (T / f) (3 / 2)) by (field; lra).
    rewrite fpow_pos by apply Rpower_pos. cbn [bind].
    rewrite Rpower_mult. replace (3 / 2 * (2 / 3)) with 1 by lra. rewrite Rpower_1 by exact TF. f_equal. field. lra.
  - intros M HM. assert (MF : 0 < M * h c / 10 ^ 8) by (apply Rdiv_lt_0_compat; [apply Rmult_lt_0_compat; assumption|lra]).
    exists (f * Rpower (M * h c / 10 ^ 8) (2 / 3)). unfold Tvir_to_M, M_to_Tvir. rewrite E. cbn [bind]. rewrite (fpow_pos _ _ MF). cbn [bind].
    split; [reflexivity|]. split; [apply Rmult_lt_0_compat; [assumption|apply Rpower_pos]|].
    replace (f * Rpower (M * h c / 10 ^ 8) (2 / 3) / f) with (Rpower (M * h c / 10 ^ 8) (2 / 3)) by (field; lra).
    rewrite fpow_pos by apply Rpower_pos. cbn [bind].
    rewrite Rpower_mult. replace (2 / 3 * (3 / 2)) with 1 by lra. rewrite Rpower_1 by exact MF. f_equal. field. lra.
  - intros M M' T T' HM HL ET ET'. assert (MF : 0 < M * h c / 10 ^ 8) by (apply Rdiv_lt_0_compat; [apply Rmult_lt_0_compat; assumption|lra]).
    assert (LT : M * h c / 10 ^ 8 < M' * h c / 10 ^ 8).
    { apply Rmult_lt_compat_r; [apply Rinv_0_lt_compat; lra|]. apply Rmult_lt_compat_r; assumption. }
    unfold M_to_Tvir in ET, ET'. rewrite E in ET, ET'. cbn [bind] in ET, ET'. rewrite fpow_pos in ET, ET' by lra. cbn [bind] in ET, ET'.
    injection ET as <-. injection ET' as <-. apply Rmult_lt_compat_l; [exact F|]. unfold Rpower. apply exp_increasing.
    apply Rmult_lt_compat_l; [lra|]. apply ln_increasing; assumption.
Qed.
Print Assumptions C36_virial.
Example C36_virial_sat : exists (c : const) (z : R), -1 < z /\ 0 < h c.
Proof. exists (fst (run [])), 9. cbn. lra. Qed.

(** ... which holds at every redshift z >= 0 unless set_omega_matter raised the matter
    density above its import-time value (the lambda density used here never changes). *)
Theorem C36_virial_domain : forall os z, 0 <= z ->
  let c := fst (run os) in 0 < Omega0 c <= 27 / 100 -> 0 < Omega0 c * Delc c z / Omz c z.
Proof.
  intros os z Hz c [O1 O2].
  assert (OL : OmegaL c = 73 / 100) by (destruct (C35_setters os) as (_ & _ & _ & _ & _ & _ & _ & _ & _ & _ & A & _); exact A).
  set (D := Omega0 c * (1 + z) ^ 3 + OmegaL c + (1 - Omega0 c - OmegaL c) * (1 + z) ^ 2).
  assert (U3 : 0 < (1 + z) ^ 3) by (apply pow_lt; lra). assert (U2 : 0 < (1 + z) ^ 2) by (apply pow_lt; lra).
  assert (N : 0 < Omega0 c * (1 + z) ^ 3) by (apply Rmult_lt_0_compat; assumption).
  assert (R : 0 <= (1 - Omega0 c - OmegaL c) * (1 + z) ^ 2) by (apply Rmult_le_pos; lra).
  assert (DP : 0 < D) by (unfold D; lra).
  assert (Z1 : 0 < Omz c z) by (unfold Omz; fold D; apply Rdiv_lt_0_compat; assumption).
  assert (Z2 : Omz c z <= 1).
  { unfold Omz. fold D. apply Rmult_le_reg_r with D; [exact DP|]. unfold Rdiv. rewrite Rmult_assoc, Rinv_l by lra. unfold D. lra. }
  assert (PI3 : 3 < PI) by (pose proof PI2_3_2; lra).
  assert (PP : 9 < PI ^ 2) by (simpl; nra).
  assert (DL : 0 < Delc c z).
  { unfold Delc. set (d := Omz c z - 1). assert (-1 < d <= 0) by (unfold d; lra). nra. }
  apply Rdiv_lt_0_compat; [apply Rmult_lt_0_compat; assumption|exact Z1].
Qed.
Print Assumptions C36_virial_domain.

(** Kelvin and Jansky images: inverse for the same arguments whenever the box has a non-zero
    size and the image at least one cell. *)
Theorem C36_kelvin_jansky : forall v dist n0 img z boxsize ncells,
  dist <> 0 -> -1 < z -> (0 < n0)%Z -> default_box v boxsize <> 0 ->
  jansky_2_kelvin v dist n0 (kelvin_2_jansky v dist n0 img z boxsize ncells) z boxsize ncells = img /\
  kelvin_2_jansky v dist n0 (jansky_2_kelvin v dist n0 img z boxsize ncells) z boxsize ncells = img.
Proof.
  intros v dist n0 img z boxsize ncells Hd Hz Hn Hb.
  assert (C : default_cells n0 ncells <> 0).
  { unfold default_cells. destruct ncells as [n|]; [|apply not_0_IZR; lia]. destruct (Z.eqb_spec n 0); apply not_0_IZR; lia. }
  assert (F : kelvin_jansky_conversion v dist (default_cells n0 ncells) z boxsize <> 0).
  { unfold kelvin_jansky_conversion. set (b := default_box v boxsize) in *. set (n := default_cells n0 ncells) in *.
    assert (B : (b / dist) ^ 2 / n ^ 2 <> 0).
    { apply Rmult_integral_contrapositive_currified; [apply pow_nonzero; apply Rmult_integral_contrapositive_currified; [exact Hb|apply Rinv_neq_0_compat; exact Hd]|].
      apply Rinv_neq_0_compat, pow_nonzero, C. }
    assert (NU : 0 < z_to_nu z * 10 ^ 6).
    { unfold z_to_nu, nu0. apply Rmult_lt_0_compat; [apply Rdiv_lt_0_compat; lra|apply pow_lt; lra]. }
    apply Rmult_integral_contrapositive_currified; [|exact B].
    apply Rgt_not_eq. apply Rmult_lt_0_compat; [|apply pow_lt; lra]. apply Rmult_lt_0_compat; [|apply pow_lt; exact NU].
    assert (K : 0 < KB_SI) by (unfold KB_SI; apply Rdiv_lt_0_compat; [lra|apply pow_lt; lra]).
    assert (L : 0 < c_light_SI) by (unfold c_light_SI; lra).
    assert (J : 0 < janskytowatt) by (unfold janskytowatt; apply Rinv_0_lt_compat, pow_lt; lra).
    repeat (apply Rdiv_lt_0_compat); auto; lra. }
  unfold jansky_2_kelvin, kelvin_2_jansky. rewrite !map_map. split; rewrite <- (map_id img) at 2; apply map_ext; intro x; field; exact F.
Qed.
Print Assumptions C36_kelvin_jansky.
(** The factor is twice Boltzmann's constant times the squared frequency over the squared speed of light times the
    solid angle of a cell, in janskys (10^-26 W/m^2/Hz), times 1000: from millikelvin to microjansky. *)
Theorem C36_factor : forall v dist n z boxsize, dist <> 0 -> n <> 0 ->
  kelvin_jansky_conversion v dist n z boxsize = 1000 * (2 * (1380649 / 10 ^ 29) * (z_to_nu z * 10 ^ 6) ^ 2 / 299792458 ^ 2 * (match boxsize with Some b => if Req_EM_T b 0 then LB v else b | None => LB v end / dist / n) ^ 2 * 10 ^ 26).
Proof. intros v dist n z boxsize Hd Hn. unfold kelvin_jansky_conversion, KB_SI, c_light_SI, janskytowatt. cbv zeta. change (match boxsize with Some b => if Req_EM_T b 0 then LB v else b | None => LB v end) with (default_box v boxsize). field. split; assumption. Qed.
Print Assumptions C36_factor.
Example C36_factor_sat : exists (dist : R) (n : R), dist <> 0 /\ n <> 0.
Proof. exists 9000, 256. repeat split; first [lra | lia | reflexivity | discriminate | congruence | auto]. Qed.

(** The overdensity of a collapsed halo: 18 pi^2 when matter is critical, less below, by at most 121. *)
Theorem C36_overdensity : forall c z, 0 < Omz c z <= 1 -> 18 * PI ^ 2 - 121 < Delc c z <= 18 * PI ^ 2 /\ (Delc c z = 18 * PI ^ 2 <-> Omz c z = 1).
Proof. intros c z H. unfold Delc. set (d := Omz c z - 1). assert (D : -1 < d <= 0) by (unfold d; lra). split; [split; nra|]. split; intro E; [assert (d = 0) by nra; unfold d in *; lra|replace d with 0 by (unfold d; lra); ring]. Qed.
Print Assumptions C36_overdensity.
Example C36_overdensity_sat : exists (c : const) (z : R), 0 < Omz c z <= 1.
Proof. exists (fst (run [])), 0. unfold Omz. cbn. replace ((1 + 0) * ((1 + 0) * ((1 + 0) * 1))) with 1 by ring. replace ((1 + 0) * ((1 + 0) * 1)) with 1 by ring. split; [apply Rdiv_lt_0_compat; lra|]. apply Rmult_le_reg_r with 1; lra. Qed.
(** With critical matter alone the temperature is 19800 K for 10^8 solar masses per h at 1+z = 10, growing as M^(2/3) (1+z). *)
Theorem C36_einstein_de_sitter : forall c M z, Omega0 c = 1 -> OmegaL c = 0 -> -1 < z -> 0 < M * h c ->
  M_to_Tvir c M z = Some (19800 * Rpower (M * h c / 10 ^ 8) (2 / 3) * ((1 + z) / 10)).
Proof.
  intros c M z O L Z P. assert (Q : Omz c z = 1). { unfold Omz. rewrite O, L. field. apply Rgt_not_eq. assert (0 < (1 + z) ^ 3) by (apply pow_lt; lra). lra. }
  pose proof PI_RGT_0. assert (P2 : 0 < PI ^ 2) by (apply pow_lt; assumption).
  unfold M_to_Tvir, conv_fact, Delc. rewrite Q, O. cbv zeta. replace (1 * (18 * PI ^ 2 + 82 * (1 - 1) - 39 * (1 - 1) ^ 2) / 1 / 18 / PI ^ 2) with 1 by (field; lra).
  unfold fpow at 1. destruct (Rlt_dec 1 0); [lra|]. destruct (Req_EM_T 1 0); [lra|]. cbn [bind]. assert (R1 : Rpower 1 (1 / 3) = 1) by (unfold Rpower; rewrite ln_1, Rmult_0_r; apply exp_0). rewrite R1.
  assert (X : 0 < M * h c / 10 ^ 8) by (apply Rdiv_lt_0_compat; [exact P|apply pow_lt; lra]). unfold fpow. destruct (Rlt_dec (M * h c / 10 ^ 8) 0); [lra|]. destruct (Req_EM_T (M * h c / 10 ^ 8) 0); [lra|]. cbn [bind]. f_equal. field.
Qed.
Print Assumptions C36_einstein_de_sitter.

Example C36_sat : 0 <= 9 /\ 0 < Omega0 (fst (run [])) <= 27 / 100 /\ default_box (snd (run [])) None <> 0 /\
  ~ (0 < Omega0 (fst (run [SetOmegaMatter (3 / 10)])) <= 27 / 100).
Proof. cbn. repeat split; try lra. Qed.

(** ** C63 *)
Lemma truncate_int x k : IZR k <= x < IZR k + 1 -> (0 <= k)%Z -> truncate x = k.
Proof.
  intros H Hk. unfold truncate. apply IZR_le in Hk. destruct (Rle_dec 0 x); [|exfalso; lra].
  symmetry. unfold Int_part. assert (up x = (k + 1)%Z); [|lia]. symmetry. apply tech_up; rewrite plus_IZR; simpl; lra.
Qed.

(** A redshift given as a Python integer gets a distance cut to whole Mpc, never more than
    the true one; only float redshifts get the distance itself. *)
Theorem C63_integer_distance : forall c quad (k : Z) x, 0 <= 3 * 10 ^ 5 / H0 c * quad (IZR k) ->
  z_to_cdist c quad (Flt x) = Flt (3 * 10 ^ 5 / H0 c * quad x) /\
  exists d, z_to_cdist c quad (Int k) = Int d /\
    IZR d <= 3 * 10 ^ 5 / H0 c * quad (IZR k) < IZR d + 1 /\
    (val (z_to_cdist c quad (Int k)) = val (z_to_cdist c quad (Flt (IZR k))) <-> exists n, 3 * 10 ^ 5 / H0 c * quad (IZR k) = IZR n).
Proof.
  intros c quad k x H. split; [reflexivity|]. unfold z_to_cdist. cbn [store_like val]. set (y := 3 * 10 ^ 5 / H0 c * quad (IZR k)) in *.
  assert (T : IZR (truncate y) <= y < IZR (truncate y) + 1).
  { unfold truncate. destruct (Rle_dec 0 y); [|contradiction]. pose proof (base_Int_part y). lra. }
  exists (truncate y). split; [reflexivity|]. split; [exact T|]. split.
  - intro E. exists (truncate y). symmetry. exact E.
  - intros [n E]. revert T. generalize (truncate y) as t. intros t [T1 T2]. rewrite E in *. f_equal.
    apply le_IZR in T1. rewrite <- plus_IZR in T2. apply lt_IZR in T2. lia.
Qed.
Print Assumptions C63_integer_distance.

(** The age of the universe at an integer redshift is 0, whenever the true age is below one
    Hubble unit 1/H0 = 1 (i.e. always, for any realistic H0). *)
Theorem C63_integer_age_zero_refuted : forall c quad (k : Z),
  0 <= quad (1 / (1 + IZR k)) < H0 c ->
  z_to_age c quad (Int k) = 0 /\
  (0 < quad (1 / (1 + IZR k)) -> 0 < z_to_age c quad (Flt (IZR k))).
Proof.
  intros c quad k [H1 H2]. unfold z_to_age. cbn [store_like val]. set (q := quad _) in *.
  assert (HP : 0 < H0 c) by lra. pose proof Mpc_pos as MP. split.
  - rewrite (truncate_int _ 0).
    + unfold Rdiv. ring.
    + split.
      * apply Rmult_le_pos; [left; apply Rdiv_lt_0_compat; lra|exact H1].
      * replace (0 + 1) with (1 / H0 c * H0 c) by (field; lra). apply Rmult_lt_compat_l; [apply Rdiv_lt_0_compat; lra|exact H2].
    + lia.
  - intro HQ. assert (0 < 1 / H0 c * q) by (apply Rmult_lt_0_compat; [apply Rdiv_lt_0_compat; lra|exact HQ]).
    assert (0 < / (10 ^ 5 / Mpc)) by (apply Rinv_0_lt_compat, Rdiv_lt_0_compat; lra).
    apply Rdiv_lt_0_compat; [|lra]. apply Rdiv_lt_0_compat; [|lra]. apply Rmult_lt_0_compat; assumption.
Qed.
Print Assumptions C63_integer_age_zero_refuted.

Example C63_sat : 0 <= 3 * 10 ^ 5 / H0 (fst (run [])) * (fun z => z / 2) (IZR 7) /\
  0 <= (fun a => a) (1 / (1 + IZR 7)) < H0 (fst (run [])).
Proof. cbn. split; lra. Qed.
Example C36_kelvin_jansky_sat : exists (v : conv) (dist : R) (n0 : Z) (z : R) (boxsize : option R), dist <> 0 /\ -1 < z /\ (0 < n0)%Z /\ default_box v boxsize <> 0.
Proof. exists (snd (run [])), 9000, 100%Z, 8, None. repeat split; try lra; try lia. exact (proj1 (proj2 (proj2 C36_sat))). Qed.
