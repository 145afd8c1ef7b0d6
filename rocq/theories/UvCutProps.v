(** C66: the cut at the longest baseline. C67: bandwidth of the slices of a noise light cone.
    C68: the taper of the noise maps. *)
From Coq Require Import String List Arith ZArith Reals Lra Lia Bool.
From Verif Require Import RLib KGridModel FourierModel FourierSpec FourierProofs DftLib NoiseModel.
Import ListNotations.
Local Open Scope R_scope.

(** * Specification *)
(** The signed frequency of FFT cell i on an axis of n cells. *)
Definition freq (n i : nat) : R := if Nat.ltb (2 * i) n then INR i else INR i - INR n.
Definition symmetric_map (n : nat) (m : array) : Prop := forall j, valid [n; n] j -> m (wrap_opp [n; n] j) = m j.

(** * Helpers *)
Lemma shift_shift : forall n i, (i < n)%nat -> shift_source n (shift_source n i) = if Nat.even n then i else ((i + 1) mod n)%nat.
Proof.
  intros n i H. unfold shift_source. rewrite Nat.add_mod_idemp_l by lia. destruct (Nat.even n) eqn:E.
  - apply Nat.even_spec in E. destruct E as [m ->]. rewrite (Nat.mul_comm 2 m), Nat.div_mul by lia.
    replace (i + (m * 2 - m) + (m * 2 - m))%nat with (i + 1 * (m * 2))%nat by lia. rewrite Nat.mod_add by lia. apply Nat.mod_small. lia.
  - assert (O : Nat.odd n = true) by (unfold Nat.odd; rewrite E; reflexivity). apply Nat.odd_spec in O. destruct O as [m ->].
    assert (D : ((2 * m + 1) / 2 = m)%nat) by (symmetry; apply (Nat.div_unique _ 2 m 1); lia). rewrite D.
    replace (i + (2 * m + 1 - m) + (2 * m + 1 - m))%nat with (i + 1 + 1 * (2 * m + 1))%nat by lia. apply Nat.mod_add. lia.
Qed.
(** Position of a frequency in the shifted array. *)
Lemma shift_even : forall m i, (i < 2 * m)%nat -> INR (shift_source (2 * m) i) = freq (2 * m) i + INR m.
Proof.
  intros m i H. unfold shift_source, freq. rewrite (Nat.mul_comm 2 m) at 2. rewrite Nat.div_mul by lia. replace (i + (2 * m - m))%nat with (i + m)%nat by lia.
  destruct (Nat.ltb_spec (2 * i) (2 * m)).
  - rewrite Nat.mod_small by lia. rewrite plus_INR. reflexivity.
  - replace (i + m)%nat with ((i - m) + 1 * (2 * m))%nat by lia. rewrite Nat.mod_add, Nat.mod_small by lia. rewrite minus_INR by lia. rewrite mult_INR. cbn [INR]. ring.
Qed.
Lemma shift_odd : forall m i, (i < 2 * m + 1)%nat -> INR (shift_source (2 * m + 1) i) = freq (2 * m + 1) ((i + 1) mod (2 * m + 1)) + INR m.
Proof.
  intros m i H. unfold shift_source, freq. assert (D : ((2 * m + 1) / 2 = m)%nat) by (symmetry; apply (Nat.div_unique _ 2 m 1); lia). rewrite D.
  replace (i + (2 * m + 1 - m))%nat with (i + 1 + m)%nat by lia.
  destruct (Nat.eq_dec i (2 * m)) as [->|Ni].
  - rewrite Nat.mod_same by lia. replace (2 * m + 1 + m)%nat with (m + 1 * (2 * m + 1))%nat by lia. rewrite Nat.mod_add, Nat.mod_small by lia.
    destruct (Nat.ltb_spec (2 * 0) (2 * m + 1)); [cbn [INR]; ring|lia].
  - rewrite (Nat.mod_small (i + 1)) by lia. destruct (Nat.ltb_spec (2 * (i + 1)) (2 * m + 1)).
    + rewrite Nat.mod_small by lia. rewrite plus_INR. reflexivity.
    + replace (i + 1 + m)%nat with ((i - m) + 1 * (2 * m + 1))%nat by lia. rewrite Nat.mod_add, Nat.mod_small by lia. rewrite minus_INR by lia. rewrite !plus_INR, mult_INR. cbn [INR]. ring.
Qed.
Lemma shift_source_lt : forall n i, (0 < n)%nat -> (shift_source n i < n)%nat.
Proof. intros. unfold shift_source. apply Nat.mod_upper_bound. lia. Qed.
Lemma cut_cond : forall (c B p q : R), 0 < B -> (c ^ 2 < (p * PI / B) ^ 2 + (q * PI / B) ^ 2 <-> (c * B / PI) ^ 2 < p ^ 2 + q ^ 2).
Proof.
  intros c B p q HB. pose proof PI_RGT_0 as HP.
  assert (E1 : (p * PI / B) ^ 2 + (q * PI / B) ^ 2 = (p ^ 2 + q ^ 2) * (PI / B) ^ 2) by (field; lra).
  assert (E2 : c ^ 2 = (c * B / PI) ^ 2 * (PI / B) ^ 2) by (field; lra). assert (K : 0 < (PI / B) ^ 2) by (apply pow_lt; apply Rdiv_lt_0_compat; assumption).
  rewrite E1, E2. split; intro H; [apply (Rmult_lt_reg_r ((PI / B) ^ 2)); assumption|apply Rmult_lt_compat_r; assumption].
Qed.

(** * C66 *)
(** Even grids: a cell is kept, in place, iff its frequency pair, displaced by half a cell on each axis and
    stretched by n/(n-1), lies within the radius; otherwise it is zero. *)
Theorem C66_even : forall n B kcut uv i j, Nat.even n = true -> 0 < B -> (i < n)%nat -> (j < n)%nat ->
  let r2 := ((INR n / INR (n - 1)) ^ 2 * ((freq n i + / 2) ^ 2 + (freq n j + / 2) ^ 2))%R in
  (r2 <= (kcut * B / PI) ^ 2 -> cut_uv_map n B kcut uv [i; j] = uv [i; j]) /\
  ((kcut * B / PI) ^ 2 < r2 -> cut_uv_map n B kcut uv [i; j] = 0).
Proof.
  intros n B kcut uv i j E HB Hi Hj r2. unfold cut_uv_map. cbn [shift_sources nth].
  rewrite !shift_shift by assumption. rewrite E. pose proof E as E'. apply Nat.even_spec in E'. destruct E' as [m Hm]. subst n.
  assert (M : (0 < m)%nat) by lia. assert (MR : 1 <= INR m) by (change 1 with (INR 1); apply le_INR; lia).
  assert (NR : INR (2 * m) = 2 * INR m) by (rewrite mult_INR; reflexivity). assert (N1 : INR (2 * m - 1) = 2 * INR m - 1) by (rewrite minus_INR by lia; rewrite NR; reflexivity).
  assert (K : forall x, (x < 2 * m)%nat -> kk (2 * m) B (shift_source (2 * m) x) = (INR (2 * m) / INR (2 * m - 1) * (freq (2 * m) x + / 2)) * PI / B).
  { intros x Hx. unfold kk. rewrite (shift_even m x Hx), N1, NR. field. split; lra. }
  assert (RE : (INR (2 * m) / INR (2 * m - 1) * (freq (2 * m) j + / 2)) ^ 2 + (INR (2 * m) / INR (2 * m - 1) * (freq (2 * m) i + / 2)) ^ 2 = r2) by (unfold r2; ring). clearbody r2.
  rewrite !K by assumption. destruct (Rlt_dec (kcut ^ 2) _) as [Lt|Ge]; [apply (proj1 (cut_cond _ _ _ _ HB)) in Lt; rewrite RE in Lt|rewrite (cut_cond _ _ _ _ HB), RE in Ge]; split; intro H; try reflexivity; lra.
Qed.
Print Assumptions C66_even.
Example C66_even_sat : exists (n : nat) (B : R) (i : nat) (j : nat), Nat.even n = true /\ 0 < B /\ (i < n)%nat /\ (j < n)%nat.
Proof. exists 6%nat, 100, 4%nat, 2%nat. repeat split; first [lra | lia | reflexivity | discriminate | congruence | auto]. Qed.
(** Odd grids: the shift is not undone, so the whole map is displaced by one cell on both axes; the radius is
    measured from the centre. *)
Theorem C66_odd : forall n B kcut uv i j, Nat.even n = false -> (1 < n)%nat -> 0 < B -> (i < n)%nat -> (j < n)%nat ->
  let i' := ((i + 1) mod n)%nat in let j' := ((j + 1) mod n)%nat in
  let r2 := ((INR n / INR (n - 1)) ^ 2 * (freq n i' ^ 2 + freq n j' ^ 2))%R in
  (r2 <= (kcut * B / PI) ^ 2 -> cut_uv_map n B kcut uv [i; j] = uv [i'; j']) /\
  ((kcut * B / PI) ^ 2 < r2 -> cut_uv_map n B kcut uv [i; j] = 0).
Proof.
  intros n B kcut uv i j E N1 HB Hi Hj i' j' r2. unfold cut_uv_map. cbn [shift_sources nth].
  rewrite !shift_shift by assumption. rewrite E. fold i' j'. assert (O : Nat.odd n = true) by (unfold Nat.odd; rewrite E; reflexivity). apply Nat.odd_spec in O. destruct O as [m Hm].
  assert (K : forall x, (x < n)%nat -> kk n B (shift_source n x) = (INR n / INR (n - 1) * freq n ((x + 1) mod n)) * PI / B).
  { intros x Hx. rewrite Hm in *. unfold kk. rewrite (shift_odd m x Hx). set (f := freq (2 * m + 1) ((x + 1) mod (2 * m + 1))).
    replace (2 * m + 1 - 1)%nat with (2 * m)%nat by lia. assert (MR : 1 <= INR m) by (change 1 with (INR 1); apply le_INR; lia).
    rewrite plus_INR, mult_INR. change (INR 2) with 2. change (INR 1) with 1. field. split; lra. }
  assert (RE : (INR n / INR (n - 1) * freq n j') ^ 2 + (INR n / INR (n - 1) * freq n i') ^ 2 = r2) by (unfold r2; ring). clearbody r2.
  rewrite !K by assumption. fold i' j'. destruct (Rlt_dec (kcut ^ 2) _) as [Lt|Ge]; [apply (proj1 (cut_cond _ _ _ _ HB)) in Lt; rewrite RE in Lt|rewrite (cut_cond _ _ _ _ HB), RE in Ge]; split; intro H; try reflexivity; lra.
Qed.
Print Assumptions C66_odd.
(** The radius in cells: a baseline of [b] km at redshift z with wavelength 21 cm (1+z) is b/lambda
    wavelengths long; on a grid with cell 1 / (B / D) it falls b/lambda * B/D cells from the centre. *)
Theorem C66_radius : forall z D b B, -1 < z -> 0 < D -> 0 < b -> 0 < B ->
  max_baseline_to_max_k z D b * B / PI = (b * 1000) / (21 / 100 * (1 + z)) * (B / D).
Proof. intros z D b B Hz HD Hb HB. pose proof PI_RGT_0. unfold max_baseline_to_max_k. field. repeat split; lra. Qed.
Print Assumptions C66_radius.
Example C66_radius_sat : exists (z : R) (D : R) (b : R) (B : R), -1 < z /\ 0 < D /\ 0 < b /\ 0 < B.
Proof. exists 8, 9000, 2, 100. repeat split; first [lra | lia | reflexivity | discriminate | congruence | auto]. Qed.
(** On even grids a longer limit keeps every cell that a shorter one keeps, and cutting twice is cutting once. *)
Theorem C66_nested : forall n B k1 k2 uv i j, Nat.even n = true -> 0 < B -> (i < n)%nat -> (j < n)%nat -> 0 <= k1 <= k2 ->
  (cut_uv_map n B k2 uv [i; j] = 0 -> uv [i; j] <> 0 -> cut_uv_map n B k1 uv [i; j] = 0) /\
  cut_uv_map n B k1 (cut_uv_map n B k2 uv) [i; j] = cut_uv_map n B k1 uv [i; j] /\
  (cut_uv_map n B k1 uv [i; j] = 0 \/ cut_uv_map n B k1 uv [i; j] = uv [i; j]).
Proof.
  intros n B k1 k2 uv i j E HB Hi Hj Hk. pose proof PI_RGT_0 as HP.
  set (r2 := (INR n / INR (n - 1)) ^ 2 * ((freq n i + / 2) ^ 2 + (freq n j + / 2) ^ 2)).
  assert (M : (k1 * B / PI) ^ 2 <= (k2 * B / PI) ^ 2).
  { apply pow_incr. split; [apply Rmult_le_pos; [nra|left; apply Rinv_0_lt_compat; exact HP]|]. unfold Rdiv. apply Rmult_le_compat_r; [left; apply Rinv_0_lt_compat; exact HP|nra]. }
  pose proof (C66_even n B k1 uv i j E HB Hi Hj) as [A1 A2]. pose proof (C66_even n B k2 uv i j E HB Hi Hj) as [B1 B2]. pose proof (C66_even n B k1 (cut_uv_map n B k2 uv) i j E HB Hi Hj) as [D1 D2].
  cbv zeta in *. fold r2 in A1, A2, B1, B2, D1, D2.
  destruct (Rle_lt_dec r2 ((k1 * B / PI) ^ 2)) as [L1|L1].
  - assert (L2 : r2 <= (k2 * B / PI) ^ 2) by lra. rewrite (A1 L1), (B1 L2), (D1 L1), (B1 L2). split; [congruence|]. split; [reflexivity|right; reflexivity].
  - rewrite (A2 L1), (D2 L1). split; [reflexivity|]. split; [reflexivity|left; reflexivity].
Qed.
Print Assumptions C66_nested.
Example C66_nested_sat : exists (n : nat) (B : R) (k1 : R) (k2 : R) (i : nat) (j : nat), Nat.even n = true /\ 0 < B /\ (i < n)%nat /\ (j < n)%nat /\ 0 <= k1 <= k2.
Proof. exists 4%nat, 100, 1, 2, 1%nat, 3%nat. repeat split; try lra; try lia; reflexivity. Qed.
(** The cut does not keep the point symmetry of a uv map: on a 4 x 4 grid, a limit of two cells removes
    frequency (1,0) and keeps (-1,0). *)
Theorem C66_symmetry_refuted : exists n B kcut uv, Nat.even n = true /\ 0 < B /\ symmetric_map n uv /\ ~ symmetric_map n (cut_uv_map n B kcut uv).
Proof.
  exists 4%nat, PI, 2, (fun _ => 1). pose proof PI_RGT_0 as HP. split; [reflexivity|]. split; [exact HP|]. split; [intros j _; reflexivity|]. intro H.
  specialize (H [1%nat; 0%nat] ltac:(repeat constructor; lia)). cbn [wrap_opp] in H. change ((4 - 1) mod 4)%nat with 3%nat in H. change ((4 - 0) mod 4)%nat with 0%nat in H.
  pose proof (proj1 (C66_even 4 PI 2 (fun _ => 1) 3 0 eq_refl HP ltac:(lia) ltac:(lia))) as K1. pose proof (proj2 (C66_even 4 PI 2 (fun _ => 1) 1 0 eq_refl HP ltac:(lia) ltac:(lia))) as K2.
  assert (R2 : (2 * PI / PI) ^ 2 = 4) by (field; lra). cbv zeta in K1, K2. rewrite R2 in K1, K2. unfold freq in K1, K2. cbn [Nat.ltb Nat.leb Nat.mul Nat.add Nat.sub INR] in K1, K2.
  rewrite K1 in H by lra. rewrite K2 in H by lra. lra.
Qed.
Print Assumptions C66_symmetry_refuted.
(** A case with an odd grid: a single sampled cell moves. *)
Example C66_odd_sat : cut_uv_map 3 PI 10 (fun a => if list_eqb a [1%nat; 1%nat] then 1 else 0) [0%nat; 0%nat] = 1.
Proof.
  pose proof PI_RGT_0 as HP. pose proof (proj1 (C66_odd 3 PI 10 (fun a => if list_eqb a [1%nat; 1%nat] then 1 else 0) 0 0 eq_refl ltac:(lia) HP ltac:(lia) ltac:(lia))) as K. cbv zeta in K.
  assert (R2 : (10 * PI / PI) ^ 2 = 100) by (field; lra). rewrite R2 in K. change ((0 + 1) mod 3)%nat with 1%nat in K. unfold freq in K. cbn [Nat.ltb Nat.leb Nat.mul Nat.add Nat.sub INR] in K. rewrite K by lra. reflexivity.
Qed.

(** * C67 *)
(** Each slice but the last has the frequency distance to the next one as its bandwidth; the last repeats
    the one before. *)
Theorem C67_bandwidth : forall nus k, (k < length nus)%nat ->
  ((k + 1 < length nus)%nat -> slice_bandwidth nus k = Rabs (nth (k + 1) nus 0 - nth k nus 0)) /\
  ((k + 1 = length nus)%nat -> (0 < k)%nat -> slice_bandwidth nus k = slice_bandwidth nus (k - 1)) /\
  (length nus = 1%nat -> slice_bandwidth nus k = 0).
Proof.
  intros nus k Hk. split; [|split].
  - intro H. unfold slice_bandwidth. destruct (Nat.ltb_spec (k + 1) (length nus)); [reflexivity|lia].
  - intros H K. unfold slice_bandwidth. destruct (Nat.ltb_spec (k + 1) (length nus)); [lia|]. destruct (Nat.ltb_spec (k - 1 + 1) (length nus)); [|lia].
    destruct k as [|k]; [lia|]. replace (S k - 1 + 1)%nat with (S k) by lia. replace (S k - 1)%nat with k by lia. reflexivity.
  - intro H. unfold slice_bandwidth. assert (k = 0%nat) as -> by lia. rewrite H. cbn. rewrite Rminus_eq_0. apply Rabs_R0.
Qed.
Print Assumptions C67_bandwidth.
Example C67_bandwidth_sat : exists (nus : list R) (k : nat), (k < length nus)%nat.
Proof. exists [140; 141; 142], 1%nat. cbn; lia. Qed.
(** The bandwidths are positive (so the noise is defined) exactly for at least two redshifts with
    consecutive ones at different frequencies. *)
Theorem C67_positive : forall nus, nus <> [] ->
  ((forall k, (k < length nus)%nat -> 0 < slice_bandwidth nus k) <->
   (2 <= length nus)%nat /\ forall k, (k + 1 < length nus)%nat -> nth (k + 1) nus 0 <> nth k nus 0).
Proof.
  intros nus NE. assert (Len : (0 < length nus)%nat) by (destruct nus; [congruence|cbn; lia]). split.
  - intro H. split.
    + destruct (Nat.eq_dec (length nus) 1) as [E|E]; [|lia]. specialize (H 0%nat Len). rewrite (proj2 (proj2 (C67_bandwidth nus 0 Len)) E) in H. lra.
    + intros k Hk E. specialize (H k ltac:(lia)). rewrite (proj1 (C67_bandwidth nus k ltac:(lia)) Hk), E, Rminus_eq_0, Rabs_R0 in H. lra.
  - intros [L2 D] k Hk.
    assert (In : forall q, (q + 1 < length nus)%nat -> 0 < slice_bandwidth nus q).
    { intros q Hq. rewrite (proj1 (C67_bandwidth nus q ltac:(lia)) Hq). apply Rabs_pos_lt. specialize (D q Hq). lra. }
    destruct (Nat.eq_dec (k + 1) (length nus)) as [E|E]; [|apply In; lia].
    rewrite (proj1 (proj2 (C67_bandwidth nus k Hk)) E) by lia. apply In. lia.
Qed.
Print Assumptions C67_positive.
Example C67_positive_sat : exists (nus : list R), nus <> [].
Proof. exists [140; 141; 142]. repeat split; first [lra | lia | reflexivity | discriminate | congruence | auto]. Qed.
(** On a monotone frequency axis the bandwidths of all slices but the last add up to the band. *)
Lemma band_sum : forall m nus, (m < length nus)%nat -> (forall k, (k < m)%nat -> nth (k + 1) nus 0 <= nth k nus 0) ->
  rsum (map (slice_bandwidth nus) (seq 0 m)) = nth 0 nus 0 - nth m nus 0.
Proof.
  induction m as [|m IH]; intros nus L H; [cbn; ring|]. rewrite seq_S, map_app, rsum_app, IH by (intros; try apply H; lia). cbn [map rsum fold_right Nat.add].
  rewrite (proj1 (C67_bandwidth nus m ltac:(lia)) ltac:(lia)). specialize (H m ltac:(lia)). rewrite Rabs_left1 by lra. replace (m + 1)%nat with (S m) by lia. unfold rsum. cbn. ring.
Qed.
Theorem C67_band : forall nus, (2 <= length nus)%nat -> (forall k, (k + 1 < length nus)%nat -> nth (k + 1) nus 0 <= nth k nus 0) ->
  rsum (map (slice_bandwidth nus) (seq 0 (length nus - 1))) = nth 0 nus 0 - nth (length nus - 1) nus 0.
Proof. intros nus L H. apply band_sum; [lia|]. intros k Hk. apply H. lia. Qed.
Print Assumptions C67_band.
Example C67_band_sat : exists (nus : list R), (2 <= length nus)%nat /\ (forall k, (k + 1 < length nus)%nat -> nth (k + 1) nus 0 <= nth k nus 0).
Proof. exists [150; 149; 148]. split; [cbn; lia|]. intros [|[|[|k]]] H; cbn in H; try lia; cbn; lra. Qed.
Example C67_sat : slice_bandwidth [150; 149; 147] 0 = 1 /\ slice_bandwidth [150; 149; 147] 2 = 2 /\ slice_bandwidth [150] 0 = 0.
Proof.
  unfold slice_bandwidth. cbn. repeat split; [rewrite Rabs_left; lra|rewrite Rabs_left; lra|rewrite Rminus_eq_0; apply Rabs_R0].
Qed.
(** [noise_cube_lightcone] can not be called: it passes more positional arguments than [noise_lightcone]
    takes, whatever their values. *)
Theorem C67_cube_refuted : forall (A : Type) (value : string -> A) body, noise_cube_lightcone value body = None.
Proof. reflexivity. Qed.
Print Assumptions C67_cube_refuted.

(** * C68 *)
Definition poly (c : R) : R := 35875 / 100000 + 48829 / 100000 * c + 14128 / 100000 * (2 * c ^ 2 - 1) + 1168 / 100000 * (4 * c ^ 3 - 3 * c).
Lemma cos_3 : forall x, cos (3 * x) = 4 * cos x ^ 3 - 3 * cos x.
Proof.
  intro x. replace (3 * x) with (2 * x + x) by ring. rewrite cos_plus, cos_2a_cos, sin_2a. pose proof (sin2_cos2 x) as S2. unfold Rsqr in S2.
  replace (2 * sin x * cos x * sin x) with (2 * cos x * (sin x * sin x)) by ring. replace (sin x * sin x) with (1 - cos x * cos x) by lra. ring.
Qed.
Lemma bh_poly : forall n i, n <> 1%nat -> blackmanharris n i = poly (cos (win_fac n i)).
Proof. intros n i H. unfold blackmanharris. destruct (Nat.eqb_spec n 1); [congruence|]. cbv zeta. rewrite cos_2a_cos, cos_3. unfold poly. ring. Qed.
Lemma poly_increasing : forall c d, -1 <= c -> c < d -> d <= 1 -> poly c < poly d.
Proof.
  intros c d H1 H2 H3. unfold poly.
  assert (F : 0 < 48829 / 100000 - 3 * (1168 / 100000) + 2 * (14128 / 100000) * (c + d) + 4 * (1168 / 100000) * (c * c + c * d + d * d)).
  { assert (0 <= (c + 1) * (d + 1)) by nra. nra. }
  assert (0 < (d - c) * (48829 / 100000 - 3 * (1168 / 100000) + 2 * (14128 / 100000) * (c + d) + 4 * (1168 / 100000) * (c * c + c * d + d * d))) by (apply Rmult_lt_0_compat; lra).
  nra.
Qed.
Lemma poly_ends : poly (-1) = 6 / 100000 /\ poly 1 = 1.
Proof. unfold poly. split; field. Qed.
Lemma bh_range : forall n i, 6 / 100000 <= blackmanharris n i <= 1.
Proof.
  intros n i. destruct (Nat.eq_dec n 1) as [->|N]; [unfold blackmanharris; cbn; lra|]. rewrite bh_poly by exact N. destruct poly_ends as [E1 E2]. pose proof (COS_bound (win_fac n i)) as [B1 B2]. split.
  - rewrite <- E1. destruct (Rle_lt_or_eq_dec _ _ B1) as [L|L]; [left; apply poly_increasing; lra|right; rewrite L; reflexivity].
  - rewrite <- E2. destruct (Rle_lt_or_eq_dec _ _ B2) as [L|L]; [left; apply poly_increasing; lra|right; rewrite L; reflexivity].
Qed.
(** Comparison of two entries by their distance from the centre. *)
Definition off (n i : nat) : R := Rabs (2 * INR i - (INR n - 1)).
Lemma win_fac_off : forall n i, (2 <= n)%nat -> cos (win_fac n i) = cos (off n i * (PI / (INR n - 1))).
Proof.
  intros n i N. assert (NR : 2 <= INR n) by (change 2 with (INR 2); apply le_INR; lia). unfold win_fac, off. rewrite minus_INR by lia. change (INR 1) with 1.
  replace (- PI + INR i * (2 * PI / (INR n - 1))) with ((2 * INR i - (INR n - 1)) * (PI / (INR n - 1))) by (field; lra). set (t := 2 * INR i - (INR n - 1)).
  unfold Rabs. destruct (Rcase_abs t); [|reflexivity]. rewrite <- cos_neg. f_equal. ring.
Qed.
Lemma off_range : forall n i, (i < n)%nat -> 0 <= off n i <= INR n - 1.
Proof.
  intros n i H. unfold off. split; [apply Rabs_pos|]. assert (INR i <= INR n - 1) by (replace (INR n - 1) with (INR (n - 1)) by (rewrite minus_INR by lia; reflexivity); apply le_INR; lia). pose proof (pos_INR i).
  unfold Rabs. destruct (Rcase_abs _); lra.
Qed.
Lemma bh_compare : forall n i k, (2 <= n)%nat -> (i < n)%nat -> (k < n)%nat -> off n i < off n k -> blackmanharris n k < blackmanharris n i.
Proof.
  intros n i k N Hi Hk H. rewrite !bh_poly, !win_fac_off by lia. assert (NR : 2 <= INR n) by (change 2 with (INR 2); apply le_INR; lia). pose proof PI_RGT_0 as HP.
  assert (Q : 0 < PI / (INR n - 1)) by (apply Rdiv_lt_0_compat; lra).
  assert (Rg : forall x, (x < n)%nat -> 0 <= off n x * (PI / (INR n - 1)) <= PI).
  { intros x Hx. pose proof (off_range n x Hx) as [O1 O2]. split; [apply Rmult_le_pos; lra|]. apply (Rle_trans _ ((INR n - 1) * (PI / (INR n - 1)))); [apply Rmult_le_compat_r; lra|]. right. field. lra. }
  apply poly_increasing; [apply COS_bound| |apply COS_bound]. apply cos_decreasing_1; try (apply Rg; assumption). apply Rmult_lt_compat_r; assumption.
Qed.
(** The window: between 6e-5 and 1, symmetric, and strictly falling from the centre to the ends. *)
Theorem C68_window : forall n, (2 <= n)%nat ->
  (forall i, 6 / 100000 <= blackmanharris n i <= 1) /\
  (forall i, (i < n)%nat -> blackmanharris n (n - 1 - i) = blackmanharris n i) /\
  (forall i, (2 * (i + 1) < n)%nat -> blackmanharris n i < blackmanharris n (i + 1)) /\
  blackmanharris n 0 = 6 / 100000.
Proof.
  intros n N. split; [intro; apply bh_range|]. assert (NR : 2 <= INR n) by (change 2 with (INR 2); apply le_INR; lia). split; [|split].
  - intros i Hi. rewrite !bh_poly, !win_fac_off by lia. unfold off. rewrite !minus_INR by lia. change (INR 1) with 1. do 3 f_equal. rewrite <- Rabs_Ropp. f_equal. ring.
  - intros i Hi. apply bh_compare; try lia. unfold off. assert (2 * INR (i + 1) <= INR n - 1).
    { replace (INR n - 1) with (INR (n - 1)) by (rewrite minus_INR by lia; reflexivity). change 2 with (INR 2). rewrite <- mult_INR. apply le_INR. lia. }
    rewrite plus_INR in *. change (INR 1) with 1 in *. rewrite !Rabs_left1 by lra. lra.
  - rewrite bh_poly, win_fac_off by lia. unfold off. cbn [INR]. rewrite Rabs_left1 by lra. replace (- (2 * 0 - (INR n - 1)) * (PI / (INR n - 1))) with PI by (field; lra). rewrite cos_PI. apply poly_ends.
Qed.
Print Assumptions C68_window.
Example C68_window_sat : exists (n : nat), (2 <= n)%nat.
Proof. exists 5%nat. repeat split; first [lra | lia | reflexivity | discriminate | congruence | auto]. Qed.
(** Offsets of the entries that the shift brings to the frequencies 0, 1 and -1. *)
Lemma shift_small : forall n, (3 <= n)%nat ->
  shift_source n 0 = (n - n / 2)%nat /\ shift_source n (n - 1) = (n - n / 2 - 1)%nat /\ shift_source n 1 = (if Nat.eqb n 3 then 0 else n - n / 2 + 1)%nat.
Proof.
  intros n N. unfold shift_source. assert (D : (1 <= n / 2)%nat) by (apply (Nat.div_le_lower_bound n 2 1); lia). assert (D2 : (2 * (n / 2) <= n)%nat) by (apply Nat.mul_div_le; lia). split; [|split].
  - apply Nat.mod_small. lia.
  - replace (n - 1 + (n - n / 2))%nat with ((n - n / 2 - 1) + 1 * n)%nat by lia. rewrite Nat.mod_add by lia. apply Nat.mod_small. lia.
  - destruct (Nat.eqb_spec n 3) as [->|N3]; [reflexivity|]. assert (2 <= n / 2)%nat by (apply (Nat.div_le_lower_bound n 2 2); lia). rewrite Nat.mod_small by lia. lia.
Qed.
Lemma taper_pos : forall n i j, 0 < blackmanharris n i * blackmanharris n j.
Proof. intros. pose proof (bh_range n i). pose proof (bh_range n j). nra. Qed.
(** The taper laid over the Fourier plane gives opposite frequencies the same weight only on grids of one or
    two cells. *)
Theorem C68_symmetric : forall n, (0 < n)%nat -> (symmetric_map n (taper n) <-> (n <= 2)%nat).
Proof.
  intros n N0. split.
  - intro H. destruct (le_lt_dec n 2) as [L|L]; [exact L|exfalso]. specialize (H [1%nat; 0%nat] ltac:(repeat constructor; lia)).
    unfold taper, win_2d in H. cbn [wrap_opp shift_sources nth] in H. rewrite Nat.sub_0_r, Nat.mod_same, (Nat.mod_small (n - 1)) in H by lia.
    destruct (shift_small n ltac:(lia)) as [_ [E2 E3]]. rewrite E2, E3 in H.
    assert (P : blackmanharris n (shift_source n 0) <> 0) by (pose proof (bh_range n (shift_source n 0)); lra). apply Rmult_eq_reg_r in H; [|exact P].
    assert (D2 : (2 * (n / 2) <= n < 2 * (n / 2) + 2)%nat) by (split; [apply Nat.mul_div_le; lia|pose proof (Nat.mul_succ_div_gt n 2 ltac:(lia)); lia]).
    assert (D1 : (1 <= n / 2)%nat) by lia.
    assert (C : blackmanharris n (if Nat.eqb n 3 then 0 else n - n / 2 + 1)%nat < blackmanharris n (n - n / 2 - 1)); [|lra].
    apply bh_compare; [lia|lia|destruct (Nat.eqb_spec n 3); lia|]. unfold off. set (h := (n / 2)%nat) in *.
    destruct (Nat.eqb_spec n 3) as [->|N3]; [assert (Hh : h = 1%nat) by lia; rewrite Hh; cbn [Nat.sub INR]; unfold Rabs; repeat destruct (Rcase_abs _); lra|].
    rewrite plus_INR, !minus_INR by lia. change (INR 1) with 1. assert (HR : INR n = 2 * INR h \/ INR n = 2 * INR h + 1).
    { destruct (Nat.eq_dec n (2 * h)) as [E|E]; [left; rewrite E at 1; rewrite mult_INR; reflexivity|right; assert (E' : n = (2 * h + 1)%nat) by lia; rewrite E' at 1; rewrite plus_INR, mult_INR; reflexivity]. }
    unfold Rabs. repeat destruct (Rcase_abs _); lra.
  - intros L j Hj. inversion Hj as [|? a ? j' Ha Hj']; subst. inversion Hj' as [|? b ? j'' Hb Hj'']; subst. inversion Hj''; subst.
    assert (M : forall x, (x < n)%nat -> ((n - x) mod n)%nat = x).
    { intros x Hx. assert (n = 1%nat \/ n = 2%nat) as [-> | ->] by lia; [assert (x = 0)%nat as -> by lia; reflexivity|assert (x = 0%nat \/ x = 1%nat) as [-> | ->] by lia; reflexivity]. }
    unfold taper. cbn [wrap_opp shift_sources]. rewrite !M by assumption. reflexivity.
Qed.
Print Assumptions C68_symmetric.
Example C68_symmetric_sat : exists (n : nat), (0 < n)%nat.
Proof. exists 5%nat. repeat split; first [lra | lia | reflexivity | discriminate | congruence | auto]. Qed.
(** The mean of the map is never the most weighted mode: frequency -1 has the same weight on even grids and a
    larger one, the maximum, on odd grids. *)
Theorem C68_centre : forall n, (3 <= n)%nat ->
  (Nat.even n = true -> taper n [(n - 1)%nat; 0%nat] = taper n [0%nat; 0%nat]) /\
  (Nat.even n = false -> taper n [0%nat; 0%nat] < taper n [(n - 1)%nat; 0%nat] < taper n [(n - 1)%nat; (n - 1)%nat] /\ taper n [(n - 1)%nat; (n - 1)%nat] = 1).
Proof.
  intros n N. destruct (shift_small n N) as [E1 [E2 _]]. unfold taper, win_2d. cbn [shift_sources nth]. rewrite E1, E2. split; intro Ev.
  - apply Nat.even_spec in Ev. destruct Ev as [m ->]. rewrite (Nat.mul_comm 2 m), Nat.div_mul by lia. f_equal.
    replace (m * 2 - m)%nat with m by lia. replace (m - 1)%nat with (m * 2 - 1 - m)%nat at 1 by lia. apply (proj1 (proj2 (C68_window (m * 2) ltac:(lia)))). lia.
  - assert (O : Nat.odd n = true) by (unfold Nat.odd; rewrite Ev; reflexivity). apply Nat.odd_spec in O. destruct O as [m Hm].
    assert (D : (n / 2 = m)%nat) by (rewrite Hm; symmetry; apply (Nat.div_unique _ 2 m 1); lia). rewrite D.
    replace (n - m - 1)%nat with m by lia. replace (n - m)%nat with (m + 1)%nat by lia.
    assert (NR : INR n = 2 * INR m + 1) by (rewrite Hm, plus_INR, mult_INR; reflexivity).
    assert (C : blackmanharris n (m + 1) < blackmanharris n m).
    { apply bh_compare; try lia. unfold off. rewrite plus_INR, NR. change (INR 1) with 1. unfold Rabs. repeat destruct (Rcase_abs _); lra. }
    assert (One : blackmanharris n m = 1).
    { rewrite bh_poly, win_fac_off by lia. unfold off. rewrite NR. replace (2 * INR m - (2 * INR m + 1 - 1)) with 0 by ring. rewrite Rabs_R0, Rmult_0_l, cos_0. apply poly_ends. }
    pose proof (bh_range n (m + 1)). rewrite One in *. split; [split; nra|ring].
Qed.
Print Assumptions C68_centre.
Example C68_centre_sat : exists (n : nat), (3 <= n)%nat.
Proof. exists 5%nat. repeat split; first [lra | lia | reflexivity | discriminate | congruence | auto]. Qed.
Example C68_sat : symmetric_map 2 (taper 2) /\ ~ symmetric_map 64 (taper 64) /\ taper 64 [63%nat; 0%nat] = taper 64 [0%nat; 0%nat] /\ taper 65 [64%nat; 64%nat] = 1.
Proof.
  split; [apply C68_symmetric; lia|]. split; [rewrite C68_symmetric by lia; lia|]. split; [exact (proj1 (C68_centre 64 ltac:(lia)) eq_refl)|].
  exact (proj2 (proj2 (C68_centre 65 ltac:(lia)) eq_refl)).
Qed.
