(** C108: the galactic synchrotron foreground. *)
From Coq Require Import String List Arith ZArith Reals Lra Lia Bool.
From Verif Require Import RLib ConstModel KGridModel FourierModel FourierSpec FourierProofs DftLib UnitsModel SynchModel.
Import ListNotations.
Local Open Scope R_scope.

(** * Energy of a complex transform *)
Lemma complex_parseval s P Q : rsum (map (fun a => ifft_re s P Q a ^ 2 + ifft_im s P Q a ^ 2) (indices s)) =
  rsum (map (fun j => P j ^ 2 + Q j ^ 2) (indices s)) / ncells s.
Proof.
  set (re := ifft_re s P Q). set (im := ifft_im s P Q).
  transitivity (rsum (map (fun j => P j * cfft_re s re im j + Q j * cfft_im s re im j) (indices s)) / ncells s).
  - unfold cfft_re, cfft_im.
    rewrite (rsum_ext (fun j => P j * _ + Q j * _) (fun j => rsum (map (fun a => re a * (P j * cos (angle s j a) - Q j * sin (angle s j a)) + im a * (P j * sin (angle s j a) + Q j * cos (angle s j a))) (indices s)))).
    + rewrite rsum_swap. unfold Rdiv. rewrite <- rsum_scale_r. apply rsum_ext. intros a _.
      rewrite rsum_plus, !rsum_scale. rewrite Rmult_plus_distr_r, !Rmult_assoc.
      change (re a ^ 2 + im a ^ 2 = re a * re a + im a * im a). ring.
    + intros j _. rewrite <- !rsum_scale, <- rsum_plus. apply rsum_ext. intros a _. ring.
  - f_equal. apply rsum_ext. intros j Hj. apply indices_valid in Hj. destruct (cfft_ifft s P Q j Hj) as [E1 E2]. fold re im in E1, E2. rewrite E1, E2. ring.
Qed.
Lemma ifft_scale s P Q c a : ifft_re s (fun j => c * P j) (fun j => c * Q j) a = c * ifft_re s P Q a /\ ifft_im s (fun j => c * P j) (fun j => c * Q j) a = c * ifft_im s P Q a.
Proof.
  unfold ifft_re, ifft_im, Rdiv. rewrite <- !Rmult_assoc. rewrite <- !rsum_scale. split; f_equal; apply rsum_ext; intros; ring.
Qed.

Lemma indices2_length n m : length (indices [n; m]) = (n * m)%nat.
Proof.
  cbn [indices].
  assert (L1 : forall s, length (flat_map (fun i : nat => map (cons i) [[]]) (seq s m)) = m).
  { clear n. induction m as [|k IH]; intro s; [reflexivity|]. cbn [seq flat_map map app length]. now rewrite IH. }
  set (l := flat_map _ (seq 0 m)) in *. assert (LL : length l = m) by apply L1. clearbody l.
  generalize 0%nat as s. induction n as [|k IH]; intro s; [reflexivity|]. cbn [seq flat_map Nat.mul]. rewrite app_length, IH, map_length. now rewrite LL.
Qed.

(** * The grid *)
Lemma grid_twice n i : grid n i = (IZR (2 * Z.of_nat i + 1 - Z.of_nat n)) / 2.
Proof. unfold grid. rewrite minus_IZR, plus_IZR, mult_IZR, <- !INR_IZR_INZ. field. Qed.
Lemma multipole_zero n box dist j : box <> 0 -> dist <> 0 ->
  (multipole n box dist j = 0 <-> (2 * nth 0 j 0 + 1 = n)%nat /\ (2 * nth 1 j 0 + 1 = n)%nat).
Proof.
  intros HB HD. unfold multipole. set (a := nth 0 j 0%nat). set (b := nth 1 j 0%nat).
  assert (G : forall i, grid n i * dist / box = 0 <-> (2 * i + 1 = n)%nat).
  { intro i. rewrite grid_twice. split.
    - intro H. assert (E : IZR (2 * Z.of_nat i + 1 - Z.of_nat n) = 0).
      { apply (Rmult_eq_reg_r (dist / box / 2)).
        - rewrite Rmult_0_l. rewrite <- H. field. exact HB.
        - unfold Rdiv. repeat apply Rmult_integral_contrapositive_currified; try assumption; try (apply Rinv_neq_0_compat; assumption || lra). }
      apply eq_IZR in E. lia.
    - intro E. replace (2 * Z.of_nat i + 1 - Z.of_nat n)%Z with 0%Z by lia. field. exact HB. }
  split.
  - intro H. pose proof PI_RGT_0. apply Rmult_integral in H. destruct H as [H|H]; [lra|].
    pose proof (pow2_ge_0 (grid n a * dist / box)) as PA. pose proof (pow2_ge_0 (grid n b * dist / box)) as PB.
    apply sqrt_eq_0 in H; [|lra].
    split; apply G; [destruct (Req_dec (grid n a * dist / box) 0) as [E|E]|destruct (Req_dec (grid n b * dist / box) 0) as [E|E]]; try exact E; assert (HP := Rsqr_pos_lt _ E); unfold Rsqr in HP; lra.
  - intros [A B]. apply G in A. apply G in B. rewrite A, B. replace (0 ^ 2 + 0 ^ 2) with 0 by ring. rewrite sqrt_0. ring.
Qed.

(** C108: the map is finite exactly for an even number of cells: with an odd number the amplitude of the cell in the middle of
    the grid is infinite, and there is no finite cell. *)
Theorem C108_finite : forall v n box dist z X Y, box <> 0 -> dist <> 0 ->
  (synch_map v n box dist z X Y <> None <-> Nat.Even n).
Proof.
  intros v n box dist z X Y HB HD. unfold synch_map.
  destruct (existsb _ (indices [n; n])) eqn:E.
  - split; [congruence|]. intros [k K]. exfalso. apply existsb_exists in E. destruct E as (j & I & T).
    destruct (Req_EM_T (multipole n box dist j) 0) as [Z|Z]; [|discriminate]. apply multipole_zero in Z; try assumption. lia.
  - split; [intros _|discriminate]. destruct (Nat.Even_or_Odd n) as [H|[k K]]; [exact H|]. exfalso.
    assert (I : In [k; k] (indices [n; n])) by (apply indices_valid; repeat constructor; lia).
    assert (T : existsb (fun j => if Req_EM_T (multipole n box dist j) 0 then true else false) (indices [n; n]) = true); [|congruence].
    apply existsb_exists. exists [k; k]. split; [exact I|]. destruct (Req_EM_T (multipole n box dist [k; k]) 0) as [_|N]; [reflexivity|].
    exfalso. apply N. apply multipole_zero; try assumption. cbn [nth]. lia.
Qed.
Print Assumptions C108_finite.
Example C108_finite_sat : exists (box : R) (dist : R), box <> 0 /\ dist <> 0.
Proof. exists 100, 9000. repeat split; first [lra | lia | reflexivity | discriminate | congruence | auto]. Qed.

Lemma synch_some v n box dist z X Y : box <> 0 -> dist <> 0 -> Nat.Even n ->
  synch_map v n box dist z X Y = Some (map (fun a => cabs (ifft_re [n; n] (fun j => amplitude n box dist (z_to_nu z) j * X j) (fun j => amplitude n box dist (z_to_nu z) j * Y j) a)
      (ifft_im [n; n] (fun j => amplitude n box dist (z_to_nu z) j * X j) (fun j => amplitude n box dist (z_to_nu z) j * Y j) a) * 10 ^ 6 /
      kelvin_jansky_conversion v dist (default_cells (Z.of_nat n) (Some (Z.of_nat n))) z (Some box)) (indices [n; n])).
Proof.
  intros HB HD EV. destruct (C108_finite v n box dist z X Y HB HD) as [_ F]. specialize (F EV). unfold synch_map in *.
  destruct (existsb _ (indices [n; n])); [congruence|]. unfold jansky_2_kelvin. rewrite !map_map. reflexivity.
Qed.
Lemma solid_power_pos nu l : 0 < nu -> 0 < l -> 0 < synch_power nu l.
Proof. intros. unfold synch_power. repeat apply Rmult_lt_0_compat; try (unfold Rpower; apply exp_pos); lra. Qed.
Lemma multipole_pos n box dist j : 0 < box -> 0 < dist -> Nat.Even n -> 0 < multipole n box dist j.
Proof.
  intros HB HD [k K]. assert (N : multipole n box dist j <> 0) by (intro E; apply multipole_zero in E; lra || lia).
  assert (0 <= multipole n box dist j); [|lra]. unfold multipole. pose proof PI_RGT_0. apply Rmult_le_pos; [lra|apply sqrt_pos].
Qed.
(** The conversion factor for [n] cells on a side, written out. *)
Definition factor (dist z box : R) (n : nat) : R :=
  2 * KB_SI / c_light_SI / c_light_SI / janskytowatt * ((1420 / (1 + z) * 10 ^ 6) ^ 2) * 10 ^ 3 * ((box / dist) ^ 2 / INR n ^ 2).
Lemma factor_eq v dist z box n : box <> 0 -> (0 < n)%nat -> kelvin_jansky_conversion v dist (default_cells (Z.of_nat n) (Some (Z.of_nat n))) z (Some box) = factor dist z box n.
Proof.
  intros HB N. unfold kelvin_jansky_conversion, default_box, default_cells, factor, z_to_nu, nu0. destruct (Req_EM_T box 0); [contradiction|].
  destruct (Z.eqb_spec (Z.of_nat n) 0); [lia|]. rewrite <- INR_IZR_INZ. reflexivity.
Qed.
Lemma factor_pos dist z box n : 0 < dist -> 0 < box -> -1 < z -> (0 < n)%nat -> 0 < factor dist z box n.
Proof.
  intros HD HB HZ N. unfold factor.
  assert (K : 0 < KB_SI) by (unfold KB_SI; repeat apply Rdiv_lt_0_compat; try lra; apply pow_lt; lra).
  assert (C : 0 < c_light_SI) by (unfold c_light_SI; apply Rmult_lt_0_compat; [lra|apply pow_lt; lra]).
  assert (J : 0 < janskytowatt) by (unfold janskytowatt; apply Rinv_0_lt_compat, pow_lt; lra).
  assert (NN : 0 < INR n) by now apply lt_0_INR.
  assert (F : 0 < 1420 / (1 + z)) by (apply Rdiv_lt_0_compat; lra).
  assert (D : 0 < box / dist) by now apply Rdiv_lt_0_compat.
  assert (P6 : forall k, 0 < 10 ^ k) by (intro; apply pow_lt; lra).
  apply Rmult_lt_0_compat; [|apply Rdiv_lt_0_compat; now apply pow_lt].
  apply Rmult_lt_0_compat; [|apply P6]. apply Rmult_lt_0_compat; [|apply pow_lt, Rmult_lt_0_compat; [exact F|apply P6]].
  repeat apply Rdiv_lt_0_compat; try assumption. lra.
Qed.

(** C108: of an even number of cells no value is negative, and the sum of their squares is that of the modes: the angular
    power [C(l)] of each grid point, times the solid angle and the square of its complex draw. *)
Theorem C108_power : forall v n box dist z X Y m, 0 < box -> 0 < dist -> -1 < z -> (0 < n)%nat -> synch_map v n box dist z X Y = Some m ->
  length m = (n * n)%nat /\ Forall (fun t => 0 <= t) m /\
  rsum (map (fun t => t ^ 2) m) = (10 ^ 6 / factor dist z box n) ^ 2 *
    (rsum (map (fun j => box ^ 2 / dist ^ 2 * synch_power (1420 / (1 + z)) (multipole n box dist j) / 2 * (X j ^ 2 + Y j ^ 2)) (indices [n; n])) / (INR n * INR n)).
Proof.
  intros v n box dist z X Y m HB HD HZ N E.
  assert (EV : Nat.Even n) by (apply (C108_finite v n box dist z X Y); try lra; congruence).
  rewrite synch_some in E by (try lra; assumption). apply (f_equal (fun o => match o with Some l => l | None => [] end)) in E; cbv beta iota in E; subst m. rewrite factor_eq by (lra || assumption).
  pose proof (factor_pos dist z box n HD HB HZ N) as FP.
  set (P := fun j => amplitude n box dist (z_to_nu z) j * X j). set (Q := fun j => amplitude n box dist (z_to_nu z) j * Y j).
  assert (CP : forall a b, 0 <= cabs a b) by (intros; apply sqrt_pos).
  split; [|split].
  - rewrite map_length. apply indices2_length.
  - apply Forall_forall. intros t I. apply in_map_iff in I. destruct I as (a & <- & _). apply Rmult_le_pos; [|left; now apply Rinv_0_lt_compat].
    apply Rmult_le_pos; [apply CP|]. apply pow_le. lra.
  - rewrite map_map.
    rewrite (rsum_ext (fun a => (cabs (ifft_re [n; n] P Q a) (ifft_im [n; n] P Q a) * 10 ^ 6 / factor dist z box n) ^ 2) (fun a => (10 ^ 6 / factor dist z box n) ^ 2 * (ifft_re [n; n] P Q a ^ 2 + ifft_im [n; n] P Q a ^ 2))).
    + rewrite rsum_scale. f_equal. rewrite complex_parseval. replace (ncells [n; n]) with (INR n * INR n) by (unfold ncells; cbn; ring). f_equal.
      apply rsum_ext. intros j _. unfold P, Q, amplitude, z_to_nu, nu0. rewrite !Rpow_mult_distr, <- Rmult_plus_distr_l. f_equal.
      apply pow2_sqrt. pose proof (multipole_pos n box dist j HB HD EV) as LP.
      assert (NP : 0 < 1420 / (1 + z)) by (apply Rdiv_lt_0_compat; lra). pose proof (solid_power_pos _ _ NP LP).
      apply Rmult_le_pos; [|lra]. apply Rmult_le_pos; [|lra]. apply Rmult_le_pos; [apply pow2_ge_0|]. left. apply Rinv_0_lt_compat. now apply pow_lt.
    + intros a _. unfold Rdiv. rewrite !Rpow_mult_distr. unfold cabs. rewrite pow2_sqrt; [ring|]. pose proof (pow2_ge_0 (ifft_re [n; n] P Q a)). pose proof (pow2_ge_0 (ifft_im [n; n] P Q a)). lra.
Qed.
Print Assumptions C108_power.
Example C108_power_sat : forall v X Y, exists m, synch_map v 4 100 9000 9 X Y = Some m.
Proof. intros. destruct (synch_map v 4 100 9000 9 X Y) as [m|] eqn:E; [now exists m|]. exfalso. apply (C108_finite v 4 100 9000 9 X Y); try lra; [now exists 2%nat|exact E]. Qed.

(** C108: the map scales with the draws. *)
Theorem C108_scale : forall v n box dist z X Y c m, box <> 0 -> dist <> 0 -> synch_map v n box dist z X Y = Some m ->
  synch_map v n box dist z (fun j => c * X j) (fun j => c * Y j) = Some (map (Rmult (Rabs c)) m).
Proof.
  intros v n box dist z X Y c m HB HD E.
  assert (EV : Nat.Even n) by (apply (C108_finite v n box dist z X Y); congruence).
  rewrite synch_some in * by assumption. apply (f_equal (fun o => match o with Some l => l | None => [] end)) in E; cbv beta iota in E; subst m. f_equal. rewrite map_map. apply map_ext. intro a.
  set (P := fun j => amplitude n box dist (z_to_nu z) j * X j). set (Q := fun j => amplitude n box dist (z_to_nu z) j * Y j).
  destruct (ifft_scale [n; n] P Q c a) as [E1 E2].
  assert (F : forall (W : array) (i : list nat), amplitude n box dist (z_to_nu z) i * (c * W i) = c * (amplitude n box dist (z_to_nu z) i * W i)) by (intros; ring).
  replace (ifft_re [n; n] (fun j => amplitude n box dist (z_to_nu z) j * (c * X j)) (fun j => amplitude n box dist (z_to_nu z) j * (c * Y j)) a) with (c * ifft_re [n; n] P Q a).
  2:{ rewrite <- E1. unfold ifft_re. f_equal. apply rsum_ext. intros j _. unfold P, Q. now rewrite !F. }
  replace (ifft_im [n; n] (fun j => amplitude n box dist (z_to_nu z) j * (c * X j)) (fun j => amplitude n box dist (z_to_nu z) j * (c * Y j)) a) with (c * ifft_im [n; n] P Q a).
  2:{ rewrite <- E2. unfold ifft_im. f_equal. apply rsum_ext. intros j _. unfold P, Q. now rewrite !F. }
  unfold cabs. set (r := ifft_re [n; n] P Q a). set (i := ifft_im [n; n] P Q a).
  replace ((c * r) ^ 2 + (c * i) ^ 2) with (c ^ 2 * (r ^ 2 + i ^ 2)) by ring.
  rewrite sqrt_mult; [|apply pow2_ge_0|pose proof (pow2_ge_0 r); pose proof (pow2_ge_0 i); lra].
  replace (c ^ 2) with (Rsqr c) by (unfold Rsqr; ring). rewrite sqrt_Rsqr_abs. unfold Rdiv. ring.
Qed.
Print Assumptions C108_scale.

(** * The angular spectrum *)
(** C108: at 150 MHz and l = 1000 the angular power is 513; it falls with l as l^-2.34, and its dependence on l is the same
    at every frequency. *)
Theorem C108_spectrum : synch_power 150 1000 = 513 /\
  (forall nu l, 0 < l -> synch_power nu l = synch_power nu 1000 * Rpower (1000 / l) (234 / 100)) /\
  (forall nu l l', 0 < nu -> 0 < l < l' -> synch_power nu l' < synch_power nu l).
Proof.
  assert (ONE : Rpower (1000 / 1000) (234 / 100) = 1).
  { replace (1000 / 1000) with 1 by field. unfold Rpower. rewrite ln_1, Rmult_0_r. apply exp_0. }
  assert (FAC : forall nu l, 0 < l -> synch_power nu l = synch_power nu 1000 * Rpower (1000 / l) (234 / 100)).
  { intros nu l HL. unfold synch_power. rewrite ONE. ring. }
  split; [|split; [exact FAC|]].
  - unfold synch_power. rewrite ONE. replace (150 / 150) with 1 by field. unfold Rpower. rewrite ln_1, !Rmult_0_r, exp_0. ring.
  - intros nu l l' HN [HL LL]. rewrite (FAC nu l'), (FAC nu l) by lra. apply Rmult_lt_compat_l; [apply solid_power_pos; lra|].
    unfold Rpower. apply exp_increasing. apply Rmult_lt_compat_l; [lra|]. apply ln_increasing; [apply Rdiv_lt_0_compat; lra|].
    unfold Rdiv. apply Rmult_lt_compat_l; [lra|]. apply Rinv_lt_contravar; [|exact LL]. apply Rmult_lt_0_compat; lra.
Qed.
Print Assumptions C108_spectrum.

(** C108: with frequency the power has the slope -5.6 at 150 MHz and steepens by 0.4 per e-fold. *)
Theorem C108_frequency : forall l x, 0 < l -> synch_power (150 * exp x) l = synch_power 150 l * exp (- (28 / 5) * x - x ^ 2 / 5).
Proof.
  intros l x HL. assert (E1 : 150 * exp x / 150 = exp x) by field. assert (E2 : 150 / 150 = 1) by field.
  unfold synch_power, Rpower. rewrite E1, E2, ln_exp, ln_1, Rmult_0_r, exp_0, Rmult_1_r. f_equal. f_equal. field.
Qed.
Print Assumptions C108_frequency.
Example C108_frequency_sat : exists (l : R), 0 < l.
Proof. exists 2. repeat split; first [lra | lia | reflexivity | discriminate | congruence | auto]. Qed.

(** C108: cell (i, j) of the transform has the multipole 2 pi |U| of the baseline U whose components are its distances from
    the middle of the array, in cells, times distance over box size. *)
Theorem C108_multipole : forall n box dist i j, 0 < box -> 0 < dist ->
  multipole n box dist [i; j] = 2 * PI * (dist / box) * sqrt ((INR i - (INR n - 1) / 2) ^ 2 + (INR j - (INR n - 1) / 2) ^ 2).
Proof.
  intros n box dist i j HB HD. unfold multipole. cbn [nth]. rewrite !Rmult_assoc. f_equal. f_equal.
  assert (K : 0 < dist / box) by (apply Rdiv_lt_0_compat; assumption).
  rewrite <- (sqrt_pow2 (dist / box)) by lra. rewrite <- sqrt_mult_alt by apply pow2_ge_0. f_equal. unfold grid. field. lra.
Qed.
Print Assumptions C108_multipole.
Example C108_multipole_sat : multipole 2 1 1 [1; 1]%nat = 2 * PI * sqrt (1 / 2) /\ synch_power (150 * exp 1) 1000 = 513 * exp (- 29 / 5).
Proof.
  split.
  - rewrite C108_multipole by lra. cbn [INR]. replace (1 / 1) with 1 by field. rewrite Rmult_1_r. f_equal. f_equal. field.
  - rewrite C108_frequency by lra. rewrite (proj1 C108_spectrum). f_equal. f_equal. field.
Qed.

(** C108: the grid is centred, but the transform has its zero mode first. So the mode of the mean of the map gets the largest
    multipole and the least power of all, and most power goes to the mode [n/2, n/2], which changes sign from cell to cell. *)
Theorem C108_order_refuted : forall n box dist nu j, 0 < box -> 0 < dist -> 0 < nu -> Nat.Even n -> (0 < n)%nat -> valid [n; n] j ->
  multipole n box dist j <= multipole n box dist [0; 0]%nat /\ multipole n box dist [n / 2; n / 2]%nat <= multipole n box dist j /\
  synch_power nu (multipole n box dist [0; 0]%nat) <= synch_power nu (multipole n box dist j) <= synch_power nu (multipole n box dist [n / 2; n / 2]%nat).
Proof.
  intros n box dist nu j HB HD HN EV N V.
  assert (SQ : forall x y, 0 <= x -> - y <= x -> x <= y -> x ^ 2 <= y ^ 2) by (intros; apply pow_incr; lra).
  destruct EV as [k K]. assert (HK : (n / 2 = k)%nat) by (subst n; rewrite Nat.mul_comm; apply Nat.div_mul; lia).
  assert (B : forall i, (i < n)%nat -> (grid n (n / 2)) ^ 2 <= grid n i ^ 2 <= grid n 0 ^ 2).
  { intros i Hi. rewrite HK. rewrite !grid_twice. subst n. set (a := (2 * Z.of_nat i + 1 - Z.of_nat (2 * k))%Z).
    replace (2 * Z.of_nat k + 1 - Z.of_nat (2 * k))%Z with 1%Z by lia. replace (2 * Z.of_nat 0 + 1 - Z.of_nat (2 * k))%Z with (1 - 2 * Z.of_nat k)%Z by lia.
    set (b := (1 - 2 * Z.of_nat k)%Z).
    assert (Q : forall p q, (p * p <= q * q)%Z -> (IZR p / 2) ^ 2 <= (IZR q / 2) ^ 2).
    { intros p q H. apply IZR_le in H. rewrite !mult_IZR in H. replace ((IZR p / 2) ^ 2) with (IZR p * IZR p / 4) by field. replace ((IZR q / 2) ^ 2) with (IZR q * IZR q / 4) by field. lra. }
    assert (A : (a = 2 * (Z.of_nat i - Z.of_nat k) + 1)%Z) by (unfold a; lia). set (t := (Z.of_nat i - Z.of_nat k)%Z) in *.
    split; apply Q.
    - rewrite A. destruct (Z_le_gt_dec 0 t); nia.
    - assert (0 <= (- b - a) * (- b + a))%Z by (apply Z.mul_nonneg_nonneg; unfold a, b; lia). lia. }
  assert (M : forall j1 j2, (forall x, In x [0; 1]%nat -> grid n (nth x j1 0%nat) ^ 2 <= grid n (nth x j2 0%nat) ^ 2) -> multipole n box dist j1 <= multipole n box dist j2).
  { intros j1 j2 H. unfold multipole. pose proof PI_RGT_0. apply Rmult_le_compat_l; [lra|]. apply sqrt_le_1_alt.
    assert (S' : forall g, (g * dist / box) ^ 2 = g ^ 2 * (dist / box) ^ 2) by (intro; unfold Rdiv; ring). rewrite !S'.
    pose proof (pow2_ge_0 (dist / box)) as PP.
    apply Rplus_le_compat; apply Rmult_le_compat_r; try exact PP; [apply (H 0%nat)|apply (H 1%nat)]; cbn; tauto. }
  assert (VJ : (nth 0 j 0 < n)%nat /\ (nth 1 j 0 < n)%nat).
  { inversion V as [|? p ? r Hp Hr]; subst. inversion Hr as [|? q ? r' Hq Hr']; subst. cbn [nth]. now split. }
  assert (M1 : multipole n box dist j <= multipole n box dist [0; 0]%nat).
  { apply M. intros x [<-|[<-|[]]]; cbn [nth]; apply B; tauto. }
  assert (M2 : multipole n box dist [n / 2; n / 2]%nat <= multipole n box dist j).
  { apply M. intros x [<-|[<-|[]]]; cbn [nth]; apply B; tauto. }
  split; [exact M1|]. split; [exact M2|].
  assert (E : Nat.Even n) by now exists k.
  assert (D : forall l l', 0 < l -> l <= l' -> synch_power nu l' <= synch_power nu l).
  { intros l l' HL [H| <-]; [left; apply C108_spectrum; lra|lra]. }
  split; apply D; try assumption; now apply multipole_pos.
Qed.
Print Assumptions C108_order_refuted.
Example C108_order_refuted_sat : exists (n : nat) (box : R) (dist : R) (nu : R) (j : list nat), 0 < box /\ 0 < dist /\ 0 < nu /\ Nat.Even n /\ (0 < n)%nat /\ valid [n; n] j.
Proof. exists 4%nat, 100, 9000, (150 * 10 ^ 6), [1; 3]%nat. repeat split; try lra; try lia. exists 2%nat. lia. repeat constructor; lia. Qed.
Example C108_order_sat : valid [4; 4]%nat [1; 3]%nat /\ multipole 4 100 9000 [1; 3]%nat < multipole 4 100 9000 [0; 0]%nat.
Proof.
  split; [repeat constructor|]. unfold multipole, grid. cbn [nth INR]. pose proof PI_RGT_0. apply Rmult_lt_compat_l; [lra|]. apply sqrt_lt_1_alt. lra.
Qed.

(** * The call *)
(** C108: a seed other than zero fixes the maps whatever was drawn before; with zero the state of the generator decides.
    Each redshift gets its own map from the same draws; a redshift that is an array without axes (a Python int) raises. *)
Theorem C108_call : forall (St : Type) (normals : St -> nat -> R) (seeded : Z -> St) v z_to_cdist n box rseed state,
  (forall zs, galactic_synch_fg normals seeded v z_to_cdist (Array zs) n box rseed state =
     Returned (map (fun z => synch_map v n box (z_to_cdist z) z
        (fun j => normals (if Z.eq_dec rseed 0 then state else seeded rseed) (nth 0 j 0 * n + nth 1 j 0)%nat)
        (fun j => normals (if Z.eq_dec rseed 0 then state else seeded rseed) (n * n + (nth 0 j 0 * n + nth 1 j 0))%nat)) zs)) /\
  (forall z, galactic_synch_fg normals seeded v z_to_cdist (Float z) n box rseed state = galactic_synch_fg normals seeded v z_to_cdist (Array [z]) n box rseed state) /\
  (forall z, galactic_synch_fg normals seeded v z_to_cdist (Scalar z) n box rseed state = Raised "IndexError") /\
  (forall zarg state', rseed <> 0%Z -> galactic_synch_fg normals seeded v z_to_cdist zarg n box rseed state = galactic_synch_fg normals seeded v z_to_cdist zarg n box rseed state') /\
  ((1 < n)%nat -> forall zs : list R, squeezed [n; n; length zs] = if (length zs =? 1)%nat then [n; n] else [n; n; length zs]).
Proof.
  intros St normals seeded v zc n box rseed state.
  assert (ST : start seeded rseed state = if Z.eq_dec rseed 0 then state else seeded rseed).
  { unfold start. destruct (Z.eqb_spec rseed 0); destruct (Z.eq_dec rseed 0); congruence. }
  split; [|split; [|split; [|split]]].
  - intro zs. unfold galactic_synch_fg. rewrite ST. reflexivity.
  - reflexivity.
  - reflexivity.
  - intros zarg state' NZ. unfold galactic_synch_fg, start. destruct (Z.eqb_spec rseed 0); [contradiction|reflexivity].
  - intros N zs. unfold squeezed. cbn [filter]. destruct (Nat.eqb_spec n 1); [lia|]. cbn [negb]. destruct (length zs =? 1)%nat; reflexivity.
Qed.
Print Assumptions C108_call.
(** Draws of different cells, and of the real and imaginary part, are different variates. *)
Theorem C108_draws : forall n j j', valid [n; n] j -> valid [n; n] j' ->
  ((nth 0 j 0 * n + nth 1 j 0 = nth 0 j' 0 * n + nth 1 j' 0)%nat -> j = j') /\ (nth 0 j 0 * n + nth 1 j 0 < n * n)%nat.
Proof.
  intros n j j' V V'. inversion V as [|? p ? r Hp Hr]; subst. inversion Hr as [|? q ? r' Hq Hr']; subst. inversion Hr'; subst.
  inversion V' as [|? p' ? s Hp' Hs]; subst. inversion Hs as [|? q' ? s' Hq' Hs']; subst. inversion Hs'; subst. cbn [nth]. split; [|nia].
  intro E. assert (p = p') by nia. subst p'. assert (q = q') by lia. now subst q'.
Qed.
Print Assumptions C108_draws.
Example C108_draws_sat : exists (n : nat) (j : list nat) (j' : list nat), valid [n; n] j /\ valid [n; n] j'.
Proof. exists 5%nat, [2; 3]%nat, [4; 1]%nat. split; repeat constructor; lia. Qed.
