(** C82: foregrounds and wedge filters. *)
From Coq Require Import List Arith ZArith Reals Lra Lia Bool.
From Verif Require Import RLib KGridModel FourierModel FourierSpec FourierProofs FourierProps DftLib UvSmoothModel UvSmoothProps ForegroundModel.
Import ListNotations.
Local Open Scope R_scope.

(** * Point sources *)
(** The temperature of the last source in a cell. *)
Fixpoint last_in (srcs : list (nat * nat * R)) (a b : nat) : option R :=
  match srcs with [] => None | (x, y, t) :: r => match last_in r a b with Some v => Some v | None => if (Nat.eqb a x && Nat.eqb b y)%bool then Some t else None end end.
Definition sources_in (srcs : list (nat * nat * R)) (a b : nat) : list R := map snd (filter (fun '(x, y, _) => (Nat.eqb a x && Nat.eqb b y)%bool) srcs).
Theorem C82_sources : forall srcs a b, point_sources srcs a b = match last_in srcs a b with Some t => t | None => 0 end.
Proof.
  intros srcs a b. unfold point_sources. assert (G : forall img, fold_left put srcs img a b = match last_in srcs a b with Some t => t | None => img a b end); [|apply G].
  induction srcs as [|[[x y] t] r IH]; intro img; [reflexivity|]. cbn [fold_left last_in]. rewrite IH. destruct (last_in r a b); [reflexivity|]. unfold put. destruct (Nat.eqb a x && Nat.eqb b y)%bool; reflexivity.
Qed.
Print Assumptions C82_sources.
(** The map carries the sum of the sources of each cell when no two sources share a cell... *)
Theorem C82_sources_distinct : forall srcs a b, NoDup (map fst srcs) -> point_sources srcs a b = rsum (sources_in srcs a b).
Proof.
  intros srcs a b N. rewrite C82_sources. unfold sources_in. induction srcs as [|[[x y] t] r IH]; [reflexivity|]. cbn [map] in N. inversion N as [|? ? N1 N2]; subst. specialize (IH N2). cbn [last_in filter].
  destruct (Nat.eqb a x && Nat.eqb b y)%bool eqn:E; [|destruct (last_in r a b); exact IH].
  apply andb_true_iff in E. destruct E as [E1 E2]. apply Nat.eqb_eq in E1, E2. subst x y. assert (Z0 : filter (fun '(x, y, _) => (Nat.eqb a x && Nat.eqb b y)%bool) r = []).
  { clear IH N N2. induction r as [|[[x y] u] r IHr]; [reflexivity|]. cbn [filter]. destruct (Nat.eqb a x && Nat.eqb b y)%bool eqn:E; [exfalso; apply N1; apply andb_true_iff in E; destruct E as [E1 E2]; apply Nat.eqb_eq in E1, E2; subst; left; reflexivity|]. apply IHr. intro I. apply N1. right. exact I. }
  assert (L0 : last_in r a b = None). { clear IH N N2 Z0. induction r as [|[[x y] u] r IHr]; [reflexivity|]. cbn [last_in]. rewrite IHr by (intro I; apply N1; right; exact I). destruct (Nat.eqb a x && Nat.eqb b y)%bool eqn:E; [exfalso; apply N1; apply andb_true_iff in E; destruct E as [E1 E2]; apply Nat.eqb_eq in E1, E2; subst; left; reflexivity|reflexivity]. }
  rewrite L0, Z0. cbn. ring.
Qed.
Print Assumptions C82_sources_distinct.
Example C82_sources_distinct_sat : exists srcs : list ((nat * nat) * R), NoDup (map fst srcs).
Proof. exists [((1%nat, 2%nat), 3); ((2%nat, 1%nat), 3)]. repeat constructor; cbn; intuition congruence. Qed.
(** ... and otherwise loses the earlier ones. *)
Theorem C82_sources_refuted : exists srcs a b, point_sources srcs a b <> rsum (sources_in srcs a b).
Proof. exists [((0, 0)%nat, 1); ((0, 0)%nat, 2)], 0%nat, 0%nat. cbn. lra. Qed.
Print Assumptions C82_sources_refuted.

(** * The filter *)
Theorem C82_gaussian_is_step : forall n box mu km i j k, diabolo Gaussian n box mu km i j k = diabolo Step n box mu km i j k.
Proof. intros. unfold diabolo, weight. destruct (Rle_dec _ km); reflexivity. Qed.
Print Assumptions C82_gaussian_is_step.
(** A mode is kept iff its transverse wavenumber exceeds both the cone and the smallest baseline. *)
Theorem C82_step : forall mu km k2 kpp, (weight Step mu km k2 kpp = 1 <-> Rabs kpp * (1 - mu ^ 2) / mu < k2 /\ km < k2) /\ (weight Step mu km k2 kpp = 1 \/ weight Step mu km k2 kpp = 0).
Proof. intros. unfold weight. destruct (Rle_dec k2 km); destruct (Rle_dec k2 (Rabs kpp * (1 - mu ^ 2) / mu)); split; try (left; lra); try (right; lra); split; intros; lra. Qed.
Print Assumptions C82_step.
(** The sigmoid lies strictly between 0 and 1 above the smallest baseline, is one half on the cone and rises with the transverse wavenumber. *)
Theorem C82_sigmoid : forall mu km k2 k2' kpp, km < k2 <= k2' -> 0 < weight Sigmoid mu km k2 kpp < 1 /\ weight Sigmoid mu km k2 kpp <= weight Sigmoid mu km k2' kpp /\ (k2 = Rabs kpp * (1 - mu ^ 2) / mu -> weight Sigmoid mu km k2 kpp = 1 / 2).
Proof.
  intros mu km k2 k2' kpp H. unfold weight. destruct (Rle_dec k2 km); [lra|]. destruct (Rle_dec k2' km); [lra|]. set (c := Rabs kpp * (1 - mu ^ 2) / mu).
  pose proof (exp_pos (10 * (k2 - c))) as E1. assert (E2 : exp (10 * (k2 - c)) <= exp (10 * (k2' - c))). { destruct (Rle_lt_or_eq_dec k2 k2' (proj2 H)) as [L|L]; [left; apply exp_increasing; lra|rewrite L; lra]. }
  set (e := exp (10 * (k2 - c))) in *. set (e' := exp (10 * (k2' - c))) in *. split; [|split].
  - assert (0 < 1 / (1 + e) < 1); [|lra]. split; [apply Rdiv_lt_0_compat; lra|]. apply (Rmult_lt_reg_r (1 + e)); [lra|]. unfold Rdiv. rewrite Rmult_assoc, Rinv_l by lra. lra.
  - apply Rplus_le_compat_l, Ropp_le_contravar. unfold Rdiv. rewrite !Rmult_1_l. apply Rinv_le_contravar; lra.
  - intro Q. unfold e. rewrite Q. replace (10 * (c - c)) with 0 by ring. rewrite exp_0. lra.
Qed.
Print Assumptions C82_sigmoid.
Example C82_sigmoid_sat : exists (km : R) (k2 : R) (k2' : R), km < k2 <= k2'.
Proof. exists 1, 2, 3. repeat split; first [lra | lia | reflexivity | discriminate | congruence | auto]. Qed.
(** A larger [mu] never removes more. The removed cone lies inside the directions with cosine at least [mu], strictly for 0 < mu < 1. *)
Theorem C82_cone : forall mu mu' km k2 kpp, 0 < mu <= mu' -> mu' <= 1 -> weight Step mu km k2 kpp <= weight Step mu' km k2 kpp.
Proof.
  intros mu mu' km k2 kpp H H'. unfold weight. destruct (Rle_dec k2 km); [lra|]. assert (C : Rabs kpp * (1 - mu' ^ 2) / mu' <= Rabs kpp * (1 - mu ^ 2) / mu).
  { unfold Rdiv. rewrite !Rmult_assoc. apply Rmult_le_compat_l; [apply Rabs_pos|]. apply Rmult_le_compat; [nra|left; apply Rinv_0_lt_compat; lra|nra|apply Rinv_le_contravar; lra]. }
  destruct (Rle_dec k2 (Rabs kpp * (1 - mu ^ 2) / mu)); destruct (Rle_dec k2 (Rabs kpp * (1 - mu' ^ 2) / mu')); lra.
Qed.
Print Assumptions C82_cone.
Theorem C82_cone_inside : forall mu k2 kpp, 0 < mu < 1 -> 0 <= k2 -> kpp <> 0 -> k2 <= Rabs kpp * (1 - mu ^ 2) / mu -> mu < Rabs kpp / sqrt (k2 ^ 2 + kpp ^ 2).
Proof.
  intros mu k2 kpp M K Z0 H. assert (A : 0 < Rabs kpp) by (apply Rabs_pos_lt, Z0). assert (Q : kpp ^ 2 = Rabs kpp ^ 2) by (rewrite <- (pow2_abs kpp); reflexivity). rewrite Q. set (a := Rabs kpp) in *.
  assert (P : 0 < k2 ^ 2 + a ^ 2) by nra. pose proof (sqrt_lt_R0 _ P) as SP. apply (Rmult_lt_reg_r (sqrt (k2 ^ 2 + a ^ 2))); [exact SP|]. unfold Rdiv. rewrite Rmult_assoc, Rinv_l, Rmult_1_r by lra.
  apply (Rsqr_incrst_0 (mu * sqrt (k2 ^ 2 + a ^ 2)) a); [|apply Rmult_le_pos; lra|lra]. unfold Rsqr. replace (mu * sqrt (k2 ^ 2 + a ^ 2) * (mu * sqrt (k2 ^ 2 + a ^ 2))) with (mu * mu * (sqrt (k2 ^ 2 + a ^ 2) * sqrt (k2 ^ 2 + a ^ 2))) by ring. rewrite sqrt_sqrt by lra.
  assert (B : k2 * mu <= a * (1 - mu ^ 2)). { replace (a * (1 - mu ^ 2)) with (a * (1 - mu ^ 2) / mu * mu) by (field; lra). apply Rmult_le_compat_r; lra. }
  assert (B2 : (k2 * mu) * (k2 * mu) <= (a * (1 - mu ^ 2)) * (a * (1 - mu ^ 2))) by (apply Rmult_le_compat; nra).
  assert (Q1 : 0 < mu ^ 2 < 1) by nra. set (q := mu ^ 2) in *. assert (T : (1 - q) * (1 - q) < 1 - q) by nra. assert (AA : 0 < a * a) by nra. assert (W : a * a * ((1 - q) * (1 - q)) < a * a * (1 - q)) by (apply Rmult_lt_compat_l; assumption).
  assert (MQ : mu * mu = q) by (unfold q; ring). rewrite MQ. replace (k2 * mu * (k2 * mu)) with (k2 ^ 2 * (mu * mu)) in B2 by ring. rewrite MQ in B2. nra.
Qed.
Print Assumptions C82_cone_inside.
Example C82_cone_inside_sat : exists mu k2 kpp, 0 < mu < 1 /\ 0 <= k2 /\ kpp <> 0 /\ k2 <= Rabs kpp * (1 - mu ^ 2) / mu.
Proof. exists (3/5), 1, (-1). repeat split; try lra. rewrite Rabs_left by lra. lra. Qed.
(** The wavenumber used for signed frequency f: the grid is stretched by n/(n-1) and, for even n, displaced by half a mode. *)
Theorem C82_wavenumbers : forall n box f, (2 <= n)%nat -> 0 < box -> (- Z.of_nat (n / 2) <= f <= Z.of_nat n - 1 - Z.of_nat (n / 2))%Z ->
  let i := Z.to_nat (f + Z.of_nat (n / 2)) in k0 n box i = 2 * PI / box * (INR n / (INR n - 1)) * (IZR f + if Nat.even n then 1 / 2 else 0).
Proof.
  intros n box f Hn Hb F i. unfold k0, i. rewrite (INR_IZR_INZ (Z.to_nat _)), Z2Nat.id by lia. rewrite plus_IZR, minus_INR by lia. cbn [INR]. assert (N1 : INR n - 1 <> 0). { assert (2 <= INR n) by (change 2 with (INR 2); apply le_INR; exact Hn). lra. }
  rewrite <- INR_IZR_INZ. assert (H : INR (n / 2) = if Nat.even n then INR n / 2 else (INR n - 1) / 2).
  { destruct (Nat.even n) eqn:E.
    - apply Nat.even_spec in E. destruct E as [m ->]. rewrite Nat.mul_comm, Nat.div_mul by lia. rewrite mult_INR. cbn [INR]. field.
    - assert (O : Nat.odd n = true) by (rewrite <- Nat.negb_even, E; reflexivity). apply Nat.odd_spec in O. destruct O as [m ->]. replace ((2 * m + 1) / 2)%nat with m by (rewrite Nat.mul_comm, Nat.div_add_l by lia; cbn; lia). rewrite plus_INR, mult_INR. cbn [INR]. field. }
  rewrite H. destruct (Nat.even n); field; repeat split; lra.
Qed.
Print Assumptions C82_wavenumbers.
Example C82_wavenumbers_sat : exists n box f, (2 <= n)%nat /\ 0 < box /\ (- Z.of_nat (n / 2) <= f <= Z.of_nat n - 1 - Z.of_nat (n / 2))%Z.
Proof. exists 5%nat, 100, (-2)%Z. cbn. repeat split; lra || lia. Qed.
(** Which arrays the filters accept. *)
Theorem C82_accepts : forall ncells array, (exists n, diabolo_size ncells array = Some n) <-> exists a b c, array = Some (a, b, c) /\ (a <= c)%nat /\ (b <= c)%nat.
Proof.
  intros ncells [[[a b] c]|]; [|split; [intros [n H]; discriminate|intros (a & b & c & H & _); discriminate]]. unfold diabolo_size. split.
  - intros [n H]. exists a, b, c. destruct (c <? Nat.max a (Nat.max b c))%nat eqn:E; [discriminate|]. apply Nat.ltb_ge in E. repeat split; lia.
  - intros (a' & b' & c' & E & A & B). injection E as -> -> ->. destruct (c' <? Nat.max a' (Nat.max b' c'))%nat eqn:E; [apply Nat.ltb_lt in E; lia|eauto].
Qed.
Print Assumptions C82_accepts.
Theorem C82_image_accepts : forall a b c, (0 < a)%nat -> (0 < b)%nat -> (0 < c)%nat -> wedge_accepts (a, b, c) = true <-> (a = c \/ a = 1%nat) /\ (b = c \/ b = 1%nat).
Proof.
  intros a b c A B C. unfold wedge_accepts, diabolo_size, broadcasts. destruct (c <? Nat.max a (Nat.max b c))%nat eqn:E.
  - apply Nat.ltb_lt in E. split; [discriminate|]. intros [X Y]. lia.
  - apply Nat.ltb_ge in E. replace (Nat.max a (Nat.max b c)) with c by lia. rewrite !andb_true_iff, !orb_true_iff, !Nat.eqb_eq. split; [tauto|]. intros [X Y]. auto.
Qed.
Print Assumptions C82_image_accepts.
Example C82_image_accepts_sat : exists (a : nat) (b : nat) (c : nat), (0 < a)%nat /\ (0 < b)%nat /\ (0 < c)%nat.
Proof. exists 4%nat, 5%nat, 6%nat. repeat split; first [lra | lia | reflexivity | discriminate | congruence | auto]. Qed.
Theorem C82_barrel_never : forall ncells array n v, barrel ncells array = Some (n, v) -> n = 1%nat /\ v = 0.
Proof. intros ncells [[[a b] c]|] n v H; [|discriminate]. unfold barrel in H. destruct (Nat.eqb _ 1); [injection H as <- <-; auto|discriminate]. Qed.
Print Assumptions C82_barrel_never.

(** * Filtering an image *)
Lemma shift_twice_even : forall s i, Forall (fun n => Nat.even n = true /\ (0 < n)%nat) s -> valid s i -> shift_sources s (shift_sources s i) = i.
Proof.
  intros s i E V. induction V as [|n k s i Hk V IH]; [reflexivity|]. inversion E as [|? ? [E1 P1] E2]; subst. cbn [shift_sources]. rewrite IH by exact E2. f_equal. unfold shift_source. apply Nat.even_spec in E1. destruct E1 as [m ->].
  replace (2 * m / 2)%nat with m by (rewrite Nat.mul_comm, Nat.div_mul; lia). replace (2 * m - m)%nat with m by lia. rewrite Nat.add_mod_idemp_l by lia. replace (k + m + m)%nat with (k + 1 * (2 * m))%nat by lia. rewrite Nat.mod_add by lia. apply Nat.mod_small, Hk.
Qed.
(** For even sizes each mode is multiplied by the mean of the filter at the mode and at its opposite. *)
Theorem C82_even : forall s filt x j, Forall (fun n => Nat.even n = true /\ (0 < n)%nat) s -> valid s j -> let g := (filt (shift_sources s j) + filt (shift_sources s (wrap_opp s j))) / 2 in
  fft_re s (remove_wedge s filt x) j = g * fft_re s x j /\ fft_im s (remove_wedge s filt x) j = g * fft_im s x j.
Proof.
  intros s filt x j E V g. assert (Q : forall a, remove_wedge s filt x a = filter_modes s (fun j => filt (shift_sources s j)) x a).
  { intro a. unfold remove_wedge, filter_modes, ifft_re. f_equal. apply rsum_ext. intros i I. apply indices_valid in I. rewrite (shift_twice_even s i E I). reflexivity. }
  assert (R1 : fft_re s (remove_wedge s filt x) j = fft_re s (filter_modes s (fun j => filt (shift_sources s j)) x) j) by (unfold fft_re; apply rsum_ext; intros a _; rewrite Q; reflexivity).
  assert (R2 : fft_im s (remove_wedge s filt x) j = fft_im s (filter_modes s (fun j => filt (shift_sources s j)) x) j) by (unfold fft_im; f_equal; apply rsum_ext; intros a _; rewrite Q; reflexivity).
  rewrite R1, R2. apply (filter_fft s (fun j => filt (shift_sources s j)) x j V).
Qed.
Print Assumptions C82_even.
(** So an all-pass filter leaves an image of even size alone... *)
Theorem C82_even_identity : forall s x a, Forall (fun n => Nat.even n = true /\ (0 < n)%nat) s -> valid s a -> remove_wedge s (fun _ => 1) x a = x a.
Proof.
  intros s x a E V. revert a V. apply fft_determines. intros j V. destruct (C82_even s (fun _ => 1) x j E V) as [-> ->]. split; field.
Qed.
Print Assumptions C82_even_identity.
Example C82_even_sat : Forall (fun n => Nat.even n = true /\ (0 < n)%nat) [4; 4; 4]%nat.
Proof. repeat constructor. Qed.
(** ... but a mode whose opposite is treated differently is halved instead of kept or removed. *)
Theorem C82_halved : exists box mu dist small_base, 0 < box /\ 0 < mu < 1 /\ 0 < dist /\ 0 < small_base /\ exists j, valid [4; 4; 4]%nat j /\
  forall x, fft_re [4; 4; 4]%nat (remove_wedge [4; 4; 4]%nat (as_array (diabolo Step 4 box mu (kmin dist small_base))) x) j = / 2 * fft_re [4; 4; 4]%nat x j.
Proof.
  exists 1, (3 / 5), 1000000, 40. split; [lra|]. split; [lra|]. split; [lra|]. split; [lra|]. exists [0; 0; 1]%nat. split; [repeat constructor|]. intro x.
  assert (E : Forall (fun n => Nat.even n = true /\ (0 < n)%nat) [4; 4; 4]%nat) by (repeat constructor). assert (V : valid [4; 4; 4]%nat [0; 0; 1]%nat) by (repeat constructor).
  rewrite (proj1 (C82_even _ _ x _ E V)). f_equal.
  change (shift_sources [4; 4; 4]%nat [0; 0; 1]%nat) with [2; 2; 3]%nat. change (shift_sources [4; 4; 4]%nat (wrap_opp [4; 4; 4]%nat [0; 0; 1]%nat)) with [2; 2; 1]%nat. unfold as_array. cbn [nth].
  assert (P : 3 < PI) by (pose proof PI_4; pose proof PI2_3_2; lra). assert (P4 := PI_4).
  assert (K1 : k0 4 1 1 = - (4 / 3) * PI) by (unfold k0; cbn [INR Nat.sub]; field). assert (K2 : k0 4 1 2 = 4 / 3 * PI) by (unfold k0; cbn [INR Nat.sub]; field). assert (K3 : k0 4 1 3 = 4 * PI) by (unfold k0; cbn [INR Nat.sub]; field).
  unfold diabolo. rewrite K1, K2, K3. set (k2 := sqrt ((4 / 3 * PI) ^ 2 + (4 / 3 * PI) ^ 2)).
  assert (S2 : k2 * k2 = 2 * (4 / 3 * PI) ^ 2) by (unfold k2; rewrite sqrt_sqrt by nra; ring). assert (S0 : 0 <= k2) by apply sqrt_pos.
  assert (L1 : 4 / 3 * PI * (7 / 5) < k2) by (apply Rsqr_incrst_0; unfold Rsqr; nra). assert (L2 : k2 < 4 / 3 * PI * (3 / 2)) by (apply Rsqr_incrst_0; unfold Rsqr; nra).
  assert (KM : kmin 1000000 40 < k2). { unfold kmin. replace (PI / (1000000 * (21 / 40 / 100))) with (PI * (4000 / 21000000)) by field. lra. }
  assert (A1 : Rabs (- (4 / 3) * PI) = 4 / 3 * PI) by (replace (- (4 / 3) * PI) with (- (4 / 3 * PI)) by ring; rewrite Rabs_Ropp; apply Rabs_right; lra). assert (A3 : Rabs (4 * PI) = 4 * PI) by (apply Rabs_right; lra).
  assert (W1 : weight Step (3 / 5) (kmin 1000000 40) k2 (- (4 / 3) * PI) = 1). { apply C82_step. rewrite A1. split; [|exact KM]. replace (4 / 3 * PI * (1 - (3 / 5) ^ 2) / (3 / 5)) with (4 / 3 * PI * (16 / 15)) by field. lra. }
  assert (W3 : weight Step (3 / 5) (kmin 1000000 40) k2 (4 * PI) = 0). { unfold weight. rewrite A3. destruct (Rle_dec k2 (kmin 1000000 40)); [reflexivity|]. destruct (Rle_dec k2 (4 * PI * (1 - (3 / 5) ^ 2) / (3 / 5))) as [_|N]; [reflexivity|]. exfalso. apply N. replace (4 * PI * (1 - (3 / 5) ^ 2) / (3 / 5)) with (4 * PI * (16 / 15)) by field. lra. }
  rewrite W1, W3. field.
Qed.
Print Assumptions C82_halved.

(** For odd sizes the two shifts do not cancel: even an all-pass filter modulates the image by a wave. *)
Fixpoint fractions (s a : list nat) : R := match s, a with n :: s', k :: a' => INR k / INR n + fractions s' a' | _, _ => 0 end.
Lemma shift_twice_odd : forall s j a, Forall (fun n => Nat.even n = false) s -> valid s j -> length a = length s ->
  exists m, phase s j a = phase s (shift_sources s (shift_sources s j)) a - fractions s a + IZR m.
Proof.
  intros s j a E V. revert a. induction V as [|n k s j Hk V IH]; intros a L.
  - destruct a; [|discriminate]. exists 0%Z. cbn. ring.
  - destruct a as [|b a]; [discriminate|]. inversion E as [|? ? E1 E2]; subst. destruct (IH E2 a) as [m Hm]; [cbn in L; lia|]. cbn [phase shift_sources fractions]. rewrite Hm.
    assert (O : Nat.odd n = true) by (rewrite <- Nat.negb_even, E1; reflexivity). apply Nat.odd_spec in O. destruct O as [q Hq].
    assert (SS : shift_source n (shift_source n k) = ((k + 1) mod n)%nat). { unfold shift_source. replace (n / 2)%nat with q by (rewrite Hq, Nat.mul_comm, Nat.div_add_l by lia; cbn; lia). rewrite Nat.add_mod_idemp_l by lia. replace (k + (n - q) + (n - q))%nat with (k + 1 + 1 * n)%nat by lia. apply Nat.mod_add. lia. }
    rewrite SS. assert (N0 : INR n <> 0) by (apply not_0_INR; lia). destruct (Nat.eq_dec (k + 1) n) as [Q|Q].
    + rewrite Q, Nat.mod_same by lia. exists (m + Z.of_nat b)%Z. rewrite plus_IZR, <- INR_IZR_INZ. replace (INR k) with (INR n - 1) by (rewrite <- Q, plus_INR; cbn [INR]; ring). cbn [INR]. field. exact N0.
    + rewrite Nat.mod_small by lia. exists m. rewrite plus_INR. cbn [INR]. field. exact N0.
Qed.
Theorem C82_odd : forall s x a, Forall (fun n => Nat.even n = false) s -> valid s a -> remove_wedge s (fun _ => 1) x a = x a * cos (2 * PI * fractions s a).
Proof.
  intros s x a E V. unfold remove_wedge. pose proof (valid_length _ _ V) as L. set (phi := 2 * PI * fractions s a). set (u := fun j => fft_re s x j * cos (angle s j a) - fft_im s x j * sin (angle s j a)). set (v := fun j => fft_re s x j * sin (angle s j a) + fft_im s x j * cos (angle s j a)).
  set (h := fun j => cos phi * u j + sin phi * v j).
  assert (K : forall j, valid s j -> fft_re s x (shift_sources s (shift_sources s j)) * 1 * cos (angle s j a) - fft_im s x (shift_sources s (shift_sources s j)) * 1 * sin (angle s j a) = h (shift_sources s (shift_sources s j))).
  { intros j J. destruct (shift_twice_odd s j a E J L) as [m Hm]. unfold h, u, v. set (j2 := shift_sources s (shift_sources s j)) in *.
    assert (C : cos (angle s j a) = cos (angle s j2 a) * cos phi + sin (angle s j2 a) * sin phi). { unfold angle. rewrite Hm. replace (2 * PI * (phase s j2 a - fractions s a + IZR m)) with (2 * PI * phase s j2 a - phi + 2 * PI * IZR m) by (unfold phi; ring). rewrite cos_period_Z, cos_minus. reflexivity. }
    assert (S1 : sin (angle s j a) = sin (angle s j2 a) * cos phi - cos (angle s j2 a) * sin phi). { unfold angle. rewrite Hm. replace (2 * PI * (phase s j2 a - fractions s a + IZR m)) with (2 * PI * phase s j2 a - phi + 2 * PI * IZR m) by (unfold phi; ring). rewrite sin_period_Z, sin_minus. reflexivity. }
    rewrite C, S1. ring. }
  unfold ifft_re. rewrite (rsum_ext _ (fun j => h (shift_sources s (shift_sources s j)))); [|intros j J; apply indices_valid in J; apply K, J].
  assert (SH : forall f : list nat -> R, rsum (map (fun j => f (shift_sources s j)) (indices s)) = rsum (map f (indices s))) by (intro f; apply sum_shift).
  rewrite (SH (fun j => h (shift_sources s j))), SH. unfold h. rewrite rsum_plus, !rsum_scale.
  assert (U : rsum (map u (indices s)) / ncells s = x a) by (apply (ifft_fft s x a V)).
  assert (W : rsum (map v (indices s)) / ncells s = 0).
  { destruct (ifft_hermitian s (fft_re s x) (fft_im s x) a V) as [_ H0]. rewrite <- H0. unfold ifft_im. f_equal. apply rsum_ext. intros j J. apply indices_valid in J. destruct (fft_opp s x j J) as [E1 E2]. unfold even_part, odd_part, v. rewrite E1, E2. replace ((fft_re s x j + fft_re s x j) / 2) with (fft_re s x j) by field. replace ((fft_im s x j - - fft_im s x j) / 2) with (fft_im s x j) by field. reflexivity. }
  unfold Rdiv in *. rewrite Rmult_plus_distr_r, !Rmult_assoc, U, W. ring.
Qed.
Print Assumptions C82_odd.
Example C82_odd_sat : exists s a, (Forall (fun n => Nat.even n = false) s) /\ valid s a.
Proof. exists [5; 3]%nat, [4; 0]%nat. split; repeat constructor. Qed.
Theorem C82_odd_refuted : forall n, Nat.even n = false -> (3 <= n)%nat -> exists a, valid [n; n; n] a /\ remove_wedge [n; n; n] (fun _ => 1) (fun _ => 1) a < 1.
Proof.
  intros n E Hn. exists [1; 0; 0]%nat. assert (V : valid [n; n; n] [1; 0; 0]%nat) by (repeat constructor; lia). split; [exact V|]. rewrite C82_odd; [|repeat constructor; exact E|exact V]. cbn [fractions INR]. replace (1 / INR n + (0 / INR n + (0 / INR n + 0))) with (1 / INR n) by (unfold Rdiv; ring). rewrite Rmult_1_l.
  assert (N : 3 <= INR n) by (replace 3 with (INR 3) by (cbn; ring); apply le_INR, Hn). assert (P := PI_RGT_0). assert (B : 0 < 2 * PI * (1 / INR n) <= PI). { split; [apply Rmult_lt_0_compat; [lra|apply Rdiv_lt_0_compat; lra]|]. apply (Rmult_le_reg_r (INR n)); [lra|]. replace (2 * PI * (1 / INR n) * INR n) with (2 * PI) by (field; lra). nra. }
  pose proof (cos_decreasing_1 0 (2 * PI * (1 / INR n)) ltac:(lra) ltac:(lra) ltac:(lra) ltac:(lra) ltac:(lra)) as C. rewrite cos_0 in C. exact C.
Qed.
Print Assumptions C82_odd_refuted.
Example C82_odd_refuted_sat : exists (n : nat), Nat.even n = false /\ (3 <= n)%nat.
Proof. exists 5%nat. repeat split; first [lra | lia | reflexivity | discriminate | congruence | auto]. Qed.
