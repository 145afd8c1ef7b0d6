(** C102: shuffled phases, fields with a measured spectrum, amplitudes and phases. *)
From Coq Require Import List Arith ZArith Reals Lra Lia Bool Permutation Sorting.Sorted.
From Verif Require Import RLib KGridModel FourierModel FourierSpec FourierProofs FourierProps DftLib GrfModel GrfProps SpecModel SpecProps PhaseModel.
Import ListNotations.
Local Open Scope R_scope.

(** * Specification *)
(** The sum of squares of a field. *)
Definition energy (s : list nat) (x : array) : R := rsum (map (fun a => x a ^ 2) (indices s)).
(** The argument of a complex number. *)
Definition argument (ang : R -> R -> R) : Prop := forall re im, cabs re im * cos (ang re im) = re /\ cabs re im * sin (ang re im) = im.
(** Sum of [a/n] over the axes of odd length. *)
Fixpoint odd_turns (s a : list nat) : R := match s, a with n :: s', x :: a' => (if Nat.odd n then INR x / INR n else 0) + odd_turns s' a' | _, _ => 0 end.

(** * Energy *)
Lemma parseval : forall s x, rsum (map (fun j => fft_re s x j ^ 2 + fft_im s x j ^ 2) (indices s)) = ncells s * energy s x.
Proof.
  intros s x. pose proof (cross_sum s x x) as C. unfold energy. rewrite (rsum_ext (fun a => x a ^ 2) (fun a => x a * x a)) by (intros; ring). rewrite <- C. apply rsum_ext. intros. ring.
Qed.
Lemma real_part_energy : forall s P Q, ncells s * energy s (ifft_re s P Q) <= rsum (map (fun j => (P j ^ 2 + Q j ^ 2) / ncells s) (indices s)) * ncells s.
Proof.
  intros s P Q. rewrite <- parseval. rewrite <- rsum_scale_r. destruct (indices s) as [|i0 l0] eqn:E0; [cbn; lra|]. rewrite <- E0. assert (N : 0 < ncells s) by (apply (ncells_pos s i0), indices_valid; rewrite E0; left; reflexivity). clear i0 l0 E0.
  rewrite (rsum_ext (fun x => (P x ^ 2 + Q x ^ 2) / ncells s * ncells s) (fun j => P j ^ 2 + Q j ^ 2)) by (intros; field; lra).
  apply (Rle_trans _ (rsum (map (fun j => / 2 * ((P j ^ 2 + Q j ^ 2) + (P (wrap_opp s j) ^ 2 + Q (wrap_opp s j) ^ 2))) (indices s)))).
  - apply rsum_le. intros j Hj. apply indices_valid in Hj. destruct (fft_of_real_part s P Q j Hj) as [-> ->]. unfold even_part, odd_part. pose proof (pow2_ge_0 (P j - P (wrap_opp s j))). pose proof (pow2_ge_0 (Q j + Q (wrap_opp s j))).
    replace (/ 2 * (P j ^ 2 + Q j ^ 2 + (P (wrap_opp s j) ^ 2 + Q (wrap_opp s j) ^ 2))) with (((P j + P (wrap_opp s j)) / 2) ^ 2 + ((Q j - Q (wrap_opp s j)) / 2) ^ 2 + ((P j - P (wrap_opp s j)) ^ 2 + (Q j + Q (wrap_opp s j)) ^ 2) / 4) by field. lra.
  - rewrite rsum_scale, rsum_plus, (sum_opp s (fun j => P j ^ 2 + Q j ^ 2)). lra.
Qed.
(** For every array and every draw the sum of squares does not grow. *)
Theorem C102_energy : forall ang sigma s x, energy s (fourier_phase_shuffled ang sigma s x) <= energy s x.
Proof.
  intros ang sigma s x. destruct (indices s) as [|i0 l0] eqn:E0; [unfold energy; rewrite E0; cbn; lra|]. assert (N : 0 < ncells s) by (apply (ncells_pos s i0), indices_valid; rewrite E0; left; reflexivity). clear i0 l0 E0.
  unfold fourier_phase_shuffled. cbv zeta. match goal with |- energy s (ifft_re s ?P ?Q) <= _ => pose proof (real_part_energy s P Q) as H end. cbv beta in H. apply (Rmult_le_reg_l (ncells s)); [exact N|]. eapply Rle_trans; [exact H|]. rewrite <- parseval, <- rsum_scale_r.
  set (phi := shuffle_rows sigma _). clearbody phi. clear H.
  rewrite (rsum_ext _ (fun j => (fun i => (fun k => fft_re s x k ^ 2 + fft_im s x k ^ 2) (shift_sources s i)) (shift_sources s j))).
  - rewrite (sum_shift s (fun i => (fun k => fft_re s x k ^ 2 + fft_im s x k ^ 2) (shift_sources s i))). rewrite (sum_shift s (fun k => fft_re s x k ^ 2 + fft_im s x k ^ 2)). apply Rle_refl.
  - intros j _. cbv beta. set (i := shift_sources s j). rewrite !Rpow_mult_distr, <- Rmult_plus_distr_l. replace (cos (phi i) ^ 2 + sin (phi i) ^ 2) with 1 by (rewrite <- !Rsqr_pow2, Rplus_comm, sin2_cos2; reflexivity). rewrite Rmult_1_r, cabs_sq. field. lra.
Qed.
Print Assumptions C102_energy.

(** * Without shuffling *)
Lemma shift_twice : forall s j, valid s j -> shift_sources s (shift_sources s j) = wrap_add s j (map (fun n => n mod 2)%nat s).
Proof.
  induction s as [|n s IH]; intros j H; inversion H as [|? k ? t Hk Ht]; subst; [reflexivity|]. cbn [shift_sources wrap_add map]. f_equal; [|apply IH, Ht]. unfold shift_source. rewrite Nat.add_mod_idemp_l by lia.
  pose proof (Nat.div_mod n 2 ltac:(lia)) as D. set (q := (n / 2)%nat) in *. set (r := (n mod 2)%nat) in *. replace (k + (n - q) + (n - q))%nat with (k + r + 1 * n)%nat by lia. apply Nat.mod_add. lia.
Qed.
Lemma phase_odd : forall s a, length a = length s -> phase s (map (fun n => n mod 2)%nat s) a = odd_turns s a.
Proof.
  induction s as [|n s IH]; intros a L; destruct a as [|x a]; try discriminate; [reflexivity|]. cbn [map phase odd_turns]. rewrite IH by (cbn in L; congruence). f_equal. destruct (Nat.odd n) eqn:O.
  - apply Nat.odd_spec in O. destruct O as [m ->]. replace ((2 * m + 1) mod 2)%nat with 1%nat by (rewrite Nat.add_comm, Nat.mul_comm, Nat.mod_add by lia; reflexivity). cbn [INR]. unfold Rdiv. ring.
  - assert (E : Nat.even n = true) by (rewrite <- Nat.negb_odd, O; reflexivity). apply Nat.even_spec in E. destruct E as [m ->]. replace ((2 * m) mod 2)%nat with 0%nat by (rewrite Nat.mul_comm, Nat.mod_mul by lia; reflexivity). cbn [INR]. unfold Rdiv. ring.
Qed.
Lemma ifft_im_fft : forall s x a, valid s a -> ifft_im s (fft_re s x) (fft_im s x) a = 0.
Proof.
  intros s x a Ha. destruct (ifft_hermitian s (fft_re s x) (fft_im s x) a Ha) as [_ H]. rewrite <- H. unfold ifft_im. f_equal. apply rsum_ext. intros j Hj. apply indices_valid in Hj. destruct (fft_opp s x j Hj) as [A B]. unfold even_part, odd_part. rewrite A, B. field.
Qed.
Lemma ifft_rolled : forall s P Q o a, valid s a -> length o = length s ->
  ifft_re s (fun j => P (wrap_add s j o)) (fun j => Q (wrap_add s j o)) a = ifft_re s P Q a * cos (angle s o a) + ifft_im s P Q a * sin (angle s o a).
Proof.
  intros s P Q o a Ha Lo. pose proof (valid_length _ _ Ha) as La. unfold ifft_re, ifft_im. set (th := angle s o a).
  rewrite (rsum_ext _ (fun j => (fun k => P k * cos (angle s k a - th) - Q k * sin (angle s k a - th)) (wrap_add s j o))).
  2: { intros j Hj. apply indices_valid in Hj. destruct (phase_translate s a j o Hj Lo La) as [k Hk]. assert (E : angle s j a = angle s (wrap_add s j o) a - th + 2 * PI * IZR k).
       { unfold th. rewrite (angle_sym s j a), (angle_sym s (wrap_add s j o) a), (angle_sym s o a). unfold angle. rewrite Hk. ring. }
       rewrite E, cos_period_Z, sin_period_Z. reflexivity. }
  rewrite (sum_translate s o (fun k => P k * cos (angle s k a - th) - Q k * sin (angle s k a - th)) Lo).
  rewrite (rsum_ext _ (fun j => (P j * cos (angle s j a) - Q j * sin (angle s j a)) * cos th + (P j * sin (angle s j a) + Q j * cos (angle s j a)) * sin th)).
  - rewrite rsum_plus, !rsum_scale_r. unfold Rdiv. ring.
  - intros j _. rewrite cos_minus, sin_minus. ring.
Qed.
(** When the draw leaves the phases in place the output is the input times the cosine of the odd axes' turns... *)
Theorem C102_identity : forall ang sigma s x a, argument ang -> (forall i, sigma i = i) -> valid s a -> fourier_phase_shuffled ang sigma s x a = x a * cos (2 * PI * odd_turns s a).
Proof.
  intros ang sigma s x a Arg Id Ha. pose proof (valid_length _ _ Ha) as La. set (o := map (fun n => n mod 2)%nat s). assert (Lo : length o = length s) by (apply map_length).
  transitivity (ifft_re s (fun j => fft_re s x (wrap_add s j o)) (fun j => fft_im s x (wrap_add s j o)) a).
  - unfold fourier_phase_shuffled. cbv zeta. unfold ifft_re. f_equal. apply rsum_ext. intros j Hj. apply indices_valid in Hj. unfold o. rewrite <- (shift_twice s j Hj).
    assert (S1 : forall (phi : array) i, shuffle_rows sigma phi i = phi i) by (intros phi [|y t]; cbn; [reflexivity|rewrite Id; reflexivity]). rewrite !S1. destruct (Arg (fft_re s x (shift_sources s (shift_sources s j))) (fft_im s x (shift_sources s (shift_sources s j)))) as [A B]. rewrite A, B. reflexivity.
  - rewrite (ifft_rolled s (fft_re s x) (fft_im s x) o a Ha Lo), ifft_fft, ifft_im_fft by exact Ha. unfold o, angle. rewrite (phase_odd s a La). ring.
Qed.
Print Assumptions C102_identity.
(** ... so with even sides it is the input. *)
Theorem C102_identity_even : forall ang sigma s x a, argument ang -> (forall i, sigma i = i) -> (forall n, In n s -> Nat.even n = true) -> valid s a -> fourier_phase_shuffled ang sigma s x a = x a.
Proof.
  intros ang sigma s x a Arg Id Ev Ha. rewrite (C102_identity ang sigma s x a Arg Id Ha). replace (odd_turns s a) with 0; [rewrite Rmult_0_r, cos_0; ring|]. revert Ev. clear - Ha. induction Ha as [|n k s i Hk H IH]; intro Ev; [reflexivity|]. cbn [odd_turns].
  rewrite <- IH by (intros; apply Ev; right; assumption). rewrite <- Nat.negb_even, (Ev n (or_introl eq_refl)). cbn. ring.
Qed.
Print Assumptions C102_identity_even.
(** The claim that amplitudes survive is false for odd sides even then: a constant line of three cells comes back as a wave. *)
Theorem C102_odd_refuted : forall ang, argument ang -> fourier_phase_shuffled ang (fun i => i) [3%nat] (fun _ => 1) [1%nat] = - (1 / 2) /\ energy [3%nat] (fourier_phase_shuffled ang (fun i => i) [3%nat] (fun _ => 1)) = 3 / 2.
Proof.
  intros ang Arg. assert (E : forall k, (k < 3)%nat -> fourier_phase_shuffled ang (fun i => i) [3%nat] (fun _ => 1) [k] = cos (2 * PI * (INR k / 3))).
  { intros k Hk. rewrite (C102_identity ang (fun i => i) [3%nat] (fun _ => 1) [k] Arg (fun i => eq_refl)) by (apply Forall2_cons; [exact Hk|apply Forall2_nil]). cbn [odd_turns]. change (Nat.odd 3) with true. cbv iota. change (INR 3) with (1 + 1 + 1). rewrite Rmult_1_l. f_equal. f_equal. lra. }
  assert (C1 : cos (2 * PI * (INR 1 / 3)) = - (1 / 2)). { replace (2 * PI * (INR 1 / 3)) with (PI - PI / 3) by (change (INR 1) with 1; lra). rewrite cos_minus, cos_PI, sin_PI, cos_PI3. ring. }
  assert (C2 : cos (2 * PI * (INR 2 / 3)) = - (1 / 2)). { replace (2 * PI * (INR 2 / 3)) with (PI / 3 + PI) by (change (INR 2) with 2; lra). rewrite neg_cos, cos_PI3. ring. }
  split; [rewrite E by lia; exact C1|]. unfold energy. change (indices [3%nat]) with [[0%nat]; [1%nat]; [2%nat]]. cbn [map rsum fold_right]. rewrite !E by lia. rewrite C1, C2. change (INR 0) with 0. replace (2 * PI * (0 / 3)) with 0 by (unfold Rdiv; ring). rewrite cos_0. lra.
Qed.
Print Assumptions C102_odd_refuted.
(** Only whole rows of phases move: an array whose first axis has length one is never shuffled. *)
Theorem C102_one_row : forall ang sigma s x a, argument ang -> sigma 0%nat = 0%nat -> valid (1%nat :: s) a -> fourier_phase_shuffled ang sigma (1%nat :: s) x a = x a * cos (2 * PI * odd_turns (1%nat :: s) a).
Proof.
  intros ang sigma s x a Arg Id Ha. rewrite <- (C102_identity ang (fun i => i) (1%nat :: s) x a Arg (fun i => eq_refl) Ha). unfold fourier_phase_shuffled. cbv zeta. unfold ifft_re. apply (f_equal (fun v => v / _)). apply rsum_ext. intros j Hj. apply indices_valid in Hj. pose proof (valid_shift _ _ Hj) as V. assert (S1 : forall phi, shuffle_rows sigma phi (shift_sources (1%nat :: s) j) = shuffle_rows (fun i => i) phi (shift_sources (1%nat :: s) j)). { intro phi. revert V. generalize (shift_sources (1%nat :: s) j). intros l V. inversion V as [|? k ? t Hk Ht]. subst. assert (k = 0)%nat by lia. subst k. cbn [shuffle_rows]. rewrite Id. reflexivity. }
  rewrite !S1. reflexivity.
Qed.
Print Assumptions C102_one_row.
(** The argument in (-pi, pi]: the angle function required above exists. *)
Definition np_angle (re im : R) : R := if Rle_dec 0 im then acos (re / cabs re im) else - acos (re / cabs re im).
Theorem C102_argument : argument np_angle.
Proof.
  intros re im. unfold np_angle. pose proof (cabs_sq re im) as E. destruct (Req_dec (cabs re im) 0) as [Z|N].
  - rewrite Z in *. pose proof (pow2_ge_0 re). pose proof (pow2_ge_0 im). assert (re ^ 2 = 0) by lra. assert (im ^ 2 = 0) by lra. assert (re = 0) by (destruct (Req_dec re 0); [assumption|pose proof (pow_nonzero re 2 ltac:(assumption)); lra]). assert (im = 0) by (destruct (Req_dec im 0); [assumption|pose proof (pow_nonzero im 2 ltac:(assumption)); lra]). lra.
  - assert (P : 0 < cabs re im) by (pose proof (sqrt_pos (re ^ 2 + im ^ 2)); unfold cabs in *; lra). set (c := cabs re im) in *. clearbody c. assert (B : -1 <= re / c <= 1).
    { assert (L : re ^ 2 <= c ^ 2) by (pose proof (pow2_ge_0 im); lra). rewrite <- !Rsqr_pow2 in L. apply Rsqr_le_abs_0 in L. rewrite (Rabs_right c) in L by lra. assert (- c <= re <= c) by (apply Rabs_le_inv in L || (unfold Rabs in L; destruct (Rcase_abs re)); lra). split; apply (Rmult_le_reg_r c); try exact P; unfold Rdiv; rewrite ?Rmult_assoc, ?Rinv_l by lra; lra. }
    assert (S2 : sqrt (1 - (re / c)²) * c = Rabs im).
    { replace (1 - (re / c)²) with ((im / c)²).
      - rewrite sqrt_Rsqr_abs. unfold Rdiv. rewrite Rabs_mult, (Rabs_right (/ c)) by (left; apply Rinv_0_lt_compat, P). rewrite Rmult_assoc, Rinv_l by lra. ring.
      - unfold Rsqr. apply (Rmult_eq_reg_r (c ^ 2)); [|apply pow_nonzero, N]. replace (im / c * (im / c) * c ^ 2) with (im ^ 2) by (field; exact N). replace ((1 - re / c * (re / c)) * c ^ 2) with (c ^ 2 - re ^ 2) by (field; exact N). lra. }
    destruct (Rle_dec 0 im) as [Pi|Ni].
    + rewrite cos_acos, sin_acos by exact B. split; [field; exact N|]. rewrite Rmult_comm, S2, Rabs_right; [reflexivity|lra].
    + rewrite cos_neg, sin_neg, cos_acos, sin_acos by exact B. split; [field; exact N|]. rewrite <- Ropp_mult_distr_r, Rmult_comm, S2, Rabs_left by lra. ring.
Qed.
Print Assumptions C102_argument.

(** * Amplitude and phase *)
(** The amplitude is that of the mode; the phase is NaN exactly for a mode that vanishes, lies within a quarter turn of zero, and amplitude and phase give back the
    mode iff its real part is not negative; otherwise they give its opposite. *)
Theorem C102_amplitude_phase : forall s x j, let (r, p) := amplitude_phase s x j in let a := fft_re s x j in let b := fft_im s x j in
  r * r = a * a + b * b /\ 0 <= r /\ (p = None <-> a = 0 /\ b = 0) /\ forall t, p = Some t -> - (PI / 2) <= t <= PI / 2 /\ (0 <= a -> r * cos t = a /\ r * sin t = b) /\ (a < 0 -> r * cos t = - a /\ r * sin t = - b).
Proof.
  intros s x j. unfold amplitude_phase. set (a := fft_re s x j). set (b := fft_im s x j). clearbody a b. cbv beta zeta iota. unfold amplitude, phase_of. pose proof (pow2_ge_0 a) as Pa. pose proof (pow2_ge_0 b) as Pb. set (r := sqrt (a ^ 2 + b ^ 2)). assert (R2 : r * r = a * a + b * b) by (unfold r; rewrite sqrt_sqrt by lra; ring).
  assert (R0 : 0 <= r) by apply sqrt_pos. clearbody r. split; [exact R2|]. split; [exact R0|]. destruct (Req_EM_T a 0) as [-> |Na].
  - destruct (Req_EM_T b 0) as [-> |Nb]; [split; [tauto|discriminate]|]. split; [split; [discriminate|tauto]|]. intros t E. injection E as <-. assert (PI > 0) by apply PI_RGT_0. split; [destruct (Rlt_dec 0 b); lra|]. split; [|lra]. intros _. destruct (Rlt_dec 0 b).
    + rewrite cos_PI2, sin_PI2. split; [ring|]. assert ((r - b) * (r + b) = 0) by lra. apply Rmult_integral in H0. lra.
    + rewrite cos_neg, sin_neg, cos_PI2, sin_PI2. split; [ring|]. assert ((r - b) * (r + b) = 0) by lra. apply Rmult_integral in H0. lra.
  - split; [split; [discriminate|tauto]|]. intros t E. injection E as <-. pose proof (atan_bound (b / a)) as A. split; [lra|]. pose proof (cos_gt_0 (atan (b / a)) ltac:(lra) ltac:(lra)) as C. pose proof (tan_atan (b / a)) as T. unfold tan in T. set (c := cos (atan (b / a))) in *. set (n := sin (atan (b / a))) in *.
    assert (U : n * n + c * c = 1) by (pose proof (sin2_cos2 (atan (b / a))) as U; unfold Rsqr in U; exact U). clearbody c n. assert (N : n * a = b * c). { assert (N : n = b / a * c) by (rewrite <- T; field; lra). rewrite N. field. exact Na. }
    assert (Q : (r * c) * (r * c) = a * a). { replace (r * c * (r * c)) with (r * r * (c * c)) by ring. rewrite R2. replace ((a * a + b * b) * (c * c)) with (a * a * (c * c) + (b * c) * (b * c)) by ring. rewrite <- N. replace (a * a * (c * c) + n * a * (n * a)) with (a * a * (n * n + c * c)) by ring. rewrite U. ring. }
    assert (G : 0 <= r * c) by (apply Rmult_le_pos; lra). assert (D : (r * c - a) * (r * c + a) = 0) by lra. apply Rmult_integral in D. split; intro S0.
    + assert (E : r * c = a) by lra. split; [exact E|]. apply (Rmult_eq_reg_r a); [|exact Na]. replace (r * n * a) with (r * (n * a)) by ring. rewrite N. replace (r * (b * c)) with (b * (r * c)) by ring. rewrite E. reflexivity.
    + assert (E : r * c = - a) by lra. split; [exact E|]. apply (Rmult_eq_reg_r a); [|exact Na]. replace (r * n * a) with (r * (n * a)) by ring. rewrite N. replace (r * (b * c)) with (b * (r * c)) by ring. rewrite E. ring.
Qed.
Print Assumptions C102_amplitude_phase.
(** So the phase does not identify the mode: a field and its opposite have the same amplitudes and phases wherever the real part is not zero. *)
Theorem C102_sign_lost : forall s x j, fft_re s x j <> 0 -> amplitude_phase s (fun a => - x a) j = amplitude_phase s x j.
Proof.
  intros s x j N. assert (A : fft_re s (fun a => - x a) j = - fft_re s x j). { unfold fft_re. rewrite <- (Rmult_1_l (rsum (map (fun a => x a * _) _))), Ropp_mult_distr_l, <- rsum_scale. apply rsum_ext. intros. ring. }
  assert (B : fft_im s (fun a => - x a) j = - fft_im s x j). { unfold fft_im. f_equal. rewrite <- (Rmult_1_l (- rsum _)), <- Ropp_mult_distr_r, Ropp_mult_distr_l, <- rsum_scale. apply rsum_ext. intros. ring. }
  unfold amplitude_phase. rewrite A, B. unfold amplitude, phase_of. f_equal; [f_equal; ring|]. destruct (Req_EM_T (- fft_re s x j) 0); [lra|]. destruct (Req_EM_T (fft_re s x j) 0); [contradiction|]. f_equal. f_equal. field. exact N.
Qed.
Print Assumptions C102_sign_lost.
Example C102_amplitude_phase_sat : fft_re [1%nat] (fun _ => -2) [0%nat] = -2 /\ fft_im [1%nat] (fun _ => -2) [0%nat] = 0.
Proof. unfold fft_re, fft_im. cbn. replace (2 * PI * (0 * 0 / 1 + 0)) with 0 by field. rewrite cos_0, sin_0. lra. Qed.

(** * Fields with a measured spectrum *)
(** The bins that hold modes, as (centre, power). *)
Definition filled (spectrum : list (R * R * nat)) : list (R * R) := map fst (filter (fun b => negb (Nat.eqb (snd b) 0)) spectrum).
Lemma nodes_filled : forall spectrum, map (fun b => (fst (fst b), Some (snd (fst b)))) (filter (fun b => (0 <? snd b)%nat) spectrum) = map (fun p => (fst p, Some (snd p))) (filled spectrum).
Proof.
  intro spectrum. unfold filled. rewrite map_map. f_equal. apply filter_ext. intros ((c, p), n). cbn [snd]. destruct n; reflexivity.
Qed.
Lemma interp_between : forall l1 a pa b pb l2 k, StronglySorted Rlt (map fst (l1 ++ (a, pa) :: (b, pb) :: l2)) -> a <= k <= b ->
  interp (map (fun p => (fst p, Some (snd p))) (l1 ++ (a, pa) :: (b, pb) :: l2)) k = Some (pa + (k - a) / (b - a) * (pb - pa)).
Proof.
  induction l1 as [|(c, pc) l1 IH]; intros a pa b pb l2 k S1 [A B].
  - cbn [app map fst] in S1. inversion S1 as [|? ? S2 F]. subst. inversion F as [|? ? F1 F2]. subst. cbn [app map fst snd interp]. destruct (Req_EM_T k a) as [-> |N]; [f_equal; field; lra|]. destruct (rltb k b) eqn:L.
    + f_equal. field. lra.
    + assert (E : k = b). { assert (~ k < b) by (intro K; apply rltb_true in K; congruence). lra. } subst k. destruct l2 as [|(d, pd) l2]; cbn [map fst snd interp]; [f_equal; field; lra|]. destruct (Req_EM_T b b); [|congruence]. f_equal. field. lra.
  - assert (S2 : StronglySorted Rlt (map fst (l1 ++ (a, pa) :: (b, pb) :: l2))) by (cbn [app map] in S1; inversion S1; assumption). specialize (IH a pa b pb l2 k S2 (conj A B)).
    assert (CA : forall d pd l, l1 ++ (a, pa) :: (b, pb) :: l2 = (d, pd) :: l -> c < d /\ d <= a).
    { intros d pd l E. rewrite <- app_comm_cons in S1. cbn [map fst] in S1. rewrite E in S1. inversion S1 as [|? ? S3 F]. subst. cbn [map fst] in F, S3. inversion F as [|? ? F1 F2]. subst. split; [exact F1|]. destruct l1 as [|(e, pe) l1]; cbn [app] in E; [injection E as <- <- _; lra|]. injection E as <- <- E. subst l. inversion S3 as [|? ? S4 G]. subst. rewrite Forall_forall in G. left. apply G. rewrite map_app. apply in_or_app. right. left. reflexivity. }
    rewrite <- app_comm_cons. cbn [map fst snd]. destruct (l1 ++ (a, pa) :: (b, pb) :: l2) as [|(d, pd) l] eqn:E; [destruct l1; discriminate|]. destruct (CA d pd l eq_refl) as [C1 C2]. cbn [map fst snd] in *. cbn [interp]. cbn [interp] in IH. destruct (Req_EM_T k c); [lra|]. destruct (rltb k d) eqn:L; [apply rltb_true in L; lra|]. exact IH.
Qed.
(** The function is linear between neighbouring filled bins, whatever empty bins lie between, and zero below the first and above the last. *)
Theorem C102_ps_func : forall spectrum k, StronglySorted Rlt (map fst (filled spectrum)) ->
  (forall l1 a pa b pb l2, filled spectrum = l1 ++ (a, pa) :: (b, pb) :: l2 -> a <= k <= b -> ps_func spectrum k = pa + (k - a) / (b - a) * (pb - pa)) /\
  ((forall c p, In (c, p) (filled spectrum) -> k < c) -> ps_func spectrum k = 0) /\ ((forall c p, In (c, p) (filled spectrum) -> c < k) -> ps_func spectrum k = 0).
Proof.
  intros spectrum k S1. unfold ps_func. rewrite nodes_filled. set (f := filled spectrum) in *. clearbody f.
  set (g := fun p : R * R => (fst p, Some (snd p))). assert (La : forall (l : list (R * R)) x, fst (last (map g (x :: l)) (0, None)) = fst (last (x :: l) (0, 0))).
  { clear. induction l as [|y l IH]; intro x; [reflexivity|]. exact (IH y). }
  assert (Il : forall (l : list (R * R)) x, In (last (x :: l) (0, 0)) (x :: l)) by (clear; induction l as [|y l IH]; intro x; [left; reflexivity|right; exact (IH y)]).
  assert (D : forall c l, interp1d (map g (c :: l)) k = if rleb (fst c) k && rleb k (fst (last (c :: l) (0, 0))) then Some (interp (map g (c :: l)) k) else None) by (intros c l; rewrite <- La; reflexivity).
  split; [|split].
  - intros l1 a pa b pb l2 E [A B]. pose proof (interp_between l1 a pa b pb l2 k) as I. rewrite E in S1. specialize (I S1 (conj A B)). rewrite <- E in I. rewrite <- E in S1. fold g in I.
    destruct f as [|(c, pc) f]; [destruct l1; discriminate|]. rewrite D, I. cbn [fst].
    assert (In0 : In (a, pa) ((c, pc) :: f)) by (rewrite E; apply in_or_app; right; left; reflexivity). assert (In1 : In (b, pb) ((c, pc) :: f)) by (rewrite E; apply in_or_app; right; right; left; reflexivity).
    assert (Lo : c <= a). { destruct In0 as [X|X]; [injection X as -> _; lra|]. inversion S1 as [|? ? S2 F]. subst. rewrite Forall_forall in F. left. apply F. apply (in_map fst) in X. exact X. }
    assert (Hi : b <= fst (last ((c, pc) :: f) (0, 0))).
    { clear - S1 In1. assert (G : forall f (c pc : R), StronglySorted Rlt (map fst ((c, pc) :: f)) -> forall x, In x ((c, pc) :: f) -> fst x <= fst (last ((c, pc) :: f) (0, 0))).
      { clear. induction f as [|(d, pd) f IH]; intros c pc S1 x Ix; [destruct Ix as [<- |[]]; cbn; lra|]. change (last ((c, pc) :: (d, pd) :: f) (0, 0)) with (last ((d, pd) :: f) (0, 0)). cbn [map fst] in S1. inversion S1 as [|? ? S2 F]. subst. destruct Ix as [<- |X]; [|exact (IH d pd S2 x X)]. pose proof (IH d pd S2 (d, pd) (or_introl eq_refl)) as Q. cbn [fst] in *. inversion F as [|? ? F1 F2]. subst. lra. }
      exact (G f c pc S1 (b, pb) In1). }
    replace (rleb c k) with true by (symmetry; apply rleb_true; lra). replace (rleb k _) with true by (symmetry; apply rleb_true; lra). reflexivity.
  - intro H. destruct f as [|(c, pc) f]; [reflexivity|]. rewrite D. cbn [fst]. pose proof (H c pc (or_introl eq_refl)). destruct (rleb c k) eqn:L; [apply rleb_true in L; lra|]. reflexivity.
  - intro H. destruct f as [|(c, pc) f]; [reflexivity|]. rewrite D. destruct (rleb k (fst (last ((c, pc) :: f) (0, 0)))) eqn:L; [|rewrite andb_false_r; reflexivity]. exfalso. apply rleb_true in L. pose proof (Il f (c, pc)) as I. destruct (last ((c, pc) :: f) (0, 0)) as (e, pe). specialize (H e pe I). cbn [fst] in L. lra.
Qed.
Print Assumptions C102_ps_func.
(** For every draw, a mode of the field made from a measured spectrum vanishes when its |k| and that of its opposite are out of the range of filled bins. *)
Theorem C102_like_band : forall s box spectrum gs out j, like_field s box spectrum gs = Some out -> valid s j ->
  ps_func spectrum (k_used s box (shift_sources s j)) = 0 -> ps_func spectrum (k_used s box (shift_sources s (wrap_opp s j))) = 0 -> fft_re s out j = 0 /\ fft_im s out j = 0.
Proof.
  intros s box spectrum gs out j H Hj Z1 Z2. unfold like_field, make_gaussian_random_field in H. destruct ((Nat.eqb (length s) 2 || Nat.eqb (length s) 3) && Nat.eqb (length box) (length s))%bool; [|discriminate].
  set (P := fun j => fst gs (shift_sources s j) * sqrt (ps_func spectrum (k_used s box (shift_sources s j)) / ps_scale s box)). set (Q := fun j => snd gs (shift_sources s j) * sqrt (ps_func spectrum (k_used s box (shift_sources s j)) / ps_scale s box)).
  assert (E : out = ifft_re s P Q) by (unfold P, Q; cbn in H; congruence). subst out. destruct (fft_of_real_part s P Q j Hj) as [-> ->]. unfold even_part, odd_part, P, Q. rewrite Z1, Z2. unfold Rdiv. rewrite Rmult_0_l, sqrt_0. split; ring.
Qed.
Print Assumptions C102_like_band.
(** In three dimensions with even sides the field has mean zero for every draw when a tenth of the smallest |k| lies below the first filled bin. *)
Theorem C102_like_mean : forall n1 n2 n3 L1 L2 L3 spectrum gs out, let s := [n1; n2; n3] in let box := [L1; L2; L3] in
  like_field s box spectrum gs = Some out -> (0 < n1)%nat -> (0 < n2)%nat -> (0 < n3)%nat -> Nat.even n1 = true -> Nat.even n2 = true -> Nat.even n3 = true ->
  StronglySorted Rlt (map fst (filled spectrum)) -> (exists x y z, valid s [x; y; z] /\ 0 < get_kmag_3d n1 n2 n3 L1 L2 L3 x y z /\ forall c p, In (c, p) (filled spectrum) -> get_kmag_3d n1 n2 n3 L1 L2 L3 x y z / 10 < c) -> rsum (map out (indices s)) = 0.
Proof.
  intros n1 n2 n3 L1 L2 L3 spectrum gs out s box H P1 P2 P3 E1 E2 E3 Srt (x & y & z & Vx & Kx & Lx). assert (V : valid s [0; 0; 0]%nat) by (unfold s; repeat apply Forall2_cons; try assumption; apply Forall2_nil).
  assert (S0 : shift_sources s [0; 0; 0]%nat = [(n1 / 2)%nat; (n2 / 2)%nat; (n3 / 2)%nat]).
  { assert (K : forall n, (0 < n)%nat -> Nat.even n = true -> shift_source n 0 = (n / 2)%nat). { clear. intros n P E. apply Nat.even_spec in E. destruct E as [m ->]. unfold shift_source. rewrite (Nat.mul_comm 2 m), Nat.div_mul by lia. rewrite Nat.mod_small by lia. lia. }
    unfold s. cbn [shift_sources]. rewrite !K by assumption. reflexivity. }
  assert (O0 : wrap_opp s [0; 0; 0]%nat = [0; 0; 0]%nat) by (unfold s; cbn [wrap_opp]; rewrite !Nat.sub_0_r, !Nat.mod_same by lia; reflexivity).
  assert (Lo : forall c p, In (c, p) (filled spectrum) -> k_used s box [(n1 / 2)%nat; (n2 / 2)%nat; (n3 / 2)%nat] < c).
  { intros c p I. specialize (Lx c p I). apply (Rle_lt_trans _ (get_kmag_3d n1 n2 n3 L1 L2 L3 x y z / 10)); [|exact Lx]. unfold k_used. assert (C0 : grid_k s box [(n1 / 2)%nat; (n2 / 2)%nat; (n3 / 2)%nat] = 0).
    { assert (K : forall n L, Nat.even n = true -> get_k_3d n L (n / 2) = 0). { clear. intros n L E. apply Nat.even_spec in E. destruct E as [m ->]. unfold get_k_3d, k_component, center_3d. replace ((2 * m) mod 2)%nat with 0%nat by (rewrite Nat.mul_comm; symmetry; apply Nat.mod_mul; lia). cbn [Nat.eqb]. rewrite (Nat.mul_comm 2 m), Nat.div_mul by lia. rewrite mult_INR. change (INR 2) with 2. unfold Rdiv. replace (INR m - INR m * 2 * / 2) with 0 by field. ring. }
      unfold grid_k, s, box, get_kmag_3d, kmag. rewrite !K by assumption. replace (0 ^ 2 + 0 ^ 2 + 0 ^ 2) with 0 by ring. apply sqrt_0. }
    rewrite C0. cbv zeta. unfold is_zero at 1. destruct (Req_EM_T 0 0); [|congruence]. apply Rmult_le_compat_r; [lra|]. assert (LL : forall l v, In v l -> GrfModel.least l <= v).
    { clear. intros [|w l] v Iv; [destruct Iv|]. cbn [GrfModel.least]. assert (G : forall r, fold_right Rmin w r <= w /\ forall u, In u r -> fold_right Rmin w r <= u). { clear. induction r as [|u r IHr]; [split; [cbn; lra|intros u []]|]. destruct IHr as [A B]. cbn [fold_right]. split; [eapply Rle_trans; [apply Rmin_r|exact A]|]. intros t [<- |It]; [apply Rmin_l|eapply Rle_trans; [apply Rmin_r|apply B, It]]. } destruct Iv as [<- |Iv]; [exact (proj1 (G l))|exact (proj2 (G l) v Iv)]. }
    apply LL, filter_In. split; [apply in_map_iff; exists [x; y; z]; split; [reflexivity|apply indices_valid, Vx]|]. unfold is_zero. destruct (Req_EM_T _ 0); [lra|reflexivity]. }
  assert (Z : ps_func spectrum (k_used s box (shift_sources s [0; 0; 0]%nat)) = 0) by (rewrite S0; apply (proj1 (proj2 (C102_ps_func spectrum _ Srt))), Lo).
  destruct (C102_like_band s box spectrum gs out [0; 0; 0]%nat H V Z) as [F _]; [rewrite O0; exact Z|]. rewrite <- F. unfold fft_re. apply rsum_ext. intros a Ha.
  assert (Ph : phase s [0; 0; 0]%nat a = 0). { unfold s. destruct a as [|a1 [|a2 [|a3 a]]]; cbn [phase]; change (INR 0) with 0; unfold Rdiv; ring. } rewrite Ph, Rmult_0_r, cos_0. ring.
Qed.
Print Assumptions C102_like_mean.
Example C102_spectrum_sat : filled [(1, 5, 3%nat); (2, 0, 0%nat); (3, 4, 7%nat)] = [(1, 5); (3, 4)] /\ ps_func [(1, 5, 3%nat); (2, 0, 0%nat); (3, 4, 7%nat)] 2 = 9 / 2 /\ ps_func [(1, 5, 3%nat); (2, 0, 0%nat); (3, 4, 7%nat)] 4 = 0.
Proof.
  split; [reflexivity|]. assert (S1 : StronglySorted Rlt (map fst (filled [(1, 5, 3%nat); (2, 0, 0%nat); (3, 4, 7%nat)]))) by (cbn; repeat constructor; lra). split.
  - rewrite (proj1 (C102_ps_func _ 2 S1) [] 1 5 3 4 []); [lra|reflexivity|lra].
  - apply (C102_ps_func _ 4 S1). intros c p I. cbn in I. destruct I as [E|[E|[]]]; injection E as <- <-; lra.
Qed.
