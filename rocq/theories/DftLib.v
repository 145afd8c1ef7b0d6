(** Inversion of the finite Fourier transform of complex arrays (pairs of real arrays). *)
From Coq Require Import List Arith ZArith Reals Lra Lia Bool Permutation.
From Verif Require Import RLib KGridModel FourierModel FourierSpec FourierProofs.
Import ListNotations.
Local Open Scope R_scope.

Definition angle (s j a : list nat) : R := 2 * PI * phase s j a.
(** [np.fft.ifftn] of P + iQ: its real and imaginary part. *)
Definition ifft_re (s : list nat) (P Q : array) (a : list nat) : R :=
  rsum (map (fun j => P j * cos (angle s j a) - Q j * sin (angle s j a)) (indices s)) / ncells s.
Definition ifft_im (s : list nat) (P Q : array) (a : list nat) : R :=
  rsum (map (fun j => P j * sin (angle s j a) + Q j * cos (angle s j a)) (indices s)) / ncells s.
(** [np.fft.fftn] of P + iQ. *)
Definition cfft_re (s : list nat) (P Q : array) (j : list nat) : R :=
  rsum (map (fun a => P a * cos (angle s j a) + Q a * sin (angle s j a)) (indices s)).
Definition cfft_im (s : list nat) (P Q : array) (j : list nat) : R :=
  rsum (map (fun a => Q a * cos (angle s j a) - P a * sin (angle s j a)) (indices s)).

Lemma phase_sym : forall s j a, phase s j a = phase s a j.
Proof. induction s as [|n s IH]; intros [|x j] [|y a]; try reflexivity. cbn [phase]. rewrite IH. unfold Rdiv. ring. Qed.
Lemma angle_sym : forall s j a, angle s j a = angle s a j.
Proof. intros. unfold angle. rewrite phase_sym. reflexivity. Qed.
Lemma ncells_pos : forall s i, valid s i -> 0 < ncells s.
Proof.
  intros s i H. unfold ncells. induction H as [|n k s i Hk H IH]; cbn; [lra|]. apply Rmult_lt_0_compat; [|exact IH]. apply lt_0_INR. lia.
Qed.
(** Orthogonality over the cells. *)
Lemma cos_orth : forall s j k, valid s j -> valid s k ->
  rsum (map (fun a => cos (angle s j a - angle s k a)) (indices s)) = if list_eqb j k then ncells s else 0.
Proof.
  intros s j k Hj Hk. pose proof (cos_sum s j k 0 Hj Hk) as E. rewrite cos_0 in E.
  rewrite (rsum_ext _ (fun a => cos (0 + 2 * PI * (phase s a j - phase s a k)))).
  - rewrite E. destruct (list_eqb j k); ring.
  - intros a _. f_equal. unfold angle. rewrite (phase_sym s j a), (phase_sym s k a). ring.
Qed.
Lemma sin_orth : forall s j k, valid s j -> valid s k ->
  rsum (map (fun a => sin (angle s j a - angle s k a)) (indices s)) = 0.
Proof.
  intros s j k Hj Hk. pose proof (cos_sum s j k (- (PI / 2)) Hj Hk) as E. rewrite cos_neg, cos_PI2 in E.
  rewrite (rsum_ext _ (fun a => cos (- (PI / 2) + 2 * PI * (phase s a j - phase s a k)))).
  - rewrite E. destruct (list_eqb j k); ring.
  - intros a _. rewrite sin_cos. rewrite <- (cos_neg (- (PI / 2) + _)). rewrite <- cos_neg. unfold angle. rewrite (phase_sym s j a), (phase_sym s k a).
    set (d := 2 * PI * phase s a j - 2 * PI * phase s a k). replace (- (- (PI / 2) + 2 * PI * (phase s a j - phase s a k))) with (PI / 2 - d) by (unfold d; ring).
    rewrite cos_neg, <- sin_cos, cos_shift. reflexivity.
Qed.

Lemma pull_sum : forall s (P : array) (g : list nat -> list nat -> R) c,
  rsum (map (fun a => rsum (map (fun j => P j * g j a) (indices s)) / ncells s * c a) (indices s)) =
  rsum (map (fun j => P j * rsum (map (fun a => g j a * c a) (indices s))) (indices s)) / ncells s.
Proof.
  intros s P g c. unfold Rdiv. rewrite (rsum_ext _ (fun a => rsum (map (fun j => P j * (g j a * c a)) (indices s)) * / ncells s)).
  - rewrite rsum_scale_r. f_equal. rewrite rsum_swap. apply rsum_ext. intros j _. apply rsum_scale.
  - intros a _. rewrite Rmult_assoc, (Rmult_comm (/ ncells s)), <- Rmult_assoc. f_equal. rewrite <- rsum_scale_r. apply rsum_ext. intros. ring.
Qed.
(** fft (ifft (P, Q)) = (P, Q). *)
Lemma cfft_ifft : forall s P Q k, valid s k ->
  cfft_re s (ifft_re s P Q) (ifft_im s P Q) k = P k /\ cfft_im s (ifft_re s P Q) (ifft_im s P Q) k = Q k.
Proof.
  intros s P Q k Hk. pose proof (ncells_pos _ _ Hk) as N.
  assert (SP : forall (X : array), rsum (map (fun j => X j * rsum (map (fun a => cos (angle s j a - angle s k a)) (indices s))) (indices s)) / ncells s = X k).
  { intro X. rewrite (rsum_ext _ (fun j => if list_eqb k j then X j * ncells s else 0)).
    - rewrite (rsum_delta list_eqb (fun j => X j * ncells s)); [field; lra|apply list_eqb_spec|apply indices_NoDup|apply indices_valid; exact Hk].
    - intros j Hj. apply indices_valid in Hj. rewrite cos_orth by assumption. destruct (list_eqb j k) eqn:E1, (list_eqb k j) eqn:E2; try ring.
      + apply list_eqb_spec in E1. subst. rewrite (proj2 (list_eqb_spec k k) eq_refl) in E2. discriminate.
      + apply list_eqb_spec in E2. subst. rewrite (proj2 (list_eqb_spec j j) eq_refl) in E1. discriminate. }
  assert (SQ : forall (X : array), rsum (map (fun j => X j * rsum (map (fun a => sin (angle s j a - angle s k a)) (indices s))) (indices s)) = 0).
  { intro X. apply rsum_zero. intros j Hj. apply indices_valid in Hj. rewrite sin_orth by assumption. ring. }
  unfold cfft_re, cfft_im, ifft_re, ifft_im. split.
  - transitivity ((rsum (map (fun j => P j * rsum (map (fun a => cos (angle s j a - angle s k a)) (indices s))) (indices s)) - rsum (map (fun j => Q j * rsum (map (fun a => sin (angle s j a - angle s k a)) (indices s))) (indices s))) / ncells s).
    2: { rewrite SQ. rewrite Rminus_0_r. apply SP. }
    symmetry. rewrite <- rsum_minus. rewrite (rsum_ext _ (fun j => rsum (map (fun a => P j * cos (angle s j a - angle s k a) - Q j * sin (angle s j a - angle s k a)) (indices s))) (indices s)).
    2: { intros j _. rewrite rsum_minus, !rsum_scale. ring. }
    rewrite rsum_swap. unfold Rdiv. rewrite <- rsum_scale_r. apply rsum_ext. intros a _.
    rewrite <- !rsum_scale_r, <- rsum_plus. apply rsum_ext. intros j _. rewrite cos_minus, sin_minus. ring.
  - transitivity ((rsum (map (fun j => P j * rsum (map (fun a => sin (angle s j a - angle s k a)) (indices s))) (indices s)) + rsum (map (fun j => Q j * rsum (map (fun a => cos (angle s j a - angle s k a)) (indices s))) (indices s))) / ncells s).
    2: { rewrite SQ, Rplus_0_l. apply SP. }
    symmetry. rewrite <- rsum_plus. rewrite (rsum_ext _ (fun j => rsum (map (fun a => P j * sin (angle s j a - angle s k a) + Q j * cos (angle s j a - angle s k a)) (indices s))) (indices s)).
    2: { intros j _. rewrite rsum_plus, !rsum_scale. ring. }
    rewrite rsum_swap. unfold Rdiv. rewrite <- rsum_scale_r. apply rsum_ext. intros a _.
    rewrite <- !rsum_scale_r, <- rsum_minus. apply rsum_ext. intros j _. rewrite cos_minus, sin_minus. ring.
Qed.

(** * The opposite frequency *)
Lemma valid_opp : forall s j, valid s j -> valid s (wrap_opp s j).
Proof. intros s j H. induction H as [|n k s j Hk H IH]; cbn; constructor; [apply Nat.mod_upper_bound; lia|exact IH]. Qed.
Lemma opp_opp_idx : forall s j, valid s j -> wrap_opp s (wrap_opp s j) = j.
Proof.
  intros s j H. induction H as [|n k s j Hk H IH]; cbn; [reflexivity|]. rewrite IH. f_equal. destruct (Nat.eq_dec k 0) as [->|K].
  - rewrite Nat.sub_0_r, Nat.mod_same, Nat.sub_0_r, Nat.mod_same by lia. reflexivity.
  - rewrite (Nat.mod_small (n - k)) by lia. rewrite Nat.mod_small by lia. lia.
Qed.
Lemma sum_opp : forall s (f : list nat -> R), rsum (map (fun j => f (wrap_opp s j)) (indices s)) = rsum (map f (indices s)).
Proof.
  intros s f. rewrite <- (map_map (wrap_opp s) f). apply rsum_perm, Permutation_map. apply NoDup_Permutation.
  - apply NoDup_nth with (d := []). rewrite map_length. intros i j Hi Hj E. rewrite <- (map_nth (wrap_opp s) (indices s)) in E || idtac.
    assert (M : forall l, nth l (map (wrap_opp s) (indices s)) [] = wrap_opp s (nth l (indices s) []) \/ (length (indices s) <= l)%nat).
    { intro l. destruct (lt_dec l (length (indices s))); [left|right; lia]. rewrite (nth_indep _ [] (wrap_opp s [])) by (rewrite map_length; lia). apply map_nth. }
    destruct (M i) as [Ei|]; [|lia]. destruct (M j) as [Ej|]; [|lia]. rewrite Ei, Ej in E. apply (f_equal (wrap_opp s)) in E.
    rewrite !opp_opp_idx in E by (apply indices_valid, nth_In; assumption). apply (proj1 (NoDup_nth (indices s) []) (indices_NoDup s)); assumption.
  - apply indices_NoDup.
  - intro x. rewrite in_map_iff, indices_valid. split.
    + intros [y [<- Hy]]. apply indices_valid in Hy. apply valid_opp. exact Hy.
    + intro H. exists (wrap_opp s x). split; [apply opp_opp_idx; exact H|apply indices_valid, valid_opp; exact H].
Qed.
Lemma angle_opp : forall s j a, valid s j -> length a = length s ->
  cos (angle s (wrap_opp s j) a) = cos (angle s j a) /\ sin (angle s (wrap_opp s j) a) = - sin (angle s j a).
Proof.
  intros s j a Hj La. destruct (phase_opp s j a Hj La) as [k Hk]. unfold angle. rewrite Hk.
  replace (2 * PI * (IZR k - phase s j a)) with (- (2 * PI * phase s j a) + 2 * PI * IZR k) by ring.
  rewrite cos_period_Z, sin_period_Z, cos_neg, sin_neg. auto.
Qed.
(** The real part of an inverse transform is the inverse transform of the Hermitian part. *)
Definition even_part (s : list nat) (P : array) : array := fun j => (P j + P (wrap_opp s j)) / 2.
Definition odd_part (s : list nat) (Q : array) : array := fun j => (Q j - Q (wrap_opp s j)) / 2.
Lemma ifft_hermitian : forall s P Q a, valid s a ->
  ifft_re s (even_part s P) (odd_part s Q) a = ifft_re s P Q a /\ ifft_im s (even_part s P) (odd_part s Q) a = 0.
Proof.
  intros s P Q a Ha. pose proof (valid_length _ _ Ha) as La.
  set (f := fun j => P j * cos (angle s j a) - Q j * sin (angle s j a)). set (g := fun j => P j * sin (angle s j a) + Q j * cos (angle s j a)).
  assert (F : rsum (map (fun j => even_part s P j * cos (angle s j a) - odd_part s Q j * sin (angle s j a)) (indices s)) = rsum (map f (indices s))).
  { rewrite (rsum_ext _ (fun j => / 2 * (f j + f (wrap_opp s j)))).
    - rewrite rsum_scale, rsum_plus, sum_opp. field.
    - intros j Hj. apply indices_valid in Hj. destruct (angle_opp s j a Hj La) as [C S1]. unfold even_part, odd_part, f. rewrite C, S1. field. }
  assert (G : rsum (map (fun j => even_part s P j * sin (angle s j a) + odd_part s Q j * cos (angle s j a)) (indices s)) = 0).
  { rewrite (rsum_ext _ (fun j => / 2 * (g j - g (wrap_opp s j)))).
    - rewrite rsum_scale, rsum_minus, sum_opp. ring.
    - intros j Hj. apply indices_valid in Hj. destruct (angle_opp s j a Hj La) as [C S1]. unfold even_part, odd_part, g. rewrite C, S1. field. }
  split; unfold ifft_re, ifft_im; [rewrite F; reflexivity|rewrite G; unfold Rdiv; ring].
Qed.
(** Hence its transform. *)
Lemma fft_of_real_part : forall s P Q k, valid s k ->
  fft_re s (ifft_re s P Q) k = even_part s P k /\ fft_im s (ifft_re s P Q) k = odd_part s Q k.
Proof.
  intros s P Q k Hk. destruct (cfft_ifft s (even_part s P) (odd_part s Q) k Hk) as [C1 C2]. split.
  - rewrite <- C1. unfold fft_re, cfft_re. apply rsum_ext. intros a Ha. apply indices_valid in Ha. destruct (ifft_hermitian s P Q a Ha) as [-> ->]. unfold angle. ring.
  - rewrite <- C2. unfold fft_im, cfft_im. rewrite <- (Rmult_1_l (- _)), <- Ropp_mult_distr_r, Ropp_mult_distr_l, <- rsum_scale. apply rsum_ext. intros a Ha. apply indices_valid in Ha. destruct (ifft_hermitian s P Q a Ha) as [-> ->]. unfold angle. ring.
Qed.
(** An array is determined by its transform. *)
Lemma ifft_fft : forall s x a, valid s a -> ifft_re s (fft_re s x) (fft_im s x) a = x a.
Proof.
  intros s x a Ha. pose proof (ncells_pos _ _ Ha) as N. unfold ifft_re, fft_re, fft_im.
  rewrite (rsum_ext _ (fun j => rsum (map (fun b => x b * cos (angle s j b - angle s j a)) (indices s)))).
  2: { intros j _. rewrite <- rsum_scale_r. rewrite <- Ropp_mult_distr_l, <- rsum_scale_r. unfold Rminus. rewrite Ropp_involutive, <- rsum_plus. apply rsum_ext. intros b _. fold (Rminus (angle s j b) (angle s j a)). rewrite cos_minus. unfold angle. ring. }
  rewrite rsum_swap. rewrite (rsum_ext _ (fun b => if list_eqb a b then x b * ncells s else 0)).
  - rewrite (rsum_delta list_eqb (fun b => x b * ncells s)); [field; lra|apply list_eqb_spec|apply indices_NoDup|apply indices_valid; exact Ha].
  - intros b Hb. apply indices_valid in Hb. rewrite rsum_scale.
    rewrite (rsum_ext _ (fun j => cos (angle s a j - angle s b j))); [|intros j _; rewrite (angle_sym s j b), (angle_sym s j a), <- cos_neg; f_equal; ring].
    rewrite cos_orth by assumption. destruct (list_eqb a b); ring.
Qed.
Lemma fft_determines : forall s x y, (forall j, valid s j -> fft_re s x j = fft_re s y j /\ fft_im s x j = fft_im s y j) -> forall a, valid s a -> x a = y a.
Proof.
  intros s x y H a Ha. rewrite <- (ifft_fft s x a Ha), <- (ifft_fft s y a Ha). unfold ifft_re. f_equal. apply rsum_ext. intros j Hj. apply indices_valid in Hj. destruct (H j Hj) as [-> ->]. reflexivity.
Qed.
