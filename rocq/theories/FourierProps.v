(** C24: power spectra. *)
From Coq Require Import List Arith ZArith Reals Lra Lia Bool.
From Verif Require Import RLib KGridModel FourierModel FourierSpec FourierProofs.
Import ListNotations.
Local Open Scope R_scope.

Lemma rprod_pos : forall l, Forall (fun x => 0 < x) l -> 0 < rprod l.
Proof. induction 1; simpl; [lra|]. apply Rmult_lt_0_compat; auto. Qed.
Lemma ncells_pos : forall shape, Forall (fun n => (0 < n)%nat) shape -> 0 < ncells shape.
Proof.
  intros shape H. apply rprod_pos. induction H; simpl; constructor; auto. apply lt_0_INR. auto.
Qed.

(** No cell of a power spectrum is negative. *)
Theorem C24_nonneg : forall shape box x i,
  Forall (fun L => 0 < L) box -> 0 <= power_spectrum_nd shape box x i.
Proof.
  intros shape box x i Hb. unfold power_spectrum_nd. apply Rmult_le_pos; [apply pow2_ge_0|].
  unfold ps_scale. pose proof (rprod_pos box Hb).
  apply Rmult_le_pos; [apply pow2_ge_0|]. left. apply Rinv_0_lt_compat. lra.
Qed.
Print Assumptions C24_nonneg.
Example C24_nonneg_sat : exists (box : list R), Forall (fun L => 0 < L) box.
Proof. exists [100; 100; 50]. repeat constructor; lra. Qed.

(** The cross power is symmetric, and the power of a field is its cross power with itself. *)
Theorem C24_cross_symmetric : forall shape box x1 x2 i,
  cross_power_spectrum_nd shape box x1 x2 i = cross_power_spectrum_nd shape box x2 x1 i /\
  cross_power_spectrum_nd shape box x1 x1 i = power_spectrum_nd shape box x1 i.
Proof.
  intros. unfold cross_power_spectrum_nd, power_spectrum_nd. split; [ring|]. rewrite cabs_sq. ring.
Qed.
Print Assumptions C24_cross_symmetric.

(** Parseval: the cross power summed over all modes is the product of the fields summed
    over all cells, times (box volume)/(number of cells). *)
Theorem C24_parseval : forall shape box x1 x2,
  Forall (fun n => (0 < n)%nat) shape -> Forall (fun L => 0 < L) box ->
  sum_over (indices shape) (cross_power_spectrum_nd shape box x1 x2) =
  rprod box / ncells shape * sum_over (indices shape) (fun a => x1 a * x2 a).
Proof.
  intros shape box x1 x2 Hs Hb. unfold sum_over, cross_power_spectrum_nd.
  rewrite rsum_scale_r.
  rewrite (sum_shift shape (fun j => fft_re shape x1 j * fft_re shape x2 j + fft_im shape x1 j * fft_im shape x2 j)).
  rewrite cross_sum. unfold ps_scale.
  pose proof (ncells_pos shape Hs). pose proof (rprod_pos box Hb). field. lra.
Qed.
Print Assumptions C24_parseval.
Example C24_parseval_sat : exists (shape : list nat) (box : list R), (Forall (fun n => (0 < n)%nat) shape) /\ Forall (fun L => 0 < L) box.
Proof. exists [4; 5; 6]%nat, [100; 100; 50]. split; repeat constructor; try lia; lra. Qed.

Theorem C24_parseval_auto : forall shape box x,
  Forall (fun n => (0 < n)%nat) shape -> Forall (fun L => 0 < L) box ->
  sum_over (indices shape) (power_spectrum_nd shape box x) =
  rprod box / ncells shape * sum_over (indices shape) (fun a => x a ^ 2).
Proof.
  intros shape box x Hs Hb.
  assert (E : sum_over (indices shape) (fun a => x a ^ 2) = sum_over (indices shape) (fun a => x a * x a))
    by (apply rsum_ext; intros; ring).
  rewrite E.
  rewrite <- (C24_parseval shape box x x Hs Hb). unfold sum_over. apply rsum_ext.
  intros i _. symmetry. exact (proj2 (C24_cross_symmetric shape box x x i)).
Qed.
Print Assumptions C24_parseval_auto.
Example C24_parseval_auto_sat : exists (shape : list nat) (box : list R), (Forall (fun n => (0 < n)%nat) shape) /\ Forall (fun L => 0 < L) box.
Proof. exists [4; 5; 6]%nat, [100; 100; 50]. split; repeat constructor; try lia; lra. Qed.

(** The sums above run over every valid index exactly once. *)
Theorem C24_all_cells : forall shape,
  NoDup (indices shape) /\ (forall i, In i (indices shape) <-> valid shape i) /\
  INR (length (indices shape)) = ncells shape.
Proof.
  intro shape. split; [apply indices_NoDup|]. split; [apply indices_valid|apply indices_length].
Qed.
Print Assumptions C24_all_cells.

(** A periodic translation of the field changes nothing. *)
Theorem C24_translation_invariant : forall shape box x s i,
  length s = length shape -> valid shape i ->
  power_spectrum_nd shape box (translate shape s x) i = power_spectrum_nd shape box x i.
Proof.
  intros shape box x s i Hs Hi. unfold power_spectrum_nd. f_equal. rewrite !cabs_sq.
  destruct (fft_translate shape x s (shift_sources shape i) Hs) as [E1 E2].
  { apply valid_length, valid_shift. exact Hi. }
  rewrite E1, E2. set (th := 2 * PI * _).
  pose proof (sin2_cos2 th) as T. unfold Rsqr in T.
  transitivity ((fft_re shape x (shift_sources shape i) ^ 2 + fft_im shape x (shift_sources shape i) ^ 2)
                * (sin th * sin th + cos th * cos th)); [ring|rewrite T; ring].
Qed.
Print Assumptions C24_translation_invariant.
Example C24_translation_invariant_sat : exists shape (s i : list nat), length s = length shape /\ valid shape i.
Proof. exists [2; 3]%nat, [1; 4]%nat, [1; 2]%nat. split; [reflexivity|repeat constructor]. Qed.

Lemma mirror_opp : forall shape i, valid shape i ->
  shift_sources shape (mirror shape i) = wrap_opp shape (shift_sources shape i).
Proof.
  induction shape as [|n sh IH]; intros i H; inversion H as [|? k ? t Hk Ht]; subst; [reflexivity|].
  cbn [mirror shift_sources wrap_opp]. f_equal; [|apply IH; exact Ht].
  unfold shift_source. set (h := (n / 2)%nat).
  assert (Hh : (h <= n)%nat) by (apply Nat.div_le_upper_bound; lia).
  rewrite Nat.add_mod_idemp_l by lia.
  set (s := ((k + (n - h)) mod n)%nat).
  assert (Hs : (s < n)%nat) by (apply Nat.mod_upper_bound; lia).
  assert (E : ((h + h + (n - k) + (n - h) + s) mod n = 0)%nat).
  { unfold s. rewrite Nat.add_mod_idemp_r by lia.
    replace (h + h + (n - k) + (n - h) + (k + (n - h)))%nat with (3 * n)%nat by lia.
    apply Nat.mod_mul. lia. }
  apply Nat.mod_divides in E as [q E]; [|lia].
  assert (Q : (1 <= q)%nat) by (destruct q; [lia|lia]).
  replace (h + h + (n - k) + (n - h))%nat with ((n - s) + (q - 1) * n)%nat by nia.
  apply Nat.mod_add. lia.
Qed.

(** The spectrum of a real field is point symmetric about the zero mode. *)
Theorem C24_point_symmetric : forall shape box x i, valid shape i ->
  power_spectrum_nd shape box x (mirror shape i) = power_spectrum_nd shape box x i.
Proof.
  intros shape box x i Hi. unfold power_spectrum_nd. rewrite mirror_opp by exact Hi.
  destruct (fft_opp shape x (shift_sources shape i) (valid_shift _ _ Hi)) as [E1 E2].
  rewrite E1, E2. f_equal. rewrite !cabs_sq. ring.
Qed.
Print Assumptions C24_point_symmetric.
Example C24_point_symmetric_sat : exists (shape : list nat) (i : list nat), valid shape i.
Proof. exists [4; 5; 6]%nat, [3; 1; 5]%nat. repeat constructor; lia. Qed.

(** The zero mode holds the square of the total. *)
Theorem C24_zero_mode : forall shape box x, Forall (fun n => (0 < n)%nat) shape ->
  power_spectrum_nd shape box x (map zero_index shape) =
  sum_over (indices shape) x ^ 2 * ps_scale shape box.
Proof.
  intros shape box x Hs. unfold power_spectrum_nd. f_equal. rewrite cabs_sq.
  assert (Z : forall a, phase shape (shift_sources shape (map zero_index shape)) a = 0).
  { induction Hs as [|n sh Hn Hs IH]; intro a; [reflexivity|]. cbn [map shift_sources phase].
    destruct a as [|ad a]; [reflexivity|]. rewrite IH.
    unfold shift_source, zero_index. assert (n / 2 <= n)%nat by (apply Nat.div_le_upper_bound; lia).
    replace (n / 2 + (n - n / 2))%nat with n by lia. rewrite Nat.mod_same by lia.
    simpl (INR 0). field. apply not_0_INR. lia. }
  unfold fft_re, fft_im, sum_over.
  rewrite (rsum_ext (fun a => x a * cos _) x), (rsum_zero (fun a => x a * sin _)).
  - ring.
  - intros a _. rewrite Z, Rmult_0_r, sin_0. ring.
  - intros a _. rewrite Z, Rmult_0_r, cos_0. ring.
Qed.
Print Assumptions C24_zero_mode.
Example C24_zero_mode_sat : exists (shape : list nat), Forall (fun n => (0 < n)%nat) shape.
Proof. exists [4; 5; 6]%nat. repeat constructor; lia. Qed.

(** Scaling a field scales its power quadratically; the cross power is bilinear. *)
Theorem C24_bilinear : forall shape box x y w c i,
  cross_power_spectrum_nd shape box (fun a => c * x a + y a) w i =
  c * cross_power_spectrum_nd shape box x w i + cross_power_spectrum_nd shape box y w i.
Proof.
  intros. unfold cross_power_spectrum_nd.
  assert (R1 : forall j, fft_re shape (fun a => c * x a + y a) j = c * fft_re shape x j + fft_re shape y j).
  { intro j. unfold fft_re. rewrite <- rsum_scale, <- rsum_plus. apply rsum_ext. intros; ring. }
  assert (R2 : forall j, fft_im shape (fun a => c * x a + y a) j = c * fft_im shape x j + fft_im shape y j).
  { intro j. unfold fft_im.
    replace (c * - rsum (map (fun a => x a * sin (2 * PI * phase shape j a)) (indices shape)) +
             - rsum (map (fun a => y a * sin (2 * PI * phase shape j a)) (indices shape)))
      with (- (c * rsum (map (fun a => x a * sin (2 * PI * phase shape j a)) (indices shape)) +
              rsum (map (fun a => y a * sin (2 * PI * phase shape j a)) (indices shape)))) by ring.
    f_equal. rewrite <- rsum_scale, <- rsum_plus. apply rsum_ext. intros; ring. }
  rewrite R1, R2. ring.
Qed.
Print Assumptions C24_bilinear.

Example C24_sat :
  Forall (fun n => (0 < n)%nat) [2%nat; 3%nat] /\ Forall (fun L => 0 < L) [10; 20] /\
  valid [2%nat; 3%nat] [1%nat; 2%nat] /\ mirror [4%nat; 5%nat] [1%nat; 0%nat] = [3%nat; 4%nat].
Proof.
  split; [repeat constructor|]. split; [repeat constructor; lra|]. split; [|reflexivity].
  repeat constructor.
Qed.
