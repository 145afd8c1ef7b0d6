(** C83: rolling wedge removal. *)
From Coq Require Import List Arith ZArith Reals Lra Lia Bool.
From Verif Require Import RLib KGridModel FourierModel FourierSpec FourierProofs FourierProps DftLib UvSmoothModel UvSmoothProps RollModel.
Import ListNotations.
Local Open Scope R_scope.

(** * Specification *)
(** The channels around s in the window of c channels, tapered; channels outside the light cone are empty. *)
Definition tapered (nz c : nat) (lc : cone) (s : nat) : array := fun i => match i with
  | [a; b; t] => let z := (Z.of_nat s - Z.of_nat (c / 2) + Z.of_nat t)%Z in blackman c t * (if ((0 <=? z) && (z <? Z.of_nat nz))%Z%bool then lc (Z.to_nat z) [a; b] else 0)
  | _ => 0 end.
(** Distance from the origin of the transverse frequency, in units of the fundamental one. *)
Definition transverse (n u v : nat) : R := sqrt (IZR (signed n u) ^ 2 + IZR (signed n v) ^ 2).
(** A mode lies outside the wedge and its buffer. *)
Definition outside (n c : nat) (mf : R) (p u v q : nat) : Prop := transverse n u v / INR n * mf + (INR p - 1) / INR c < Rabs (IZR (signed c q)) / INR c.

(** * The two-step transform is the transform of the tapered chunk *)
Lemma sum3 : forall a b c f, rsum (map f (indices [a; b; c])) = rsum (map (fun i => rsum (map (fun j => rsum (map (fun k => f [i; j; k]) (seq 0 c))) (seq 0 b))) (seq 0 a)).
Proof.
  intros a b c f. rewrite rsum_indices_cons. apply rsum_ext. intros i _. rewrite rsum_indices_cons. apply rsum_ext. intros j _. rewrite rsum_indices_cons. apply rsum_ext. intros k _. cbn. ring.
Qed.
Lemma sum2 : forall a b f, rsum (map f (indices [a; b])) = rsum (map (fun i => rsum (map (fun j => f [i; j]) (seq 0 b))) (seq 0 a)).
Proof. intros a b f. rewrite rsum_indices_cons. apply rsum_ext. intros i _. rewrite rsum_indices_cons. apply rsum_ext. intros j _. cbn. ring. Qed.
Lemma padded_slice : forall n nz c lc s t u v, (t < c)%nat -> let z := (Z.of_nat s - Z.of_nat (c / 2) + Z.of_nat t)%Z in
  let sl := fun i => if ((0 <=? z) && (z <? Z.of_nat nz))%Z%bool then lc (Z.to_nat z) i else 0 in
  padded_re n nz c lc (s + c - c / 2 + t) [u; v] = fft_re [n; n] sl [u; v] /\ padded_im n nz c lc (s + c - c / 2 + t) [u; v] = fft_im [n; n] sl [u; v].
Proof.
  intros n nz c lc s t u v Ht z sl. assert (C2 : (c / 2 <= c)%nat) by (apply Nat.div_le_upper_bound; lia). unfold padded_re, padded_im.
  destruct ((0 <=? z) && (z <? Z.of_nat nz))%Z%bool eqn:E.
  - apply andb_true_iff in E. destruct E as [E1 E2]. apply Z.leb_le in E1. apply Z.ltb_lt in E2. unfold z in E1, E2.
    assert (A : ((c <=? s + c - c / 2 + t) && (s + c - c / 2 + t <? c + nz))%nat%bool = true) by (apply andb_true_iff; split; [apply Nat.leb_le|apply Nat.ltb_lt]; lia). rewrite A.
    assert (Z0 : (s + c - c / 2 + t - c)%nat = Z.to_nat z) by (unfold z; lia). rewrite Z0. split; reflexivity.
  - assert (A : ((c <=? s + c - c / 2 + t) && (s + c - c / 2 + t <? c + nz))%nat%bool = false).
    { apply andb_false_iff in E. apply andb_false_iff. unfold z in E. destruct E as [E|E]; [left; apply Z.leb_gt in E; apply Nat.leb_gt|right; apply Z.ltb_ge in E; apply Nat.ltb_ge]; lia. }
    rewrite A. split; [unfold fft_re|unfold fft_im; rewrite <- Ropp_0; f_equal]; symmetry; apply rsum_zero; intros; unfold sl; ring.
Qed.
Lemma chunk_is_fft : forall n nz c lc s u v q, chunk_re n nz c lc s [u; v; q] = fft_re [n; n; c] (tapered nz c lc s) [u; v; q] /\ chunk_im n nz c lc s [u; v; q] = fft_im [n; n; c] (tapered nz c lc s) [u; v; q].
Proof.
  intros n nz c lc s u v q.
  set (y := fun (t : nat) (i : list nat) => if ((0 <=? Z.of_nat s - Z.of_nat (c / 2) + Z.of_nat t) && (Z.of_nat s - Z.of_nat (c / 2) + Z.of_nat t <? Z.of_nat nz))%Z%bool then lc (Z.to_nat (Z.of_nat s - Z.of_nat (c / 2) + Z.of_nat t)) i else 0).
  assert (X : forall (g : nat -> nat -> nat -> R), rsum (map (fun a => rsum (map (fun b => rsum (map (fun t => g a b t) (seq 0 c))) (seq 0 n))) (seq 0 n)) = rsum (map (fun t => rsum (map (fun a => rsum (map (fun b => g a b t) (seq 0 n))) (seq 0 n))) (seq 0 c))).
  { intro g. rewrite (rsum_ext _ (fun a => rsum (map (fun t => rsum (map (fun b => g a b t) (seq 0 n))) (seq 0 c)))); [apply rsum_swap|]. intros a _. apply rsum_swap. }
  assert (PH : forall a b t, phase [n; n; c] [u; v; q] [a; b; t] = phase [n; n] [u; v] [a; b] + INR q * INR t / INR c) by (intros; cbn [phase]; ring).
  split.
  - unfold fft_re. rewrite sum3, X. cbn [chunk_re]. apply rsum_ext. intros t Ht. apply in_seq in Ht. pose proof (padded_slice n nz c lc s t u v ltac:(lia)) as PS. cbv zeta in PS. fold (y t) in PS. destruct PS as [-> ->]. unfold fft_re, fft_im. rewrite !sum2.
    etransitivity; [|symmetry; apply (rsum_ext _ (fun a => blackman c t * cos (theta c q t) * rsum (map (fun b => y t [a; b] * cos (2 * PI * phase [n; n] [u; v] [a; b])) (seq 0 n)) + - (blackman c t * sin (theta c q t)) * rsum (map (fun b => y t [a; b] * sin (2 * PI * phase [n; n] [u; v] [a; b])) (seq 0 n))))].
    + rewrite rsum_plus, !rsum_scale. ring.
    + intros a _. rewrite <- !rsum_scale, <- rsum_plus. apply rsum_ext. intros b _. rewrite PH. rewrite Rmult_plus_distr_l, cos_plus. unfold tapered, y, theta. ring.
  - unfold fft_im. rewrite sum3, X. cbn [chunk_im]. symmetry. rewrite <- (Rmult_1_l (rsum _)), Ropp_mult_distr_l, <- rsum_scale. symmetry. apply rsum_ext. intros t Ht. apply in_seq in Ht. pose proof (padded_slice n nz c lc s t u v ltac:(lia)) as PS. cbv zeta in PS. fold (y t) in PS. destruct PS as [-> ->]. unfold fft_re, fft_im. rewrite !sum2.
    etransitivity; [|apply f_equal; symmetry; apply (rsum_ext _ (fun a => ( blackman c t * cos (theta c q t) * rsum (map (fun b => y t [a; b] * sin (2 * PI * phase [n; n] [u; v] [a; b])) (seq 0 n)) + blackman c t * sin (theta c q t) * rsum (map (fun b => y t [a; b] * cos (2 * PI * phase [n; n] [u; v] [a; b])) (seq 0 n)))))].
    + rewrite rsum_plus, !rsum_scale. ring.
    + intros a _. rewrite <- !rsum_scale, <- rsum_plus. apply rsum_ext. intros b _. rewrite PH. rewrite Rmult_plus_distr_l, sin_plus. unfold tapered, y, theta. ring.
Qed.
(** Each channel is the middle of its tapered neighbourhood after removing modes; only channels within half a chunk matter. *)
Theorem C83_channel : forall n nz c d mf p lc s a b, (a < n)%nat -> (b < n)%nat -> (0 < c)%nat ->
  channel n nz c d mf p lc s a b = filter_modes [n; n; c] (mask n c d (mf (redshift_index nz c s)) p) (tapered nz c lc s) [a; b; (c / 2)%nat].
Proof.
  intros n nz c d mf p lc s a b A B C. unfold channel, filter_modes, ifft_re. f_equal. apply rsum_ext. intros j J. apply indices_valid in J.
  inversion J as [|? u ? j1 Hu J1]; subst. inversion J1 as [|? v ? j2 Hv J2]; subst. inversion J2 as [|? q ? j3 Hq J3]; subst. inversion J3; subst.
  destruct (chunk_is_fft n nz c lc s u v q) as [-> ->]. reflexivity.
Qed.
Print Assumptions C83_channel.
Example C83_channel_sat : exists n c a b, (a < n)%nat /\ (b < n)%nat /\ (0 < c)%nat.
Proof. exists 5%nat, 4%nat, 4%nat, 0%nat. lia. Qed.
Theorem C83_local : forall n nz c d mf p lc lc' s a b, (a < n)%nat -> (b < n)%nat -> (0 < c)%nat ->
  (forall z x, (s <= z + c / 2)%nat -> (z < s + (c - c / 2))%nat -> (z < nz)%nat -> lc z x = lc' z x) -> channel n nz c d mf p lc s a b = channel n nz c d mf p lc' s a b.
Proof.
  intros n nz c d mf p lc lc' s a b A B C H. rewrite !C83_channel by assumption. unfold filter_modes, ifft_re. f_equal. apply rsum_ext. intros j J.
  assert (T : forall i, In i (indices [n; n; c]) -> tapered nz c lc s i = tapered nz c lc' s i).
  { intros i I. apply indices_valid in I. inversion I as [|? u ? j1 Hu J1]; subst. inversion J1 as [|? v ? j2 Hv J2]; subst. inversion J2 as [|? q ? j3 Hq J3]; subst. inversion J3; subst. unfold tapered. cbv zeta. destruct ((0 <=? Z.of_nat s - Z.of_nat (c / 2) + Z.of_nat q) && (Z.of_nat s - Z.of_nat (c / 2) + Z.of_nat q <? Z.of_nat nz))%Z%bool eqn:E; [|reflexivity]. apply andb_true_iff in E. destruct E as [E1 E2]. apply Z.leb_le in E1. apply Z.ltb_lt in E2. rewrite H by lia. reflexivity. }
  assert (F1 : fft_re [n; n; c] (tapered nz c lc s) j = fft_re [n; n; c] (tapered nz c lc' s) j) by (unfold fft_re; apply rsum_ext; intros i I; rewrite (T i I); reflexivity).
  assert (F2 : fft_im [n; n; c] (tapered nz c lc s) j = fft_im [n; n; c] (tapered nz c lc' s) j) by (unfold fft_im; f_equal; apply rsum_ext; intros i I; rewrite (T i I); reflexivity).
  rewrite F1, F2. reflexivity.
Qed.
Print Assumptions C83_local.
Example C83_local_sat : exists (n nz c : nat) (lc lc' : cone) (s a b : nat), (a < n)%nat /\ (b < n)%nat /\ (0 < c)%nat /\ (forall z x, (s <= z + c / 2)%nat -> (z < s + (c - c / 2))%nat -> (z < nz)%nat -> lc z x = lc' z x) /\ lc 0%nat <> lc' 0%nat.
Proof. exists 5%nat, 9%nat, 4%nat, (fun _ _ => 1), (fun z _ => if Nat.eqb z 0 then 2 else 1), 6%nat, 0%nat, 0%nat. repeat split; try lia. intros z x A B C. destruct z; [cbn in A; lia|reflexivity]. intro E. apply (f_equal (fun f => f [])) in E. cbn in E. lra. Qed.

(** * Which modes are kept *)
Lemma signed_0 : forall c, (0 < c)%nat -> signed c 0 = 0%Z.
Proof. intros c C. unfold signed. destruct (2 * 0 <? c)%nat eqn:E; [reflexivity|apply Nat.ltb_ge in E; lia]. Qed.
Lemma signed_1 : forall c, (3 <= c)%nat -> signed c 1 = 1%Z.
Proof. intros c C. unfold signed. destruct (2 * 1 <? c)%nat eqn:E; [reflexivity|apply Nat.ltb_ge in E; lia]. Qed.
Lemma k_perp_scaled : forall n d u v, 0 < d -> (0 < n)%nat -> k_perp n d u v = transverse n u v / INR n / d.
Proof.
  intros n d u v D N. assert (P : 0 < INR n) by (apply lt_0_INR, N). unfold k_perp, transverse. replace ((IZR (signed n u) / (INR n * d)) ^ 2 + (IZR (signed n v) / (INR n * d)) ^ 2) with ((IZR (signed n u) ^ 2 + IZR (signed n v) ^ 2) * (/ (INR n * d) * / (INR n * d))) by (field; split; lra).
  assert (0 < INR n * d) by (apply Rmult_lt_0_compat; assumption). rewrite sqrt_mult_alt by nra. rewrite sqrt_square by (left; apply Rinv_0_lt_compat; assumption). field. split; lra.
Qed.
(** A mode is kept iff it lies outside the wedge and its buffer: the cell size has no effect. *)
Theorem C83_keeps : forall n c d mf p u v q, 0 < d -> (0 < n)%nat -> (3 <= c)%nat -> 0 <= mf -> (1 <= p)%nat -> keeps n c d mf p u v q = true <-> outside n c mf p u v q.
Proof.
  intros n c d mf p u v q D N C M P. assert (PN : 0 < INR n) by (apply lt_0_INR, N). assert (PC : 0 < INR c) by (apply lt_0_INR; lia). assert (PP : 1 <= INR p) by (change 1 with (INR 1); apply le_INR, P).
  set (T := transverse n u v). assert (T0 : 0 <= T) by apply sqrt_pos. set (A := T / INR n * mf + (INR p - 1) / INR c).
  assert (A0 : 0 <= A). { unfold A. assert (0 <= T / INR n) by (apply Rmult_le_pos; [exact T0|left; apply Rinv_0_lt_compat, PN]). assert (0 <= (INR p - 1) / INR c) by (apply Rmult_le_pos; [lra|left; apply Rinv_0_lt_compat, PC]). nra. }
  set (B := IZR (signed c q) / INR c). assert (KQ : k_par c d q = B / d) by (unfold k_par, B; field; lra).
  assert (DEN : k_perp n d u v * mf + (k_par c d 1 - k_par c d 0) * (INR p - 1) = A / d). { rewrite k_perp_scaled by assumption. fold T. unfold k_par. rewrite signed_0, signed_1 by lia. unfold A. field. repeat split; lra. }
  assert (AB : Rabs (IZR (signed c q)) / INR c = Rabs B). { unfold B, Rdiv. rewrite Rabs_mult, (Rabs_right (/ INR c)); [reflexivity|left; apply Rinv_0_lt_compat, PC]. }
  unfold outside. fold T. fold A. rewrite AB. unfold keeps. rewrite DEN, KQ.
  assert (DI : 0 < / d) by (apply Rinv_0_lt_compat, D).
  destruct (Req_EM_T (A / d) 0) as [E|E].
  - assert (A = 0). { apply (Rmult_eq_reg_r (/ d)); [|lra]. rewrite Rmult_0_l. exact E. } destruct (Req_EM_T (B / d) 0) as [F|F].
    + assert (B = 0). { apply (Rmult_eq_reg_r (/ d)); [|lra]. rewrite Rmult_0_l. exact F. } split; [discriminate|]. rewrite H0, Rabs_R0. lra.
    + split; [|reflexivity]. intros _. rewrite H. apply Rabs_pos_lt. intro Z0. apply F. rewrite Z0. unfold Rdiv. ring.
  - assert (AP : 0 < A). { destruct A0 as [A0|A0]; [exact A0|]. exfalso. apply E. rewrite <- A0. unfold Rdiv. ring. }
    replace (B / d / (A / d)) with (B / A) by (field; lra). assert (BA : B / A * A = B) by (field; lra).
    destruct (Rlt_dec (B / A) (-1)) as [L|L].
    + split; [|reflexivity]. intros _. assert (B < - A) by nra. rewrite Rabs_left by lra. lra.
    + destruct (Rlt_dec 1 (B / A)) as [L'|L'].
      * split; [|reflexivity]. intros _. assert (A < B) by nra. rewrite Rabs_right by lra. lra.
      * split; [discriminate|]. intro H. exfalso. assert (- A <= B) by nra. assert (B <= A) by nra. unfold Rabs in H. destruct (Rcase_abs B); lra.
Qed.
Print Assumptions C83_keeps.
Example C83_keeps_sat : exists (n c p : nat) (d mf : R), 0 < d /\ (0 < n)%nat /\ (3 <= c)%nat /\ 0 <= mf /\ (1 <= p)%nat.
Proof. exists 5%nat, 4%nat, 2%nat, (1/2), 3. repeat split; lra || lia. Qed.
(** Modes without structure along the line of sight are always removed; the others without transverse structure iff within the buffer. *)
Theorem C83_flat_removed : forall n c d mf p u v, 0 < d -> (0 < n)%nat -> (3 <= c)%nat -> 0 <= mf -> (1 <= p)%nat -> keeps n c d mf p u v 0 = false.
Proof.
  intros n c d mf p u v D N C M P. apply not_true_iff_false. rewrite C83_keeps by assumption. unfold outside. rewrite signed_0, Rabs_R0 by lia. intro H.
  assert (PN : 0 < INR n) by (apply lt_0_INR, N). assert (PC : 0 < INR c) by (apply lt_0_INR; lia). assert (PP : 1 <= INR p) by (change 1 with (INR 1); apply le_INR, P).
  assert (0 <= transverse n u v / INR n) by (apply Rmult_le_pos; [apply sqrt_pos|left; apply Rinv_0_lt_compat, PN]). assert (0 <= (INR p - 1) / INR c) by (apply Rmult_le_pos; [lra|left; apply Rinv_0_lt_compat, PC]). unfold Rdiv in H at 3. rewrite Rmult_0_l in H. nra.
Qed.
Print Assumptions C83_flat_removed.
Example C83_flat_removed_sat : exists (n c p : nat) (d mf : R), 0 < d /\ (0 < n)%nat /\ (3 <= c)%nat /\ 0 <= mf /\ (1 <= p)%nat.
Proof. exists 5%nat, 4%nat, 2%nat, (1/2), 3. repeat split; lra || lia. Qed.
(** A steeper wedge removes at least as much. *)
Theorem C83_monotone : forall n c d mf mf' p p' u v q, 0 < d -> (0 < n)%nat -> (3 <= c)%nat -> 0 <= mf <= mf' -> (1 <= p <= p')%nat -> keeps n c d mf' p' u v q = true -> keeps n c d mf p u v q = true.
Proof.
  intros n c d mf mf' p p' u v q D N C M P H. rewrite C83_keeps in * by (assumption || lra || lia). unfold outside in *. assert (PN : 0 < INR n) by (apply lt_0_INR, N). assert (PC : 0 < INR c) by (apply lt_0_INR; lia).
  assert (0 <= transverse n u v / INR n) by (apply Rmult_le_pos; [apply sqrt_pos|left; apply Rinv_0_lt_compat, PN]). assert (INR p <= INR p') by (apply le_INR; lia).
  assert ((INR p - 1) / INR c <= (INR p' - 1) / INR c) by (apply Rmult_le_compat_r; [left; apply Rinv_0_lt_compat, PC|lra]). nra.
Qed.
Print Assumptions C83_monotone.
Example C83_monotone_sat : exists n c d mf mf' p p' u v q, 0 < d /\ (0 < n)%nat /\ (3 <= c)%nat /\ 0 <= mf <= mf' /\ (1 <= p <= p')%nat /\ keeps n c d mf' p' u v q = true.
Proof. exists 4%nat, 8%nat, 1, 0, 2, 1%nat, 2%nat, 0%nat, 0%nat, 3%nat. repeat split; try lra; try lia. unfold keeps. cbv zeta. unfold k_perp, k_par. replace (sqrt _) with 0 by (cbn; replace (_ * _ + _) with 0 by field; symmetry; apply sqrt_0). cbn [signed Nat.ltb Nat.leb Nat.mul Nat.add]. cbn. destruct (Req_EM_T _ 0) as [E|E]; [exfalso; lra|]. destruct (Rlt_dec _ (-1)); [reflexivity|]. destruct (Rlt_dec 1 _) as [|N]; [reflexivity|]. exfalso. apply N. lra. Qed.
Lemma signed_opp : forall n k, (k < n)%nat -> Rabs (IZR (signed n ((n - k) mod n))) = Rabs (IZR (signed n k)).
Proof.
  intros n k K. destruct k as [|k]; [rewrite Nat.sub_0_r, Nat.mod_same by lia; reflexivity|]. rewrite (Nat.mod_small (n - S k)) by lia. unfold signed. destruct (Nat.ltb_spec (2 * (n - S k)) n) as [E|E]; destruct (Nat.ltb_spec (2 * S k) n) as [F|F].
  - lia.
  - rewrite <- Rabs_Ropp, <- opp_IZR. f_equal. f_equal. lia.
  - rewrite <- Rabs_Ropp, <- opp_IZR. f_equal. f_equal. lia.
  - f_equal. f_equal. lia.
Qed.
Lemma mask_opp : forall n c d mf p j, 0 < d -> (0 < n)%nat -> (3 <= c)%nat -> 0 <= mf -> (1 <= p)%nat -> valid [n; n; c] j -> mask n c d mf p (wrap_opp [n; n; c] j) = mask n c d mf p j.
Proof.
  intros n c d mf p j D N C M P J. inversion J as [|? u ? j1 Hu J1]; subst. inversion J1 as [|? v ? j2 Hv J2]; subst. inversion J2 as [|? q ? j3 Hq J3]; subst. inversion J3; subst. cbn [wrap_opp mask].
  assert (E : keeps n c d mf p ((n - u) mod n) ((n - v) mod n) ((c - q) mod c) = keeps n c d mf p u v q); [|rewrite E; reflexivity].
  apply eq_true_iff_eq. rewrite !C83_keeps by assumption. unfold outside, transverse. rewrite (signed_opp c q) by exact Hq. rewrite <- (pow2_abs (IZR (signed n ((n - u) mod n)))), <- (pow2_abs (IZR (signed n ((n - v) mod n)))), !signed_opp, !pow2_abs by assumption. reflexivity.
Qed.
(** In the cleaned chunk each mode is exactly kept or exactly removed. *)
Theorem C83_spectrum : forall n nz c d mf p lc s j, 0 < d -> (0 < n)%nat -> (3 <= c)%nat -> 0 <= mf -> (1 <= p)%nat -> valid [n; n; c] j -> let y := filter_modes [n; n; c] (mask n c d mf p) (tapered nz c lc s) in
  fft_re [n; n; c] y j = mask n c d mf p j * fft_re [n; n; c] (tapered nz c lc s) j /\ fft_im [n; n; c] y j = mask n c d mf p j * fft_im [n; n; c] (tapered nz c lc s) j.
Proof.
  intros n nz c d mf p lc s j D N C M P J y. unfold y. destruct (filter_fft [n; n; c] (mask n c d mf p) (tapered nz c lc s) j J) as [-> ->]. unfold mean_weight. rewrite (mask_opp n c d mf p j D N C M P J). split; field.
Qed.
Print Assumptions C83_spectrum.
Example C83_spectrum_sat : exists (n c p : nat) (d mf : R) j, 0 < d /\ (0 < n)%nat /\ (3 <= c)%nat /\ 0 <= mf /\ (1 <= p)%nat /\ valid [n; n; c] j.
Proof. exists 5%nat, 4%nat, 2%nat, (1/2), 3, [4; 0; 3]%nat. repeat split; try lra; try lia. repeat constructor; lia. Qed.

(** * The gain of the window *)
Lemma blackman_factor : forall c t, blackman c t = 16 / 100 * (1 - cos (2 * PI * INR t / INR (c - 1))) * (2125 / 1000 - cos (2 * PI * INR t / INR (c - 1))).
Proof. intros c t. unfold blackman. replace (4 * PI * INR t / INR (c - 1)) with (2 * (2 * PI * INR t / INR (c - 1))) by (unfold Rdiv; ring). rewrite cos_2a_cos. field. Qed.
Lemma blackman_bounds : forall c t, 0 <= blackman c t <= 1.
Proof. intros c t. rewrite blackman_factor. pose proof (COS_bound (2 * PI * INR t / INR (c - 1))) as [A B]. set (x := cos _) in *. nra. Qed.
Theorem C83_gain : forall c, Nat.even c = true -> (4 <= c)%nat -> 0 < blackman c (c / 2) < 1.
Proof.
  intros c E C. apply Nat.even_spec in E. destruct E as [m ->]. replace (2 * m / 2)%nat with m by (rewrite Nat.mul_comm, Nat.div_mul; lia). rewrite blackman_factor, minus_INR, mult_INR by lia. cbn [INR]. assert (M : 2 <= INR m) by (change 2 with (INR 2); apply le_INR; lia).
  set (al := PI / (2 * INR m - 1)). assert (PI0 := PI_RGT_0). assert (AL : 0 < al <= PI / 3). { unfold al. split; [apply Rdiv_lt_0_compat; lra|]. unfold Rdiv. apply Rmult_le_compat_l; [lra|]. apply Rinv_le_contravar; lra. }
  replace (2 * PI * INR m / ((1 + 1) * INR m - 1)) with (al + PI) by (unfold al; field; lra). rewrite neg_cos.
  assert (C1 : cos al < 1). { rewrite <- cos_0. apply cos_decreasing_1; lra. } assert (C0 : 0 < cos al) by (apply cos_gt_0; lra). set (x := cos al) in *. split; nra.
Qed.
Print Assumptions C83_gain.
Example C83_gain_sat : exists c, Nat.even c = true /\ (4 <= c)%nat.
Proof. exists 8%nat. split; [reflexivity|lia]. Qed.
(** If the tapered chunk has no removed modes, the channel is returned multiplied by the value of the window at its middle, which is below one. *)
Theorem C83_preserved : forall n nz c d mf p lc s a b, 0 < d -> (0 < n)%nat -> (3 <= c)%nat -> 0 <= mf (redshift_index nz c s) -> (1 <= p)%nat -> (a < n)%nat -> (b < n)%nat -> (s < nz)%nat ->
  (forall j, valid [n; n; c] j -> mask n c d (mf (redshift_index nz c s)) p j = 0 -> fft_re [n; n; c] (tapered nz c lc s) j = 0 /\ fft_im [n; n; c] (tapered nz c lc s) j = 0) ->
  channel n nz c d mf p lc s a b = blackman c (c / 2) * lc s [a; b].
Proof.
  intros n nz c d mf p lc s a b D N C M P A B Z0 H. rewrite C83_channel by (assumption || lia). set (w := mask n c d (mf (redshift_index nz c s)) p) in *. assert (CH : (c / 2 < c)%nat) by (apply Nat.div_lt; lia).
  assert (V : valid [n; n; c] [a; b; (c / 2)%nat]) by (repeat constructor; assumption).
  transitivity (tapered nz c lc s [a; b; (c / 2)%nat]).
  - revert V. generalize [a; b; (c / 2)%nat]. apply (fft_determines [n; n; c]). intros j J. destruct (C83_spectrum n nz c d (mf (redshift_index nz c s)) p lc s j D N C M P J) as [E1 E2]. fold w in E1, E2. rewrite E1, E2.
    assert (W : w j = 0 \/ w j = 1). { unfold w, mask. destruct j as [|u [|v [|q [|? ?]]]]; auto. destruct (keeps n c d (mf (redshift_index nz c s)) p u v q); auto. }
    destruct W as [W|W]; rewrite W; [destruct (H j J W) as [-> ->]|]; split; ring.
  - unfold tapered. replace (Z.of_nat s - Z.of_nat (c / 2) + Z.of_nat (c / 2))%Z with (Z.of_nat s) by lia. rewrite (proj2 (andb_true_iff _ _)); [rewrite Nat2Z.id; reflexivity|]. split; [apply Z.leb_le|apply Z.ltb_lt]; lia.
Qed.
Print Assumptions C83_preserved.

(** * The redshift of the wedge *)
(** The wedge is that of the channel half a chunk later, and only the last channels (or chunks of two) use their own redshift. *)
Theorem C83_redshift : forall nz c s, Nat.even c = true -> (2 <= c)%nat -> (s < nz)%nat -> redshift_index nz c s = Nat.min (s + (c / 2 - 1)) (nz - 1) /\ (redshift_index nz c s = s <-> c = 2%nat \/ s = (nz - 1)%nat).
Proof.
  intros nz c s E C Z0. apply Nat.even_spec in E. destruct E as [m ->]. unfold redshift_index. replace (2 * m / 2)%nat with m by (rewrite Nat.mul_comm, Nat.div_mul; lia). split; [lia|]. lia.
Qed.
Print Assumptions C83_redshift.
Example C83_redshift_sat : exists nz c s, Nat.even c = true /\ (2 <= c)%nat /\ (s < nz)%nat.
Proof. exists 9%nat, 4%nat, 8%nat. repeat split; lia. Qed.

(** * The buffer *)
Lemma rsum_rev : forall c (f : nat -> R), rsum (map (fun t => f (c - 1 - t)%nat) (seq 0 c)) = rsum (map f (seq 0 c)).
Proof.
  intros c f. induction c as [|c IH]; [reflexivity|]. rewrite (seq_S c 0) at 2. rewrite map_app, rsum_app. cbn [map rsum fold_right Nat.add]. cbn [seq]. rewrite <- seq_shift. cbn [map]. rewrite map_map.
  change (rsum (f (S c - 1 - 0)%nat :: map (fun x => f (S c - 1 - S x)%nat) (seq 0 c)) = rsum (map f (seq 0 c)) + (f c + 0)). rewrite <- IH. cbn [rsum fold_right]. rewrite Rplus_0_r, Rplus_comm. f_equal; [|f_equal; lia]. unfold rsum. f_equal. apply map_ext. intro t. f_equal. lia.
Qed.
Lemma blackman_sym : forall c t, (t < c)%nat -> blackman c (c - 1 - t) = blackman c t.
Proof.
  intros c t H. rewrite !blackman_factor. assert (E : cos (2 * PI * INR (c - 1 - t) / INR (c - 1)) = cos (2 * PI * INR t / INR (c - 1))); [|rewrite E; reflexivity].
  destruct (Nat.eq_dec (c - 1) 0) as [Z0|Z0]; [replace (c - 1 - t)%nat with t by lia; reflexivity|]. rewrite minus_INR by lia. set (m := INR (c - 1)). assert (M : m <> 0) by (apply not_0_INR; exact Z0). replace (2 * PI * (m - INR t) / m) with (- (2 * PI * INR t / m) + 2 * PI * IZR 1) by (field; exact M). rewrite cos_period_Z, cos_neg. reflexivity.
Qed.

Lemma window_nyquist : forall c, Nat.even c = true -> (2 <= c)%nat -> window_power c (c / 2) = 0.
Proof.
  intros c E C. apply Nat.even_spec in E. destruct E as [m Hm]. assert (H2 : (c / 2)%nat = m) by (rewrite Hm, Nat.mul_comm, Nat.div_mul; lia). rewrite H2. unfold window_power.
  assert (A : forall t, 2 * PI * (INR m * INR t / INR c) = INR t * PI). { intro t. rewrite Hm, mult_INR. cbn [INR]. field. apply not_0_INR. lia. }
  assert (S0 : forall t, sin (INR t * PI) = 0) by (intro t; rewrite INR_IZR_INZ; apply sin_eq_0_1; exists (Z.of_nat t); reflexivity).
  assert (C1 : forall t, cos (INR (S t) * PI) = - cos (INR t * PI)) by (intro t; rewrite S_INR, Rmult_plus_distr_r, Rmult_1_l, neg_cos; reflexivity).
  assert (SB : rsum (map (fun t => blackman c t * sin (2 * PI * (INR m * INR t / INR c))) (seq 0 c)) = 0) by (apply rsum_zero; intros t _; rewrite A, S0; ring).
  set (f := fun t => blackman c t * cos (2 * PI * (INR m * INR t / INR c))). assert (SA : rsum (map f (seq 0 c)) = - rsum (map f (seq 0 c))).
  { rewrite <- (rsum_rev c f) at 1. replace (- rsum (map f (seq 0 c))) with (-1 * rsum (map f (seq 0 c))) by ring. rewrite <- rsum_scale. apply rsum_ext. intros t Ht. apply in_seq in Ht. unfold f. rewrite blackman_sym, !A by lia.
    assert (CC : cos (INR (c - 1 - t) * PI) = - cos (INR t * PI)); [|rewrite CC; ring].
    assert (MI : INR (c - 1 - t) * PI = - (INR t * PI) + INR (c - 1) * PI) by (rewrite minus_INR by lia; ring). rewrite MI, cos_plus, cos_neg, sin_neg, S0. rewrite Ropp_0, Rmult_0_l, Rminus_0_r.
    assert (CO : cos (INR (c - 1) * PI) = -1); [|rewrite CO; ring]. destruct m as [|k]; [lia|]. replace (c - 1)%nat with (S (2 * k)) by lia. rewrite C1, mult_INR. cbn [INR]. replace ((1 + 1) * INR k * PI) with (0 + 2 * PI * IZR (Z.of_nat k)) by (rewrite <- INR_IZR_INZ; ring). rewrite cos_period_Z, cos_0. reflexivity. }
  rewrite SB. assert (H : rsum (map f (seq 0 c)) = 0) by lra. rewrite H. ring.
Qed.
Lemma window_max : forall c p, window_power c p <= window_power c 0.
Proof.
  intros c p. unfold window_power. set (th := fun t => 2 * PI * (INR p * INR t / INR c)). set (A := rsum (map (fun t => blackman c t * cos (2 * PI * (INR p * INR t / INR c))) (seq 0 c))). set (B := rsum (map (fun t => blackman c t * sin (2 * PI * (INR p * INR t / INR c))) (seq 0 c))).
  assert (Z1 : rsum (map (fun t => blackman c t * cos (2 * PI * (INR 0 * INR t / INR c))) (seq 0 c)) = rsum (map (blackman c) (seq 0 c))) by (apply rsum_ext; intros t _; cbn [INR]; replace (2 * PI * (0 * INR t / INR c)) with 0 by (unfold Rdiv; ring); rewrite cos_0; ring).
  assert (Z2 : rsum (map (fun t => blackman c t * sin (2 * PI * (INR 0 * INR t / INR c))) (seq 0 c)) = 0) by (apply rsum_zero; intros t _; cbn [INR]; replace (2 * PI * (0 * INR t / INR c)) with 0 by (unfold Rdiv; ring); rewrite sin_0; ring).
  rewrite Z1, Z2. set (W := rsum (map (blackman c) (seq 0 c))). assert (W0 : 0 <= W) by (apply rsum_nonneg; intros x Hx; apply in_map_iff in Hx; destruct Hx as (t & <- & _); apply blackman_bounds).
  set (r := sqrt (A ^ 2 + B ^ 2)). assert (R0 : 0 <= r) by apply sqrt_pos. assert (RR : r * r = A ^ 2 + B ^ 2) by (unfold r; apply sqrt_sqrt; nra).
  assert (L : A ^ 2 + B ^ 2 <= r * W).
  { replace (A ^ 2 + B ^ 2) with (rsum (map (fun t => blackman c t * (A * cos (th t) + B * sin (th t))) (seq 0 c))).
    - unfold W. rewrite <- rsum_scale. apply rsum_le. intros t _. rewrite Rmult_comm. apply Rmult_le_compat_r; [apply blackman_bounds|].
      apply Rsqr_incr_0_var; [|exact R0]. unfold Rsqr. rewrite RR. pose proof (sin2_cos2 (th t)) as SC. unfold Rsqr in SC. set (x := cos (th t)) in *. set (y := sin (th t)) in *. assert (0 <= (A * y - B * x) * (A * y - B * x)) by apply Rle_0_sqr. nra.
    - rewrite (rsum_ext _ (fun t => A * (blackman c t * cos (th t)) + B * (blackman c t * sin (th t)))); [|intros t _; ring]. rewrite rsum_plus, !rsum_scale. unfold th. fold A B. ring. }
  assert (r <= W). { destruct (Rle_lt_dec r W) as [|G]; [assumption|]. nra. } nra.
Qed.
Lemma largest_spec : forall l, (forall v, In v l -> 0 <= v) -> (forall v, In v l -> v <= largest l) /\ (l <> [] -> In (largest l) l).
Proof.
  intros l. induction l as [|x l IH]; intro H; [split; [intros v []|congruence]|]. destruct (IH (fun v Hv => H v (or_intror Hv))) as [A B]. cbn [largest]. split.
  - intros v [<- |Hv]; [apply Rmax_l|]. eapply Rle_trans; [apply A, Hv|apply Rmax_r].
  - intros _. unfold Rmax. destruct (Rle_dec x (largest l)) as [L|L]; [|left; reflexivity]. destruct l as [|y l]; [left; cbn in *; specialize (H x (or_introl eq_refl)); lra|]. right. apply B. discriminate.
Qed.
(** For even chunks of at least four channels the buffer always exists, for every threshold from 0 up to 1, and covers at most half of the
    frequencies: the window has no power at the highest frequency. Odd chunks, non-square channels and missing redshifts are refused. *)
Theorem C83_buffer : forall c thr, Nat.even c = true -> (4 <= c)%nat -> 0 <= thr < 1 -> exists p, buffer_index c thr = Some p /\ (1 <= p <= c / 2)%nat.
Proof.
  intros c thr E C T. set (m := largest (map (window_power c) (seq 0 c))). 
  assert (NN : forall p, 0 <= window_power c p) by (intro p; unfold window_power; set (a := rsum _); set (b := rsum (map (fun t => blackman c t * sin _) _)); nra).
  assert (MP : m = window_power c 0). { destruct (largest_spec (map (window_power c) (seq 0 c))) as [A B]; [intros v Hv; apply in_map_iff in Hv; destruct Hv as (p & <- & _); apply NN|]. fold m in A, B. apply Rle_antisym.
    - assert (I : In m (map (window_power c) (seq 0 c))) by (apply B; destruct c; [lia|discriminate]). apply in_map_iff in I. destruct I as (p & <- & _). apply window_max.
    - apply A. apply in_map. apply in_seq. lia. }
  assert (M0 : 0 < m). { rewrite MP. unfold window_power. rewrite (rsum_ext _ (blackman c)); [|intros t _; cbn [INR]; replace (2 * PI * (0 * INR t / INR c)) with 0 by (unfold Rdiv; ring); rewrite cos_0; ring].
    assert (P : 0 < rsum (map (blackman c) (seq 0 c))). { destruct (C83_gain c E C) as [G _]. assert (CH : (c / 2 < c)%nat) by (apply Nat.div_lt; lia). replace (seq 0 c) with (seq 0 (c / 2) ++ (c / 2)%nat :: seq (S (c / 2)) (c - c / 2 - 1)); [|etransitivity; [symmetry; exact (seq_app (c / 2) (S (c - c / 2 - 1)) 0)|f_equal; lia]].
      assert (NB : forall l, 0 <= rsum (map (blackman c) l)) by (intro l; apply rsum_nonneg; intros x Hx; apply in_map_iff in Hx; destruct Hx as (t & <- & _); apply blackman_bounds).
      rewrite map_app, rsum_app. cbn [map]. pose proof (NB (seq 0 (c / 2))). pose proof (NB (seq (S (c / 2)) (c - c / 2 - 1))). unfold rsum in *. cbn [fold_right]. lra. }
    set (b := rsum (map (fun t => blackman c t * sin _) _)). nra. }
  unfold buffer_index. fold m. assert (F : forall k a, (a <= c / 2 < a + k)%nat -> exists p, first_index (fun p => if Rle_dec (window_power c p / m) thr then true else false) (seq a k) = Some p /\ (a <= p <= c / 2)%nat /\ window_power c p / m <= thr).
  { intros k. induction k as [|k IH]; intros a R; [lia|]. cbn [seq first_index]. destruct (Rle_dec (window_power c a / m) thr) as [L|L]; [exists a; repeat split; try lia; exact L|]. destruct (Nat.eq_dec a (c / 2)) as [Q|Q].
    - exfalso. apply L. rewrite Q, window_nyquist by (assumption || lia). unfold Rdiv. rewrite Rmult_0_l. lra.
    - destruct (IH (S a)) as (p & P1 & P2 & P3); [lia|]. exists p. repeat split; try assumption; lia. }
  assert (CH : (c / 2 < c)%nat) by (apply Nat.div_lt; lia). destruct (F c 0%nat) as (p & P1 & P2 & P3); [lia|]. exists p. split; [exact P1|]. split; [|lia]. destruct p as [|p]; [|lia]. exfalso. rewrite <- MP in P3. replace (m / m) with 1 in P3 by (field; lra). lra.
Qed.
Print Assumptions C83_buffer.
Example C83_buffer_sat : exists c thr, Nat.even c = true /\ (4 <= c)%nat /\ 0 <= thr < 1.
Proof. exists 8%nat, (1/100). repeat split; lra || lia. Qed.
Theorem C83_accepts : forall n m nz nred c d thr mf lc, (4 <= c)%nat -> 0 <= thr < 1 -> (exists r, rolling n m nz nred c d thr mf lc = Some r) <-> n = m /\ Nat.even c = true /\ (nz <= nred)%nat.
Proof.
  intros n m nz nred c d thr mf lc C T. unfold rolling. assert (EV : Nat.eqb (2 * (c / 2)) c = Nat.even c). { apply eq_true_iff_eq. rewrite Nat.eqb_eq, Nat.even_spec. split; [intro H; exists (c / 2)%nat; lia|]. intros [k ->]. rewrite (Nat.mul_comm 2 k), Nat.div_mul by lia. lia. }
  rewrite EV. destruct (Nat.eqb_spec n m) as [->|N]; cbn [negb]; [|split; [intros [r H]; discriminate|tauto]]. destruct (Nat.even c) eqn:E; cbn [negb]; [|split; [intros [r H]; discriminate|intros (_ & H & _); discriminate]].
  destruct (Nat.ltb_spec nred nz) as [L|L]; [split; [intros [r H]; discriminate|intros (_ & _ & H); lia]|]. destruct (C83_buffer c thr E C T) as (p & -> & _). split; [auto|eauto].
Qed.
Print Assumptions C83_accepts.
Example C83_accepts_sat : exists (c : nat) (thr : R), (4 <= c)%nat /\ 0 <= thr < 1.
Proof. exists 8%nat, (1/100). split; lra || lia. Qed.
