From Coq Require Import List Arith ZArith Reals Lra Lia Bool Sorting.Permutation Logic.FinFun.
From Verif Require Import RLib KGridModel KGridSpec KGridProps FourierModel FourierSpec.
Import ListNotations.
Local Open Scope R_scope.

(** * Indices *)
Lemma indices_valid : forall shape i, In i (indices shape) <-> valid shape i.
Proof.
  induction shape as [|n sh IH]; intro i; simpl.
  - split; [intros [<-|[]]; constructor|]. intro H. inversion H. auto.
  - rewrite in_flat_map. split.
    + intros [k [Hk H]]. apply in_map_iff in H as [t [<- Ht]]. apply in_seq in Hk.
      constructor; [lia|]. apply IH. exact Ht.
    + intro H. inversion H as [|? k ? t Hk Ht]; subst. exists k. split; [apply in_seq; lia|].
      apply in_map. apply IH. exact Ht.
Qed.
Lemma indices_NoDup : forall shape, NoDup (indices shape).
Proof.
  induction shape as [|n sh IH]; simpl; [constructor; [auto|constructor]|].
  assert (G : forall l, NoDup l -> NoDup (flat_map (fun i => map (cons i) (indices sh)) l)).
  { induction l as [|k l IHl]; intro ND; simpl; [constructor|].
    inversion ND as [|? ? Hk Hl]; subst. 
    assert (N1 : NoDup (map (cons k) (indices sh))).
    { apply Injective_map_NoDup; [|exact IH]. intros a b E. injection E as E. exact E. }
    specialize (IHl Hl). revert N1 IHl.
    assert (D : forall t, In t (map (cons k) (indices sh)) ->
                          ~ In t (flat_map (fun i => map (cons i) (indices sh)) l)).
    { intros t H1 H2. apply in_map_iff in H1 as [a [<- _]]. apply in_flat_map in H2 as [k' [Hk' H2]].
      apply in_map_iff in H2 as [b [E _]]. injection E as E _. subst k'. contradiction. }
    revert D. generalize (map (cons k) (indices sh)) (flat_map (fun i => map (cons i) (indices sh)) l).
    clear. induction l as [|a l IH]; intros l' D N1 N2; simpl; [exact N2|].
    inversion N1; subst. constructor.
    - rewrite in_app_iff. intros [H|H]; [contradiction|]. apply (D a); simpl; auto.
    - apply IH; auto. intros t Ht. apply D. simpl. auto. }
  apply G. apply seq_NoDup.
Qed.
Lemma indices_length : forall shape, INR (length (indices shape)) = ncells shape.
Proof.
  induction shape as [|n sh IH]; [reflexivity|]. unfold ncells in *. simpl. rewrite <- IH, <- mult_INR.
  f_equal. rewrite <- (seq_length n 0) at 2. generalize (seq 0 n). induction l as [|k l IHl]; [reflexivity|].
  simpl. rewrite app_length, map_length, IHl. reflexivity.
Qed.
Lemma rsum_indices_cons : forall n sh (f : list nat -> R),
  rsum (map f (indices (n :: sh))) =
  rsum (map (fun i => rsum (map (fun t => f (i :: t)) (indices sh))) (seq 0 n)).
Proof.
  intros. simpl. rewrite <- rsum_flat_map.
  f_equal. induction (seq 0 n) as [|k l IH]; [reflexivity|]. simpl. rewrite map_app, IH, map_map. reflexivity.
Qed.

(** * Orthogonality *)
Lemma telescope : forall (g : nat -> R) n,
  rsum (map (fun j => g (S j) - g j) (seq 0 n)) = g n - g 0%nat.
Proof.
  induction n; [simpl; lra|]. rewrite seq_S, map_app, rsum_app, IHn. simpl. lra.
Qed.
Lemma cos_sum_1d : forall n t (d : Z), (0 < n)%nat -> (- Z.of_nat n < d < Z.of_nat n)%Z ->
  rsum (map (fun j => cos (t + 2 * PI * (INR j * IZR d / INR n))) (seq 0 n)) =
  if Z.eqb d 0 then INR n * cos t else 0.
Proof.
  intros n t d Hn Hd. assert (Pn : 0 < INR n) by (apply lt_0_INR; exact Hn).
  destruct (Z.eqb_spec d 0) as [->|Hne].
  - rewrite (rsum_ext _ (fun _ => cos t)).
    + rewrite rsum_const, seq_length. reflexivity.
    + intros j _. f_equal. field. lra.
  - set (al := 2 * PI * (IZR d / INR n)).
    assert (S0 : sin (al / 2) <> 0).
    { intro H. apply sin_eq_0_0 in H as [k Hk]. unfold al in Hk.
      assert (E : IZR d = IZR k * INR n).
      { apply Rmult_eq_reg_l with PI; [|pose proof PI_RGT_0; lra].
        replace (PI * IZR d) with ((2 * PI * (IZR d / INR n) / 2) * INR n) by (field; lra).
        rewrite Hk. ring. }
      rewrite INR_IZR_INZ, <- mult_IZR in E. apply eq_IZR in E.
      assert (k < 1)%Z by nia. assert (-1 < k)%Z by nia. assert (k = 0)%Z by lia. subst k. lia. }
    apply Rmult_eq_reg_l with (2 * sin (al / 2)); [|lra]. rewrite Rmult_0_r, <- rsum_scale.
    rewrite (rsum_ext _ (fun j => sin (t + (INR (S j) - 1 / 2) * al) - sin (t + (INR j - 1 / 2) * al))).
    + rewrite (telescope (fun j => sin (t + (INR j - 1 / 2) * al))).
      replace (t + (INR n - 1 / 2) * al) with ((t + (INR 0 - 1 / 2) * al) + 2 * IZR d * PI)
        by (unfold al; simpl (INR 0); field; lra).
      set (u := t + (INR 0 - 1 / 2) * al). rewrite sin_plus.
      replace (2 * IZR d * PI) with (2 * (IZR d * PI)) by ring.
      rewrite sin_2a, cos_2a_sin. rewrite (sin_eq_0_1 (IZR d * PI)) by (exists d; reflexivity). ring.
    + intros j _. rewrite S_INR.
      replace (t + (INR j + 1 - 1 / 2) * al) with ((t + INR j * al) + al / 2) by field.
      replace (t + (INR j - 1 / 2) * al) with ((t + INR j * al) - al / 2) by field.
      replace (t + 2 * PI * (INR j * IZR d / INR n)) with (t + INR j * al) by (unfold al; field; lra).
      rewrite sin_plus, sin_minus. ring.
Qed.

Fixpoint list_eqb (a b : list nat) : bool :=
  match a, b with
  | [], [] => true
  | x :: a', y :: b' => Nat.eqb x y && list_eqb a' b'
  | _, _ => false
  end.
Lemma list_eqb_spec : forall a b, list_eqb a b = true <-> a = b.
Proof.
  induction a as [|x a IH]; intros [|y b]; simpl; try (split; [discriminate|discriminate]); [tauto|].
  rewrite andb_true_iff, Nat.eqb_eq, IH. split; [intros [-> ->]; reflexivity|intros [= -> ->]; auto].
Qed.

Lemma cos_sum : forall shape a b t, valid shape a -> valid shape b ->
  rsum (map (fun j => cos (t + 2 * PI * (phase shape j a - phase shape j b))) (indices shape)) =
  if list_eqb a b then ncells shape * cos t else 0.
Proof.
  induction shape as [|n sh IH]; intros a b t Ha Hb.
  - inversion Ha; inversion Hb; subst. simpl. replace (t + 2 * PI * (0 - 0)) with t by ring.
    unfold ncells. simpl. ring.
  - inversion Ha as [|? ad ? a' Had Ha']; subst. inversion Hb as [|? bd ? b' Hbd Hb']; subst.
    rewrite rsum_indices_cons.
    rewrite (rsum_ext _ (fun j => if list_eqb a' b' then
        ncells sh * cos (t + 2 * PI * (INR j * IZR (Z.of_nat ad - Z.of_nat bd) / INR n)) else 0)).
    2:{ intros j _. rewrite <- (IH a' b' (t + 2 * PI * (INR j * IZR (Z.of_nat ad - Z.of_nat bd) / INR n)) Ha' Hb').
        apply rsum_ext. intros j' _. cbn [phase]. f_equal.
        rewrite minus_IZR, <- !INR_IZR_INZ. assert (INR n <> 0) by (apply not_0_INR; lia). field. exact H. }
    simpl list_eqb. destruct (list_eqb a' b').
    + rewrite rsum_scale, cos_sum_1d by lia. rewrite andb_true_r.
      unfold ncells. simpl. destruct (Nat.eqb_spec ad bd) as [->|Hne].
      * rewrite Z.sub_diag, Z.eqb_refl. ring.
      * destruct (Z.eqb_spec (Z.of_nat ad - Z.of_nat bd) 0); [lia|]. ring.
    + rewrite andb_false_r. apply rsum_zero. auto.
Qed.

(** Product of two transforms as a double sum. *)
Lemma cross_expand : forall shape x y j,
  fft_re shape x j * fft_re shape y j + fft_im shape x j * fft_im shape y j =
  rsum (map (fun a => rsum (map (fun b =>
    x a * y b * cos (0 + 2 * PI * (phase shape j a - phase shape j b))) (indices shape))) (indices shape)).
Proof.
  intros. unfold fft_re, fft_im.
  rewrite (rsum_ext (fun a => rsum (map (fun b =>
    x a * y b * cos (0 + 2 * PI * (phase shape j a - phase shape j b))) (indices shape)))
    (fun a => x a * cos (2 * PI * phase shape j a) * rsum (map (fun b => y b * cos (2 * PI * phase shape j b)) (indices shape))
            + x a * sin (2 * PI * phase shape j a) * rsum (map (fun b => y b * sin (2 * PI * phase shape j b)) (indices shape)))).
  - rewrite rsum_plus, !rsum_scale_r. ring.
  - intros a _. rewrite <- !rsum_scale, <- rsum_plus. apply rsum_ext. intros b _.
    replace (0 + 2 * PI * (phase shape j a - phase shape j b))
      with (2 * PI * phase shape j a - 2 * PI * phase shape j b) by ring.
    rewrite cos_minus. ring.
Qed.

Lemma cross_sum : forall shape x y,
  rsum (map (fun j => fft_re shape x j * fft_re shape y j + fft_im shape x j * fft_im shape y j) (indices shape)) =
  ncells shape * rsum (map (fun a => x a * y a) (indices shape)).
Proof.
  intros. rewrite (rsum_ext _ _ _ (fun j _ => cross_expand shape x y j)).
  rewrite rsum_swap. rewrite <- rsum_scale. apply rsum_ext. intros a Ha.
  rewrite rsum_swap.
  rewrite (rsum_ext _ (fun b => if list_eqb a b then ncells shape * (x a * y b) else 0)).
  - rewrite (rsum_delta list_eqb (fun b => ncells shape * (x a * y b))); auto using list_eqb_spec, indices_NoDup.
  - intros b Hb. rewrite rsum_scale, cos_sum by (apply indices_valid; auto).
    destruct (list_eqb a b); [rewrite cos_0|]; ring.
Qed.

(** * fftshift is a rearrangement *)
Lemma rotate_perm : forall n c, (0 < n)%nat ->
  Permutation (map (fun i => (i + c) mod n) (seq 0 n)) (seq 0 n).
Proof.
  intros n c Hn. apply NoDup_Permutation_bis.
  - assert (G : forall l, NoDup l -> (forall i, In i l -> (i < n)%nat) -> NoDup (map (fun i => (i + c) mod n) l)).
    { induction l as [|a l IH]; intros ND B; simpl; [constructor|]. inversion ND as [|? ? Ha Hl]; subst.
      constructor; [|apply IH; auto; intros; apply B; simpl; auto].
      intro H. apply in_map_iff in H as [b [E Hb]].
      assert (a < n)%nat by (apply B; simpl; auto). assert (b < n)%nat by (apply B; simpl; auto).
      assert (b = a); [|subst; contradiction].
      pose proof (Nat.div_mod (b + c) n ltac:(lia)). pose proof (Nat.div_mod (a + c) n ltac:(lia)).
      assert ((b + c) / n = (a + c) / n \/ (b + c) / n < (a + c) / n \/ (a + c) / n < (b + c) / n)%nat as [Q|[Q|Q]] by lia.
      - rewrite Q in *. lia.
      - exfalso. assert (n * ((b + c) / n) + n <= n * ((a + c) / n))%nat by nia. lia.
      - exfalso. assert (n * ((a + c) / n) + n <= n * ((b + c) / n))%nat by nia. lia. }
    apply G; [apply seq_NoDup|]. intros i Hi. apply in_seq in Hi. lia.
  - rewrite map_length. lia.
  - intros k Hk. apply in_map_iff in Hk as [i [<- _]]. apply in_seq.
    pose proof (Nat.mod_upper_bound (i + c) n). lia.
Qed.
Lemma sum_rotate : forall n c (f : nat -> R),
  rsum (map (fun i => f ((i + c) mod n)%nat) (seq 0 n)) = rsum (map f (seq 0 n)).
Proof.
  intros n c f. destruct (Nat.eq_dec n 0) as [->|Hn]; [reflexivity|].
  rewrite <- (map_map (fun i => (i + c) mod n)%nat f). apply rsum_perm, Permutation_map, rotate_perm. lia.
Qed.
Lemma sum_shift : forall shape (f : list nat -> R),
  rsum (map (fun i => f (shift_sources shape i)) (indices shape)) = rsum (map f (indices shape)).
Proof.
  induction shape as [|n sh IH]; intro f; [reflexivity|].
  rewrite !rsum_indices_cons. cbn [shift_sources].
  rewrite (rsum_ext _ (fun i => (fun k => rsum (map (fun t => f (k :: t)) (indices sh))) (shift_source n i))).
  - unfold shift_source. apply (sum_rotate n (n - n / 2) (fun k => rsum (map (fun t => f (k :: t)) (indices sh)))).
  - intros i _. apply (IH (fun t => f (shift_source n i :: t))).
Qed.
Lemma sum_translate : forall shape s (f : list nat -> R), length s = length shape ->
  rsum (map (fun i => f (wrap_add shape i s)) (indices shape)) = rsum (map f (indices shape)).
Proof.
  induction shape as [|n sh IH]; intros s f Hs; [reflexivity|].
  destruct s as [|sd s]; [discriminate Hs|]. injection Hs as Hs.
  rewrite !rsum_indices_cons. cbn [wrap_add].
  rewrite (rsum_ext _ (fun i => (fun k => rsum (map (fun t => f (k :: t)) (indices sh))) ((i + sd) mod n)%nat)).
  - apply (sum_rotate n sd (fun k => rsum (map (fun t => f (k :: t)) (indices sh)))).
  - intros i _. apply (IH s (fun t => f (((i + sd) mod n)%nat :: t)) Hs).
Qed.

(** * Phases *)
Lemma phase_translate : forall shape j a s, valid shape a -> length s = length shape -> length j = length shape ->
  exists k : Z, phase shape j (wrap_add shape a s) = phase shape j a + phase shape j s - IZR k.
Proof.
  induction shape as [|n sh IH]; intros j a s Ha Hs Hj.
  - exists 0%Z. simpl. ring.
  - inversion Ha as [|? ad ? a' Had Ha']; subst. destruct s as [|sd s]; [discriminate|].
    destruct j as [|jd j]; [discriminate|]. injection Hs as Hs. injection Hj as Hj.
    destruct (IH j a' s Ha' Hs Hj) as [k Hk]. cbn [phase wrap_add].
    exists (k + Z.of_nat jd * Z.of_nat ((ad + sd) / n))%Z. rewrite Hk.
    rewrite plus_IZR, mult_IZR, <- !INR_IZR_INZ.
    pose proof (Nat.div_mod (ad + sd) n ltac:(lia)) as E. apply (f_equal INR) in E.
    rewrite !plus_INR, mult_INR in E. assert (Hn : INR n <> 0) by (apply not_0_INR; lia).
    replace (INR ((ad + sd) mod n)) with (INR ad + INR sd - INR n * INR ((ad + sd) / n)) by lra.
    field. exact Hn.
Qed.
Lemma phase_opp : forall shape j a, valid shape j -> length a = length shape ->
  exists k : Z, phase shape (wrap_opp shape j) a = IZR k - phase shape j a.
Proof.
  induction shape as [|n sh IH]; intros j a Hj Ha.
  - exists 0%Z. simpl. ring.
  - inversion Hj as [|? jd ? j' Hjd Hj']; subst. destruct a as [|ad a]; [discriminate|].
    injection Ha as Ha. destruct (IH j' a Hj' Ha) as [k Hk]. cbn [phase wrap_opp]. rewrite Hk.
    assert (Hn : INR n <> 0) by (apply not_0_INR; lia).
    destruct (Nat.eq_dec jd 0) as [->|H0].
    + exists k. rewrite Nat.sub_0_r, Nat.mod_same by lia. simpl (INR 0). field. exact Hn.
    + exists (k + Z.of_nat ad)%Z. rewrite Nat.mod_small by lia. rewrite minus_INR by lia.
      rewrite plus_IZR, <- !INR_IZR_INZ. field. exact Hn.
Qed.
Lemma cos_period_Z : forall x k, cos (x + 2 * PI * IZR k) = cos x.
Proof.
  intros. replace (x + 2 * PI * IZR k) with (x + 2 * (IZR k * PI)) by ring.
  rewrite cos_plus, sin_2a, cos_2a_sin, (sin_eq_0_1 (IZR k * PI)) by (exists k; reflexivity). ring.
Qed.
Lemma sin_period_Z : forall x k, sin (x + 2 * PI * IZR k) = sin x.
Proof.
  intros. replace (x + 2 * PI * IZR k) with (x + 2 * (IZR k * PI)) by ring.
  rewrite sin_plus, sin_2a, cos_2a_sin, (sin_eq_0_1 (IZR k * PI)) by (exists k; reflexivity). ring.
Qed.

Lemma valid_length : forall shape i, valid shape i -> length i = length shape.
Proof. induction 1; simpl; congruence. Qed.

(** Translation turns the transform by an angle. *)
Lemma fft_translate : forall shape x s j, length s = length shape -> length j = length shape ->
  let th := 2 * PI * phase shape j s in
  fft_re shape (translate shape s x) j = fft_re shape x j * cos th - fft_im shape x j * sin th /\
  fft_im shape (translate shape s x) j = fft_re shape x j * sin th + fft_im shape x j * cos th.
Proof.
  intros shape x s j Hs Hj th.
  assert (C : forall a, In a (indices shape) ->
    cos (2 * PI * phase shape j a) = cos (2 * PI * phase shape j (wrap_add shape a s) - th) /\
    sin (2 * PI * phase shape j a) = sin (2 * PI * phase shape j (wrap_add shape a s) - th)).
  { intros a Ha. apply indices_valid in Ha. destruct (phase_translate shape j a s Ha Hs Hj) as [k Hk].
    replace (2 * PI * phase shape j a)
      with (2 * PI * phase shape j (wrap_add shape a s) - th + 2 * PI * IZR k) by (rewrite Hk; unfold th; ring).
    rewrite cos_period_Z, sin_period_Z. auto. }
  unfold fft_re, fft_im, translate. split.
  - rewrite (rsum_ext _ (fun a => (fun b => x b * cos (2 * PI * phase shape j b - th)) (wrap_add shape a s))).
    2:{ intros a Ha. rewrite (proj1 (C a Ha)). reflexivity. }
    rewrite (sum_translate shape s (fun b => x b * cos (2 * PI * phase shape j b - th)) Hs).
    rewrite (rsum_ext _ (fun b => x b * cos (2 * PI * phase shape j b) * cos th + x b * sin (2 * PI * phase shape j b) * sin th)).
    + rewrite rsum_plus, !rsum_scale_r. ring.
    + intros b _. rewrite cos_minus. ring.
  - rewrite (rsum_ext _ (fun a => (fun b => x b * sin (2 * PI * phase shape j b - th)) (wrap_add shape a s))).
    2:{ intros a Ha. rewrite (proj2 (C a Ha)). reflexivity. }
    rewrite (sum_translate shape s (fun b => x b * sin (2 * PI * phase shape j b - th)) Hs).
    rewrite (rsum_ext _ (fun b => x b * sin (2 * PI * phase shape j b) * cos th - x b * cos (2 * PI * phase shape j b) * sin th)).
    + rewrite rsum_minus, !rsum_scale_r. ring.
    + intros b _. rewrite sin_minus. ring.
Qed.

Lemma fft_opp : forall shape x j, valid shape j ->
  fft_re shape x (wrap_opp shape j) = fft_re shape x j /\
  fft_im shape x (wrap_opp shape j) = - fft_im shape x j.
Proof.
  intros shape x j Hj.
  assert (C : forall a, In a (indices shape) ->
    cos (2 * PI * phase shape (wrap_opp shape j) a) = cos (2 * PI * phase shape j a) /\
    sin (2 * PI * phase shape (wrap_opp shape j) a) = - sin (2 * PI * phase shape j a)).
  { intros a Ha. apply indices_valid in Ha.
    destruct (phase_opp shape j a Hj) as [k Hk]; [exact (valid_length _ _ Ha)|].
    rewrite Hk. replace (2 * PI * (IZR k - phase shape j a)) with (- (2 * PI * phase shape j a) + 2 * PI * IZR k) by ring.
    rewrite cos_period_Z, sin_period_Z, cos_neg, sin_neg. auto. }
  unfold fft_re, fft_im. split.
  - apply rsum_ext. intros a Ha. rewrite (proj1 (C a Ha)). reflexivity.
  - f_equal. rewrite <- (Rmult_1_l (- _)), <- Ropp_mult_distr_r, Ropp_mult_distr_l, <- rsum_scale.
    apply rsum_ext. intros a Ha. rewrite (proj2 (C a Ha)). ring.
Qed.

Lemma cabs_sq : forall re im, cabs re im ^ 2 = re ^ 2 + im ^ 2.
Proof.
  intros. unfold cabs. rewrite <- Rsqr_pow2, Rsqr_sqrt; [reflexivity|].
  pose proof (pow2_ge_0 re). pose proof (pow2_ge_0 im). lra.
Qed.
Lemma valid_shift : forall shape i, valid shape i -> valid shape (shift_sources shape i).
Proof.
  induction shape as [|n sh IH]; intros i H; inversion H as [|? k ? t Hk Ht]; subst; simpl; constructor.
  - unfold shift_source. apply Nat.mod_upper_bound. lia.
  - apply IH. exact Ht.
Qed.
