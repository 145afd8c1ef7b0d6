From Coq Require Import List Arith ZArith Reals Lra Lia Bool.
From Verif Require Import RLib KGridModel FourierModel FourierSpec FourierProofs ConvModel ConvSpec.
Import ListNotations.
Local Open Scope R_scope.

(** * The convolution theorem *)
Lemma product_expand : forall s x y j i, length j = length s ->
  product_re s x y j * cos (2 * PI * phase s j i) - product_im s x y j * sin (2 * PI * phase s j i) =
  rsum (map (fun a => rsum (map (fun b => x a * y b * cos (0 + 2 * PI * (phase s j i - phase s j (wrap_add s a b)))) (indices s))) (indices s)).
Proof.
  intros s x y j i Lj. unfold product_re, product_im, fft_re, fft_im.
  set (ci := cos (2 * PI * phase s j i)). set (si := sin (2 * PI * phase s j i)).
  set (C := fun z => rsum (map (fun b => z b * cos (2 * PI * phase s j b)) (indices s))).
  set (Sn := fun z => rsum (map (fun b => z b * sin (2 * PI * phase s j b)) (indices s))).
  change (rsum (map (fun a => x a * cos (2 * PI * phase s j a)) (indices s))) with (C x).
  change (rsum (map (fun a => y a * cos (2 * PI * phase s j a)) (indices s))) with (C y).
  change (rsum (map (fun a => x a * sin (2 * PI * phase s j a)) (indices s))) with (Sn x).
  change (rsum (map (fun a => y a * sin (2 * PI * phase s j a)) (indices s))) with (Sn y).
  rewrite (rsum_ext _ (fun a => x a * cos (2 * PI * phase s j a) * (C y * ci + Sn y * si) + x a * sin (2 * PI * phase s j a) * (C y * si - Sn y * ci))).
  - rewrite rsum_plus, !rsum_scale_r. fold (C x). fold (Sn x). ring.
  - intros a Ha. apply indices_valid in Ha. unfold C, Sn.
    rewrite (rsum_ext _ (fun b => y b * cos (2 * PI * phase s j b) * (x a * (cos (2 * PI * phase s j a) * ci + sin (2 * PI * phase s j a) * si))
      + y b * sin (2 * PI * phase s j b) * (x a * (cos (2 * PI * phase s j a) * si - sin (2 * PI * phase s j a) * ci)))).
    + rewrite rsum_plus, !rsum_scale_r. ring.
    + intros b Hb. apply indices_valid in Hb.
      destruct (phase_translate s j a b Ha (valid_length _ _ Hb) Lj) as [k Hk]. rewrite Hk.
      replace (0 + 2 * PI * (phase s j i - (phase s j a + phase s j b - IZR k)))
        with (2 * PI * phase s j i - (2 * PI * phase s j a + 2 * PI * phase s j b) + 2 * PI * IZR k) by ring.
      rewrite cos_period_Z, cos_minus, cos_plus, sin_plus. fold ci. fold si. ring.
Qed.

Lemma displaced_unique : forall f i a b, valid f i -> valid f a -> valid f b ->
  list_eqb i (wrap_add f a b) = list_eqb (periodic f (displaced i (map (fun _ => 0%Z) f) b)) a.
Proof.
  induction f as [|n f IH]; intros i a b Hi Ha Hb; inversion Hi as [|? i0 ? i' Hi0 Hi']; subst; inversion Ha as [|? a0 ? a' Ha0 Ha']; subst; inversion Hb as [|? b0 ? b' Hb0 Hb']; subst; [reflexivity|].
  cbn [wrap_add periodic displaced map list_eqb]. rewrite (IH i' a' b' Hi' Ha' Hb'). f_equal.
  destruct (Nat.eqb_spec (Z.to_nat ((Z.of_nat i0 + 0 - Z.of_nat b0) mod Z.of_nat n)) a0) as [E|E].
  - apply Nat.eqb_eq. subst a0. apply Nat2Z.inj. rewrite Nat2Z.inj_mod, Nat2Z.inj_add, Z2Nat.id by (apply Z.mod_pos_bound; lia).
    rewrite Zplus_mod_idemp_l. replace (Z.of_nat i0 + 0 - Z.of_nat b0 + Z.of_nat b0)%Z with (Z.of_nat i0) by ring. symmetry. apply Z.mod_small. lia.
  - apply Nat.eqb_neq. intro F. apply E. apply Nat2Z.inj. rewrite Z2Nat.id by (apply Z.mod_pos_bound; lia).
    apply (f_equal Z.of_nat) in F. rewrite Nat2Z.inj_mod, Nat2Z.inj_add in F. rewrite F, Z.add_0_r, Zminus_mod_idemp_l.
    replace (Z.of_nat a0 + Z.of_nat b0 - Z.of_nat b0)%Z with (Z.of_nat a0) by ring. apply Z.mod_small. lia.
Qed.
Lemma periodic_valid : forall f p, length p = length f -> Forall (fun n => (0 < n)%nat) f -> valid f (periodic f p).
Proof.
  induction f as [|n f IH]; intros p L P; destruct p as [|k p]; try discriminate; [constructor|]. inversion P; subst. cbn [periodic]. constructor.
  - pose proof (Z.mod_pos_bound k (Z.of_nat n) ltac:(lia)). lia.
  - apply IH; [cbn in L; lia|assumption].
Qed.
Lemma valid_pos : forall f i, valid f i -> Forall (fun n => (0 < n)%nat) f.
Proof. induction 1; constructor; [lia|assumption]. Qed.
Lemma displaced_length : forall i c b, length c = length i -> length b = length i -> length (displaced i c b) = length i.
Proof. induction i as [|x i IH]; intros [|y c] [|z b] L1 L2; try discriminate; [reflexivity|]. cbn in *. rewrite IH; lia. Qed.

Lemma conv_circ : forall f x y i, valid f i ->
  ifft_of_product f x y i = rsum (map (fun b => y b * x (periodic f (displaced i (map (fun _ => 0%Z) f) b))) (indices f)).
Proof.
  intros f x y i Hi. unfold ifft_of_product. pose proof (valid_pos _ _ Hi) as P.
  assert (N : 0 < ncells f) by (unfold ncells; clear -P; induction P; cbn; [lra|]; apply Rmult_lt_0_compat; [apply lt_0_INR; assumption|assumption]).
  rewrite (rsum_ext _ (fun j => rsum (map (fun a => rsum (map (fun b => x a * y b * cos (0 + 2 * PI * (phase f j i - phase f j (wrap_add f a b)))) (indices f))) (indices f)))).
  2:{ intros j Hj. apply product_expand. apply valid_length. apply indices_valid. exact Hj. }
  rewrite rsum_swap. rewrite (rsum_ext _ (fun a => rsum (map (fun b => if list_eqb i (wrap_add f a b) then ncells f * (x a * y b) else 0) (indices f)))).
  2:{ intros a Ha. rewrite rsum_swap. apply rsum_ext. intros b Hb. rewrite rsum_scale.
      rewrite cos_sum; [|exact Hi|].
      - destruct (list_eqb i (wrap_add f a b)); [rewrite cos_0|]; ring.
      - apply indices_valid in Ha. apply indices_valid in Hb. clear -Ha Hb P.
        revert a b Ha Hb. induction f as [|n f IH]; intros a b Ha Hb; inversion Ha; inversion Hb; subst; [constructor|]. inversion P; subst. cbn [wrap_add]. constructor.
        + apply Nat.mod_upper_bound. lia.
        + apply IH; assumption. }
  rewrite rsum_swap.
  rewrite (rsum_ext _ (fun b => ncells f * (y b * x (periodic f (displaced i (map (fun _ => 0%Z) f) b))))).
  - rewrite rsum_scale. field. lra.
  - intros b Hb. apply indices_valid in Hb.
    rewrite (rsum_ext _ (fun a => if list_eqb (periodic f (displaced i (map (fun _ => 0%Z) f) b)) a then ncells f * (x a * y b) else 0)).
    + rewrite (rsum_delta list_eqb (fun a => ncells f * (x a * y b))); [ring|apply list_eqb_spec|apply indices_NoDup|].
      apply indices_valid. apply periodic_valid; [|exact P]. pose proof (valid_length _ _ Hi). pose proof (valid_length _ _ Hb).
      rewrite displaced_length; rewrite ?map_length; lia.
    + intros a Ha. apply indices_valid in Ha. rewrite displaced_unique by assumption. reflexivity.
Qed.

(** * Zero padding *)
Lemma inside_ok : forall s i, inside s i = true <-> valid s i.
Proof.
  induction s as [|n s IH]; intros [|k i]; cbn [inside].
  - split; [constructor|reflexivity].
  - split; [discriminate|intro H; inversion H].
  - split; [discriminate|intro H; inversion H].
  - rewrite andb_true_iff, Nat.ltb_lt, IH. split; [intros [A B]; constructor; assumption|intro H; inversion H; auto].
Qed.
Lemma zero_pad_sum : forall f s y (g : list nat -> R), Forall2 (fun a b => (b <= a)%nat) f s ->
  rsum (map (fun b => zero_pad s y b * g b) (indices f)) = rsum (map (fun b => y b * g b) (indices s)).
Proof.
  assert (R1 : forall n m (h : nat -> R), (m <= n)%nat -> (forall k, (m <= k)%nat -> h k = 0) -> rsum (map h (seq 0 n)) = rsum (map h (seq 0 m))).
  { intros n m h L Z. replace n with (m + (n - m))%nat by lia. rewrite seq_app, map_app, rsum_app. cbn [Nat.add].
    rewrite (rsum_zero _ (seq m (n - m))); [lra|]. intros k I. apply in_seq in I. apply Z. lia. }
  induction f as [|n f IH]; intros s y g H; inversion H as [|? m ? s' Hm Hs]; subst.
  - cbn. unfold zero_pad. cbn. reflexivity.
  - rewrite !rsum_indices_cons. rewrite (R1 n m _ Hm).
    2:{ intros k Hk. apply rsum_zero. intros t _. unfold zero_pad. cbn [inside]. replace (Nat.ltb k m) with false by (symmetry; apply Nat.ltb_ge; lia). cbn [andb]. ring. }
    apply rsum_ext. intros k Hk. apply in_seq in Hk. rewrite <- (IH s' (fun t => y (k :: t)) (fun t => g (k :: t)) Hs).
    apply rsum_ext. intros t _. unfold zero_pad. cbn [inside]. replace (Nat.ltb k m) with true by (symmetry; apply Nat.ltb_lt; lia). reflexivity.
Qed.

(** * Linear convolution inside a large enough transform *)
Lemma linear_conv : forall sx s2 x y i, length sx = length s2 -> Forall (fun n => (0 < n)%nat) s2 -> Forall (fun n => (0 < n)%nat) sx ->
  let f := map2 (fun a b => (a + b - 1)%nat) sx s2 in valid f i ->
  ifft_of_product f (zero_pad sx x) (zero_pad s2 y) i = convolution s2 (zero_outside sx x) y (map (fun _ => 0%Z) s2) i.
Proof.
  intros sx s2 x y i L P2 P1 f Hi. rewrite conv_circ by exact Hi.
  rewrite zero_pad_sum.
  2:{ clear Hi i. unfold f. clear f. revert s2 L P2. induction sx as [|n sx IH]; intros [|m s2] L P2; try discriminate; [constructor|].
      inversion P2; inversion P1; subst. cbn [map2]. constructor; [lia|]. apply IH; [assumption|cbn in L; lia|assumption]. }
  unfold convolution. apply rsum_ext. intros b Hb. apply indices_valid in Hb. f_equal.
  assert (G : inside sx (periodic f (displaced i (map (fun _ => 0%Z) f) b)) = inside_z sx (displaced i (map (fun _ => 0%Z) s2) b) /\
    (inside_z sx (displaced i (map (fun _ => 0%Z) s2) b) = true -> periodic f (displaced i (map (fun _ => 0%Z) f) b) = map Z.to_nat (displaced i (map (fun _ => 0%Z) s2) b))).
  { unfold f in *. clear f. revert s2 i b L P2 Hi Hb. induction sx as [|n sx IH]; intros [|m s2] i b L P2 Hi Hb; try discriminate.
    - inversion Hi; subst. inversion Hb; subst. cbn. auto.
    - inversion P2; inversion P1; subst. cbn [map2] in Hi. inversion Hi as [|? i0 ? i' Hi0 Hi']; subst. inversion Hb as [|? b0 ? b' Hb0 Hb']; subst.
      destruct (IH ltac:(assumption) s2 i' b' ltac:(cbn in L; lia) ltac:(assumption) Hi' Hb') as [I1 I2].
      cbn [map2 map displaced periodic inside]. unfold inside_z in *. cbn [combine forallb fst snd].
      set (k := (Z.of_nat i0 + 0 - Z.of_nat b0)%Z). set (M := Z.of_nat (n + m - 1)).
      assert (K : (- Z.of_nat m < k < M)%Z) by (unfold k, M; lia).
      destruct (Z.leb_spec 0 k) as [A|A]; cbn [andb].
      + rewrite (Z.mod_small k M) by lia. rewrite I1. split.
        * f_equal. destruct (Z.ltb_spec k (Z.of_nat n)); destruct (Nat.ltb_spec (Z.to_nat k) n); try reflexivity; lia.
        * intro T. apply andb_true_iff in T. destruct T as [_ T]. rewrite (I2 T). reflexivity.
      + split; [|intro T; discriminate]. assert (E : (k mod M = k + M)%Z) by (symmetry; apply Z.mod_unique with (-1)%Z; lia).
        rewrite E. replace (Nat.ltb (Z.to_nat (k + M)) n) with false; [reflexivity|]. symmetry. apply Nat.ltb_ge. unfold M in *. lia. }
  destruct G as [G1 G2]. unfold zero_pad, zero_outside. rewrite G1. destruct (inside_z sx (displaced i (map (fun _ => 0%Z) s2) b)); [rewrite G2; reflexivity|reflexivity].
Qed.
