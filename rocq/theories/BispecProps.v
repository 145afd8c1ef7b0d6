(** C84: the bispectrum. *)
From Coq Require Import List Arith ZArith Reals Lra Lia Bool.
From Verif Require Import RLib KGridModel FourierModel FourierSpec FourierProofs FourierProps DftLib BispecModel.
Import ListNotations.
Local Open Scope R_scope.

(** * Specification *)
(** On each axis the three frequencies add up to the given offset (modulo the number of cells). *)
Fixpoint adds_up (off : nat -> nat) (s m1 m2 m3 : list nat) : bool :=
  match s, m1, m2, m3 with
  | n :: s', x :: m1', y :: m2', z :: m3' => (Nat.eqb ((x + y + z) mod n) (off n mod n) && adds_up off s' m1' m2' m3')%bool
  | _, _, _, _ => true
  end.
Definition closed (s m1 m2 m3 : list nat) : bool := adds_up (fun _ => 0%nat) s m1 m2 m3.
Definition offset (n : nat) : nat := if Nat.even n then 0 else 3.
(** Position of FFT mode m on the shifted grid. *)
Fixpoint position (s m : list nat) : list nat := match s, m with n :: s', k :: m' => ((k + n / 2) mod n)%nat :: position s' m' | _, _ => [] end.
(** All triples of modes with the given sums in three shells. *)
Definition triples (off : nat -> nat) (s : list nat) (kmag : array) (in1 in2 in3 : R -> bool) : list (list nat * list nat * list nat) :=
  filter (fun '(m1, m2, m3) => (adds_up off s m1 m2 m3 && in1 (kmag (position s m1)) && in2 (kmag (position s m2)) && in3 (kmag (position s m3)))%bool) (list_prod (list_prod (indices s) (indices s)) (indices s)).
Definition within (k dk q : R) : bool := if Rlt_dec (Rabs (q - k)) (dk / 2) then true else false.
Definition product (s : list nat) (x : array) (m1 m2 m3 : list nat) : R := re3 (fft_re s x m1) (fft_im s x m1) (fft_re s x m2) (fft_im s x m2) (fft_re s x m3) (fft_im s x m3).
Definition mean_product (s : list nat) (x : array) (ts : list (list nat * list nat * list nat)) : R := rsum (map (fun '(m1, m2, m3) => product s x m1 m2 m3) ts) / INR (length ts).

(** * Products of three Fourier sums *)
Lemma rsum_neg : forall {A} (f : A -> R) l, rsum (map (fun x => - f x) l) = - rsum (map f l).
Proof. intros. rewrite (rsum_ext _ (fun x => -1 * f x)) by (intros; ring). rewrite rsum_scale. ring. Qed.
Lemma re3_sum : forall {A} (l : list A) f1 g1 f2 g2 f3 g3, re3 (rsum (map f1 l)) (rsum (map g1 l)) (rsum (map f2 l)) (rsum (map g2 l)) (rsum (map f3 l)) (rsum (map g3 l)) =
  rsum (map (fun a => rsum (map (fun b => rsum (map (fun c => re3 (f1 a) (g1 a) (f2 b) (g2 b) (f3 c) (g3 c)) l)) l)) l).
Proof.
  intros A l f1 g1 f2 g2 f3 g3. set (F3 := rsum (map f3 l)). set (G3 := rsum (map g3 l)). set (F2 := rsum (map f2 l)). set (G2 := rsum (map g2 l)).
  rewrite (rsum_ext (fun a => rsum (map (fun b => rsum (map (fun c => re3 (f1 a) (g1 a) (f2 b) (g2 b) (f3 c) (g3 c)) l)) l)) (fun a => (F2 * F3 - G2 * G3) * f1 a - (G2 * F3 + F2 * G3) * g1 a)).
  - rewrite rsum_minus, !rsum_scale. unfold re3. ring.
  - intros a _. rewrite (rsum_ext _ (fun b => (f1 a * F3 - g1 a * G3) * f2 b - (g1 a * F3 + f1 a * G3) * g2 b)).
    + rewrite rsum_minus, !rsum_scale. fold F2 G2. ring.
    + intros b _. unfold re3. rewrite rsum_minus, !rsum_scale. fold F3 G3. ring.
Qed.
Lemma re3_phase : forall p1 q1 p2 q2 p3 q3 t1 t2 t3,
  re3 (p1 * cos t1 - q1 * sin t1) (p1 * sin t1 + q1 * cos t1) (p2 * cos t2 - q2 * sin t2) (p2 * sin t2 + q2 * cos t2) (p3 * cos t3 - q3 * sin t3) (p3 * sin t3 + q3 * cos t3) =
  re3 p1 q1 p2 q2 p3 q3 * cos (t1 + t2 + t3) - ((p1 * p2 - q1 * q2) * q3 + (p1 * q2 + q1 * p2) * p3) * sin (t1 + t2 + t3).
Proof. intros. unfold re3. rewrite (cos_plus (t1 + t2) t3), (sin_plus (t1 + t2) t3), (cos_plus t1 t2), (sin_plus t1 t2). ring. Qed.
Lemma re3_scale : forall c r1 i1 r2 i2 r3 i3, re3 (c * r1) (c * i1) (c * r2) (c * i2) (c * r3) (c * i3) = c ^ 3 * re3 r1 i1 r2 i2 r3 i3.
Proof. intros. unfold re3. ring. Qed.
Lemma valid_add : forall s a b, valid s a -> valid s b -> valid s (wrap_add s a b).
Proof. intros s a b Ha. revert b. induction Ha as [|n k s a Hk Ha IH]; intros b Hb; inversion Hb; subst; cbn [wrap_add]; constructor; [apply Nat.mod_upper_bound; lia|apply IH; assumption]. Qed.
Lemma closed_spec : forall s m1 m2 m3, valid s m1 -> valid s m2 -> valid s m3 -> list_eqb (wrap_add s m1 m2) (wrap_opp s m3) = closed s m1 m2 m3.
Proof.
  intros s m1 m2 m3 H1. revert m2 m3. induction H1 as [|n x s m1 Hx H1 IH]; intros m2 m3 H2 H3; inversion H2 as [|? y ? m2' Hy H2']; subst; inversion H3 as [|? z ? m3' Hz H3']; subst; [reflexivity|].
  unfold closed in *. cbn [wrap_add wrap_opp adds_up list_eqb]. rewrite <- (IH m2' m3' H2' H3'). f_equal. rewrite Nat.mod_0_l by lia. apply eq_true_iff_eq. rewrite !Nat.eqb_eq.
  rewrite (Nat.add_mod (x + y) z n) by lia. pose proof (Nat.mod_upper_bound (x + y) n ltac:(lia)) as B. set (w := ((x + y) mod n)%nat) in *. rewrite (Nat.mod_small z) by exact Hz. destruct z as [|z].
  - rewrite Nat.sub_0_r, Nat.mod_same, Nat.add_0_r, Nat.mod_small by lia. tauto.
  - rewrite (Nat.mod_small (n - S z)) by lia. split; intro E.
    + rewrite E. replace (n - S z + S z)%nat with n by lia. apply Nat.mod_same. lia.
    + destruct (Nat.lt_ge_cases (w + S z) n) as [L|L]; [rewrite Nat.mod_small in E by exact L; lia|]. replace (w + S z)%nat with (w + S z - n + 1 * n)%nat in E by lia. rewrite Nat.mod_add, Nat.mod_small in E by lia. lia.
Qed.
Lemma three_waves : forall s m1 m2 m3, valid s m1 -> valid s m2 -> valid s m3 ->
  rsum (map (fun a => cos (angle s m1 a + angle s m2 a + angle s m3 a)) (indices s)) = (if closed s m1 m2 m3 then ncells s else 0) /\ rsum (map (fun a => sin (angle s m1 a + angle s m2 a + angle s m3 a)) (indices s)) = 0.
Proof.
  intros s m1 m2 m3 H1 H2 H3. set (j := wrap_add s m1 m2). set (k := wrap_opp s m3). assert (Vj : valid s j) by (apply valid_add; assumption). assert (Vk : valid s k) by (apply valid_opp; assumption).
  assert (E : forall a, valid s a -> cos (angle s m1 a + angle s m2 a + angle s m3 a) = cos (angle s j a - angle s k a) /\ sin (angle s m1 a + angle s m2 a + angle s m3 a) = sin (angle s j a - angle s k a)).
  { intros a Va. pose proof (valid_length _ _ Va) as La. destruct (phase_translate s a m1 m2 H1 (valid_length _ _ H2) La) as [p Hp]. fold j in Hp. destruct (phase_opp s m3 a H3 La) as [q Hq]. fold k in Hq. rewrite (phase_sym s a j), (phase_sym s a m1), (phase_sym s a m2) in Hp.
    unfold angle. rewrite Hp, Hq. replace (2 * PI * (phase s m1 a + phase s m2 a - IZR p) - 2 * PI * (IZR q - phase s m3 a)) with (2 * PI * phase s m1 a + 2 * PI * phase s m2 a + 2 * PI * phase s m3 a + 2 * PI * IZR (- p - q)) by (rewrite minus_IZR, opp_IZR; ring). rewrite cos_period_Z, sin_period_Z. auto. }
  split.
  - rewrite <- closed_spec by assumption. fold j k. rewrite <- (cos_orth s j k Vj Vk). apply rsum_ext. intros a Ha. apply indices_valid in Ha. apply E, Ha.
  - rewrite <- (sin_orth s j k Vj Vk). apply rsum_ext. intros a Ha. apply indices_valid in Ha. apply E, Ha.
Qed.
Lemma triple_transform : forall s P1 Q1 P2 Q2 P3 Q3, 0 < ncells s ->
  rsum (map (fun a => re3 (ifft_re s P1 Q1 a) (ifft_im s P1 Q1 a) (ifft_re s P2 Q2 a) (ifft_im s P2 Q2 a) (ifft_re s P3 Q3 a) (ifft_im s P3 Q3 a)) (indices s)) =
  rsum (map (fun m1 => rsum (map (fun m2 => rsum (map (fun m3 => if closed s m1 m2 m3 then re3 (P1 m1) (Q1 m1) (P2 m2) (Q2 m2) (P3 m3) (Q3 m3) else 0) (indices s))) (indices s))) (indices s)) / ncells s ^ 2.
Proof.
  intros s P1 Q1 P2 Q2 P3 Q3 N. set (l := indices s).
  set (term := fun m1 m2 m3 a => re3 (P1 m1) (Q1 m1) (P2 m2) (Q2 m2) (P3 m3) (Q3 m3) * cos (angle s m1 a + angle s m2 a + angle s m3 a) - ((P1 m1 * P2 m2 - Q1 m1 * Q2 m2) * Q3 m3 + (P1 m1 * Q2 m2 + Q1 m1 * P2 m2) * P3 m3) * sin (angle s m1 a + angle s m2 a + angle s m3 a)).
  assert (ST : forall a, re3 (ifft_re s P1 Q1 a) (ifft_im s P1 Q1 a) (ifft_re s P2 Q2 a) (ifft_im s P2 Q2 a) (ifft_re s P3 Q3 a) (ifft_im s P3 Q3 a) = (/ ncells s) ^ 3 * rsum (map (fun m1 => rsum (map (fun m2 => rsum (map (fun m3 => term m1 m2 m3 a) l)) l)) l)).
  { intro a. unfold ifft_re, ifft_im, Rdiv. rewrite !(Rmult_comm _ (/ ncells s)), re3_scale. f_equal. rewrite re3_sum. apply rsum_ext. intros m1 _. apply rsum_ext. intros m2 _. apply rsum_ext. intros m3 _. apply re3_phase. }
  rewrite (rsum_ext _ _ l (fun a _ => ST a)), rsum_scale.
  assert (SW : rsum (map (fun a => rsum (map (fun m1 => rsum (map (fun m2 => rsum (map (fun m3 => term m1 m2 m3 a) l)) l)) l)) l) = rsum (map (fun m1 => rsum (map (fun m2 => rsum (map (fun m3 => rsum (map (fun a => term m1 m2 m3 a) l)) l)) l)) l)).
  { rewrite rsum_swap. apply rsum_ext. intros m1 _. rewrite rsum_swap. apply rsum_ext. intros m2 _. apply rsum_swap. }
  rewrite SW. replace (rsum (map (fun m1 => rsum (map (fun m2 => rsum (map (fun m3 => rsum (map (fun a => term m1 m2 m3 a) l)) l)) l)) l)) with (ncells s * rsum (map (fun m1 => rsum (map (fun m2 => rsum (map (fun m3 => if closed s m1 m2 m3 then re3 (P1 m1) (Q1 m1) (P2 m2) (Q2 m2) (P3 m3) (Q3 m3) else 0) l)) l)) l)); [field; lra|].
  rewrite <- rsum_scale. apply rsum_ext. intros m1 I1. rewrite <- rsum_scale. apply rsum_ext. intros m2 I2. rewrite <- rsum_scale. apply rsum_ext. intros m3 I3. unfold l in *. apply indices_valid in I1, I2, I3. destruct (three_waves s m1 m2 m3 I1 I2 I3) as [C S0]. unfold term. rewrite rsum_minus, !rsum_scale, C, S0. destruct (closed s m1 m2 m3); ring.
Qed.

(** * The double shift *)
Definition twice (s m : list nat) : list nat := shift_sources s (shift_sources s m).
Lemma twice_axis : forall n k, (k < n)%nat -> shift_source n (shift_source n k) = ((k + (if Nat.even n then 0 else 1)) mod n)%nat /\ shift_source n k = ((shift_source n (shift_source n k) + n / 2) mod n)%nat.
Proof.
  intros n k K. assert (N : n <> 0%nat) by lia. unfold shift_source. rewrite !Nat.add_mod_idemp_l by exact N. assert (D : (n / 2 <= n)%nat) by (apply Nat.div_le_upper_bound; lia). split.
  - destruct (Nat.even n) eqn:E.
    + apply Nat.even_spec in E. destruct E as [q Hq]. replace (n / 2)%nat with q by (rewrite Hq, Nat.mul_comm, Nat.div_mul; lia). replace (k + (n - q) + (n - q))%nat with (k + 0 + 1 * n)%nat by lia. apply Nat.mod_add, N.
    + assert (O : Nat.odd n = true) by (rewrite <- Nat.negb_even, E; reflexivity). apply Nat.odd_spec in O. destruct O as [q Hq]. replace (n / 2)%nat with q by (rewrite Hq, Nat.mul_comm, Nat.div_add_l by lia; cbn; lia). replace (k + (n - q) + (n - q))%nat with (k + 1 + 1 * n)%nat by lia. apply Nat.mod_add, N.
  - replace (k + (n - n / 2) + (n - n / 2) + n / 2)%nat with (k + (n - n / 2) + 1 * n)%nat by lia. symmetry. apply Nat.mod_add, N.
Qed.
Lemma position_twice : forall s m, valid s m -> position s (twice s m) = shift_sources s m.
Proof. intros s m V. unfold twice. induction V as [|n k s m Hk V IH]; [reflexivity|]. cbn [shift_sources position]. rewrite IH. f_equal. symmetry. apply (proj2 (twice_axis n k Hk)). Qed.
Lemma closed_twice : forall s m1 m2 m3, valid s m1 -> valid s m2 -> valid s m3 -> closed s m1 m2 m3 = adds_up offset s (twice s m1) (twice s m2) (twice s m3).
Proof.
  intros s m1 m2 m3 H1. revert m2 m3. induction H1 as [|n x s m1 Hx H1 IH]; intros m2 m3 H2 H3; inversion H2 as [|? y ? m2' Hy H2']; subst; inversion H3 as [|? z ? m3' Hz H3']; subst; [reflexivity|].
  unfold closed, twice in *. cbn [shift_sources adds_up]. rewrite <- (IH m2' m3' H2' H3'). f_equal. destruct (twice_axis n x Hx) as [-> _]. destruct (twice_axis n y Hy) as [-> _]. destruct (twice_axis n z Hz) as [-> _]. unfold offset. assert (N : n <> 0%nat) by lia.
  assert (R : forall a b c, ((a mod n + b mod n + c mod n) mod n = (a + b + c) mod n)%nat). { intros a b c. rewrite Nat.add_mod_idemp_r by exact N. rewrite <- Nat.add_assoc, Nat.add_mod_idemp_l by exact N. replace (a + (b mod n + c))%nat with (a + c + b mod n)%nat by lia. rewrite Nat.add_mod_idemp_r by exact N. f_equal. lia. }
  rewrite R. destruct (Nat.even n); [rewrite !Nat.add_0_r; reflexivity|]. replace (x + 1 + (y + 1) + (z + 1))%nat with (x + y + z + 3)%nat by lia. rewrite Nat.mod_0_l by exact N.
  apply eq_true_iff_eq. rewrite !Nat.eqb_eq. set (w := (x + y + z)%nat). split; intro E.
  - rewrite Nat.add_mod, E by exact N. cbn [Nat.add]. apply Nat.mod_mod, N.
  - assert (Z.of_nat (w mod n) = 0)%Z; [|lia]. rewrite Nat2Z.inj_mod. assert (E' : (Z.of_nat ((w + 3) mod n) = Z.of_nat (3 mod n))%Z) by (rewrite E; reflexivity). rewrite !Nat2Z.inj_mod, Nat2Z.inj_add in E'.
    replace (Z.of_nat w) with (Z.of_nat w + Z.of_nat 3 - Z.of_nat 3)%Z by lia. rewrite Zminus_mod, E', Z.sub_diag. apply Zmod_0_l.
Qed.
Lemma sum_twice : forall s (f : list nat -> R), rsum (map (fun m => f (twice s m)) (indices s)) = rsum (map f (indices s)).
Proof. intros s f. unfold twice. rewrite (sum_shift s (fun m => f (shift_sources s m))). apply sum_shift. Qed.
Lemma triple_shifted : forall s F G (m1 m2 m3 : array), 0 < ncells s ->
  let D m := ifft_re s (shifted s (fun i => F (shift_sources s i) * m i)) (shifted s (fun i => G (shift_sources s i) * m i)) in let E m := ifft_im s (shifted s (fun i => F (shift_sources s i) * m i)) (shifted s (fun i => G (shift_sources s i) * m i)) in
  rsum (map (fun a => re3 (D m1 a) (E m1 a) (D m2 a) (E m2 a) (D m3 a) (E m3 a)) (indices s)) =
  rsum (map (fun n1 => rsum (map (fun n2 => rsum (map (fun n3 => if adds_up offset s n1 n2 n3 then m1 (position s n1) * m2 (position s n2) * m3 (position s n3) * re3 (F n1) (G n1) (F n2) (G n2) (F n3) (G n3) else 0) (indices s))) (indices s))) (indices s)) / ncells s ^ 2.
Proof.
  intros s F G m1 m2 m3 N D E. unfold D, E. rewrite triple_transform by exact N. f_equal.
  set (h := fun n1 n2 n3 => if adds_up offset s n1 n2 n3 then m1 (position s n1) * m2 (position s n2) * m3 (position s n3) * re3 (F n1) (G n1) (F n2) (G n2) (F n3) (G n3) else 0).
  transitivity (rsum (map (fun a => rsum (map (fun b => rsum (map (fun c => h (twice s a) (twice s b) (twice s c)) (indices s))) (indices s))) (indices s))).
  - apply rsum_ext. intros a Ia. apply rsum_ext. intros b Ib. apply rsum_ext. intros c Ic. apply indices_valid in Ia, Ib, Ic. unfold h. rewrite <- closed_twice, !position_twice by assumption. destruct (closed s a b c); [|reflexivity]. unfold shifted, twice, re3. ring.
  - rewrite (sum_twice s (fun a => rsum (map (fun b => rsum (map (fun c => h a (twice s b) (twice s c)) (indices s))) (indices s)))). apply rsum_ext. intros a _. rewrite (sum_twice s (fun b => rsum (map (fun c => h a b (twice s c)) (indices s)))). apply rsum_ext. intros b _. apply (sum_twice s (fun c => h a b c)).
Qed.
Lemma rsum_prod : forall {A B} (l : list A) (m : list B) f, rsum (map f (list_prod l m)) = rsum (map (fun a => rsum (map (fun b => f (a, b)) m)) l).
Proof. intros A B l m f. induction l as [|a l IH]; [reflexivity|]. cbn [list_prod map]. rewrite map_app, rsum_app, map_map. cbn [rsum fold_right]. fold rsum. rewrite IH. reflexivity. Qed.
Lemma rsum_filter_if : forall {A} (p : A -> bool) (f : A -> R) l, rsum (map f (filter p l)) = rsum (map (fun a => if p a then f a else 0) l).
Proof. intros A p f l. induction l as [|a l IH]; [reflexivity|]. cbn [filter map]. destruct (p a); cbn [map rsum fold_right] in *; unfold rsum in *; rewrite IH; ring. Qed.
Lemma length_rsum : forall {A} (l : list A), INR (length l) = rsum (map (fun _ => 1) l).
Proof. intros A l. rewrite rsum_const. ring. Qed.
Lemma nested_triples : forall (s : list nat) (kmag : array) (i1 i2 i3 : R -> bool) (w : list nat -> list nat -> list nat -> R) (m1 m2 m3 : array), (forall j, m1 j = if i1 (kmag j) then 1 else 0) -> (forall j, m2 j = if i2 (kmag j) then 1 else 0) -> (forall j, m3 j = if i3 (kmag j) then 1 else 0) ->
  rsum (map (fun n1 => rsum (map (fun n2 => rsum (map (fun n3 => if adds_up offset s n1 n2 n3 then m1 (position s n1) * m2 (position s n2) * m3 (position s n3) * w n1 n2 n3 else 0) (indices s))) (indices s))) (indices s)) =
  rsum (map (fun '(n1, n2, n3) => w n1 n2 n3) (triples offset s kmag i1 i2 i3)).
Proof.
  intros s kmag i1 i2 i3 w m1 m2 m3 H1 H2 H3. unfold triples. rewrite rsum_filter_if, rsum_prod, rsum_prod. apply rsum_ext. intros a _. apply rsum_ext. intros b _. apply rsum_ext. intros c _. cbn beta iota. rewrite H1, H2, H3.
  destruct (adds_up offset s a b c), (i1 (kmag (position s a))), (i2 (kmag (position s b))), (i3 (kmag (position s c))); cbn [andb]; ring.
Qed.
(** The estimate is the volume squared over the number of cells cubed times the mean, over all triples of modes in the three shells whose
    frequencies add up to zero on even axes and to three on odd axes, of the product of the three amplitudes. *)
Theorem C84_triangles : forall s box kmag x k1 k2 k3 dk1 dk2 dk3, 0 < ncells s -> (k1 = k2 -> dk1 = dk2) -> (k1 = k3 -> dk1 = dk3) -> (k2 = k3 -> dk2 = dk3) ->
  bispectrum s box kmag x k1 k2 k3 dk1 dk2 dk3 = rprod box ^ 2 / ncells s ^ 3 * mean_product s x (triples offset s kmag (within k1 dk1) (within k2 dk2) (within k3 dk3)).
Proof.
  intros s box kmag x k1 k2 k3 dk1 dk2 dk3 N E12 E13 E23. unfold bispectrum. destruct (masks k1 k2 k3 dk1 dk2 dk3 kmag) as [[m1 m2] m3] eqn:M. unfold masks in M.
  assert (SH : forall k dk q : R, in_shell k dk q = if within k dk q then 1 else 0) by (intros; unfold in_shell, within; destruct (Rlt_dec (Rabs (q - k)) (dk / 2)); reflexivity).
  assert (HM : (forall j, m1 j = if within k1 dk1 (kmag j) then 1 else 0) /\ (forall j, m2 j = if within k2 dk2 (kmag j) then 1 else 0) /\ (forall j, m3 j = if within k3 dk3 (kmag j) then 1 else 0)).
  { injection M as <- <- <-. split; [intro; apply SH|]. split.
    - intro j. destruct (Req_EM_T k2 k1) as [Q|Q]; [|apply SH]. rewrite SH, <- (E12 (eq_sym Q)), Q. reflexivity.
    - intro j. destruct (Req_EM_T k3 k1) as [Q|Q]; [rewrite SH, <- (E13 (eq_sym Q)), Q; reflexivity|]. destruct (Req_EM_T k3 k2) as [Q'|Q']; [|apply SH]. destruct (Req_EM_T k2 k1) as [Q''|Q'']; [congruence|]. rewrite SH, <- (E23 (eq_sym Q')), Q'. reflexivity. }
  destruct HM as (H1 & H2 & H3). set (T := triples offset s kmag (within k1 dk1) (within k2 dk2) (within k3 dk3)).
  assert (SD : sum_d s x m1 m2 m3 = rsum (map (fun '(n1, n2, n3) => product s x n1 n2 n3) T) / ncells s ^ 2).
  { unfold sum_d, d_re, d_im, ft_re, ft_im. rewrite (triple_shifted s (fft_re s x) (fft_im s x) m1 m2 m3 N). f_equal. unfold T. rewrite <- (nested_triples s kmag (within k1 dk1) (within k2 dk2) (within k3 dk3) (product s x) m1 m2 m3 H1 H2 H3). reflexivity. }
  assert (SS : sum_s s m1 m2 m3 = INR (length T) / ncells s ^ 2).
  { assert (Q : sum_s s m1 m2 m3 = rsum (map (fun '(n1, n2, n3) => 1) T) / ncells s ^ 2).
    { pose proof (triple_shifted s (fun _ => 1) (fun _ => 0) m1 m2 m3 N) as TS. cbv zeta in TS. etransitivity; [|etransitivity; [exact TS|]].
      - unfold sum_s, s_re, s_im. apply rsum_ext. intros a _. f_equal; unfold ifft_re, ifft_im; f_equal; apply rsum_ext; intros j _; unfold shifted; ring.
      - f_equal. unfold T. rewrite <- (nested_triples s kmag (within k1 dk1) (within k2 dk2) (within k3 dk3) (fun _ _ _ => 1) m1 m2 m3 H1 H2 H3). apply rsum_ext. intros a _. apply rsum_ext. intros b _. apply rsum_ext. intros c _. destruct (adds_up offset s a b c); [|reflexivity]. unfold re3. ring. }
    rewrite Q, length_rsum. f_equal. apply rsum_ext. intros [[a b] c] _. reflexivity. }
  rewrite SD, SS. unfold mean_product. fold T. destruct (Req_dec (INR (length T)) 0) as [Z0|Z0].
  - rewrite Z0. assert (T = []) by (destruct T; [reflexivity|exfalso; cbn [length] in Z0; rewrite S_INR in Z0; pose proof (pos_INR (length T)); lra]). rewrite H. cbn. unfold Rdiv. ring.
  - field. split; lra.
Qed.
Print Assumptions C84_triangles.
Example C84_triangles_sat : exists (s : list nat) (k1 k2 k3 dk1 dk2 dk3 : R), 0 < ncells s /\ (k1 = k2 -> dk1 = dk2) /\ (k1 = k3 -> dk1 = dk3) /\ (k2 = k3 -> dk2 = dk3) /\ dk1 <> dk3.
Proof. exists [4; 5; 6]%nat, 1, 1, 2, (1/10), (1/10), (1/5). split; [unfold ncells; cbn; lra|]. lra. Qed.
Lemma triples_sat : In ([0; 1]%nat, [0; 1]%nat, [0; 0]%nat) (triples offset [2; 2]%nat (fun _ => 1) (within 1 1) (within 1 1) (within 1 1)).
Proof. unfold triples. apply filter_In. split; [cbn; tauto|]. unfold within. replace (1 - 1) with 0 by ring. rewrite Rabs_R0. destruct (Rlt_dec 0 (1 / 2)); [reflexivity|lra]. Qed.
(** On grids with only even axes these are the closed triangles. *)
Theorem C84_closed : forall s m1 m2 m3, Forall (fun n => Nat.even n = true) s -> adds_up offset s m1 m2 m3 = closed s m1 m2 m3.
Proof.
  intros s m1 m2 m3 E. revert m1 m2 m3. induction E as [|n s En E IH]; intros [|x m1] [|y m2] [|z m3]; try reflexivity. unfold closed in *. cbn [adds_up]. rewrite IH. unfold offset. rewrite En. reflexivity.
Qed.
Print Assumptions C84_closed.
Example C84_closed_sat : exists s, Forall (fun n => Nat.even n = true) s.
Proof. exists [4; 6; 2]%nat. repeat constructor. Qed.
(** With an odd axis of more than three cells not a single closed triangle is used. *)
Theorem C84_odd_refuted : forall s m1 m2 m3, (exists n, In n s /\ Nat.even n = false /\ (3 < n)%nat) -> valid s m1 -> valid s m2 -> valid s m3 -> adds_up offset s m1 m2 m3 = true -> closed s m1 m2 m3 = false.
Proof.
  intros s m1 m2 m3 (n & I & E & L) H1. revert m2 m3. induction H1 as [|n' x s m1 Hx H1 IH]; intros m2 m3 H2 H3 A; [destruct I|]. inversion H2 as [|? y ? m2' Hy H2']; subst. inversion H3 as [|? z ? m3' Hz H3']; subst. unfold closed in *. cbn [adds_up] in *. apply andb_true_iff in A. destruct A as [A1 A2].
  destruct I as [-> |I].
  - apply Nat.eqb_eq in A1. unfold offset in A1. rewrite E in A1. rewrite (Nat.mod_small 3) in A1 by exact L. rewrite A1, Nat.mod_0_l by lia. reflexivity.
  - rewrite (IH I m2' m3' H2' H3' A2). apply andb_false_r.
Qed.
Print Assumptions C84_odd_refuted.
Example C84_odd_refuted_sat : exists s m1 m2 m3, (exists n, In n s /\ Nat.even n = false /\ (3 < n)%nat) /\ valid s m1 /\ valid s m2 /\ valid s m3 /\ adds_up offset s m1 m2 m3 = true.
Proof. exists [5; 4]%nat, [1; 1]%nat, [1; 2]%nat, [1; 1]%nat. split; [exists 5%nat; cbn; repeat split; auto; lia|]. repeat split; repeat constructor. Qed.
(** Homogeneous of degree three. *)
Theorem C84_cubic : forall s box kmag x k1 k2 k3 dk1 dk2 dk3 c, bispectrum s box kmag (fun a => c * x a) k1 k2 k3 dk1 dk2 dk3 = c ^ 3 * bispectrum s box kmag x k1 k2 k3 dk1 dk2 dk3.
Proof.
  intros s box kmag x k1 k2 k3 dk1 dk2 dk3 c. unfold bispectrum. destruct (masks k1 k2 k3 dk1 dk2 dk3 kmag) as [[m1 m2] m3].
  assert (FR : forall j, fft_re s (fun a => c * x a) j = c * fft_re s x j) by (intro j; unfold fft_re; rewrite <- rsum_scale; apply rsum_ext; intros; ring).
  assert (FI : forall j, fft_im s (fun a => c * x a) j = c * fft_im s x j) by (intro j; unfold fft_im; rewrite <- Ropp_mult_distr_r, <- rsum_scale; f_equal; apply rsum_ext; intros; ring).
  assert (DR : forall m a, d_re s (fun a => c * x a) m a = c * d_re s x m a). { intros m a. unfold d_re, ifft_re, shifted, ft_re, ft_im, Rdiv. rewrite <- Rmult_assoc, <- rsum_scale. f_equal. apply rsum_ext. intros. rewrite FR, FI. ring. }
  assert (DI : forall m a, d_im s (fun a => c * x a) m a = c * d_im s x m a). { intros m a. unfold d_im, ifft_im, shifted, ft_re, ft_im, Rdiv. rewrite <- Rmult_assoc, <- rsum_scale. f_equal. apply rsum_ext. intros. rewrite FR, FI. ring. }
  assert (SD : sum_d s (fun a => c * x a) m1 m2 m3 = c ^ 3 * sum_d s x m1 m2 m3). { unfold sum_d. rewrite <- rsum_scale. apply rsum_ext. intros a _. rewrite !DR, !DI. apply re3_scale. }
  rewrite SD. unfold Rdiv. ring.
Qed.
Print Assumptions C84_cubic.
(** Symmetric in the three shells, provided equal centres have equal widths; otherwise the width of a repeated centre is ignored. *)
Theorem C84_symmetric : forall s box kmag x k1 k2 k3 dk1 dk2 dk3, (k1 = k2 -> dk1 = dk2) -> (k1 = k3 -> dk1 = dk3) -> (k2 = k3 -> dk2 = dk3) ->
  bispectrum s box kmag x k2 k1 k3 dk2 dk1 dk3 = bispectrum s box kmag x k1 k2 k3 dk1 dk2 dk3 /\ bispectrum s box kmag x k1 k3 k2 dk1 dk3 dk2 = bispectrum s box kmag x k1 k2 k3 dk1 dk2 dk3.
Proof.
  intros s box kmag x k1 k2 k3 dk1 dk2 dk3 E12 E13 E23. unfold bispectrum. set (sh1 := fun i => in_shell k1 dk1 (kmag i)). set (sh2 := fun i => in_shell k2 dk2 (kmag i)). set (sh3 := fun i => in_shell k3 dk3 (kmag i)).
  assert (E1 : k1 = k2 -> sh1 = sh2) by (intro Q; unfold sh1, sh2; rewrite (E12 Q), Q; reflexivity). assert (E2 : k1 = k3 -> sh1 = sh3) by (intro Q; unfold sh1, sh3; rewrite (E13 Q), Q; reflexivity). assert (E3 : k2 = k3 -> sh2 = sh3) by (intro Q; unfold sh2, sh3; rewrite (E23 Q), Q; reflexivity).
  assert (B : forall m1 m2 m3, sum_d s x m2 m1 m3 = sum_d s x m1 m2 m3 /\ sum_s s m2 m1 m3 = sum_s s m1 m2 m3 /\ sum_d s x m1 m3 m2 = sum_d s x m1 m2 m3 /\ sum_s s m1 m3 m2 = sum_s s m1 m2 m3).
  { intros m1 m2 m3. unfold sum_d, sum_s. repeat split; apply rsum_ext; intros a _; unfold re3; ring. }
  destruct (B sh1 sh2 sh3) as (B1 & B2 & B3 & B4).
  assert (M1 : masks k2 k1 k3 dk2 dk1 dk3 kmag = (sh2, sh1, sh3)).
  { unfold masks. cbv zeta. fold sh1 sh2 sh3. destruct (Req_EM_T k1 k2) as [Q|Q]; [rewrite (E1 Q)|]; destruct (Req_EM_T k3 k2) as [Q'|Q']; try (rewrite (E3 (eq_sym Q'))); try reflexivity; destruct (Req_EM_T k3 k1) as [Q''|Q'']; try (rewrite <- (E2 (eq_sym Q''))); try reflexivity. exfalso. apply Q'. congruence. }
  assert (M2 : masks k1 k3 k2 dk1 dk3 dk2 kmag = (sh1, sh3, sh2)).
  { unfold masks. cbv zeta. fold sh1 sh2 sh3. destruct (Req_EM_T k3 k1) as [Q|Q]; [rewrite <- (E2 (eq_sym Q))|]; destruct (Req_EM_T k2 k1) as [Q'|Q']; try (rewrite <- (E1 (eq_sym Q'))); try reflexivity; destruct (Req_EM_T k2 k3) as [Q''|Q'']; try (rewrite (E3 Q'')); try reflexivity. exfalso. apply Q'. congruence. }
  assert (M0 : masks k1 k2 k3 dk1 dk2 dk3 kmag = (sh1, sh2, sh3)).
  { unfold masks. cbv zeta. fold sh1 sh2 sh3. destruct (Req_EM_T k2 k1) as [Q|Q]; [rewrite <- (E1 (eq_sym Q))|]; destruct (Req_EM_T k3 k1) as [Q'|Q']; try (rewrite <- (E2 (eq_sym Q'))); try reflexivity; destruct (Req_EM_T k3 k2) as [Q''|Q'']; try (rewrite (E3 (eq_sym Q''))); try reflexivity. exfalso. apply Q'. congruence. }
  rewrite M0, M1, M2, B1, B2, B3, B4. split; reflexivity.
Qed.
Print Assumptions C84_symmetric.
Example C84_symmetric_sat : exists k1 k2 k3 dk1 dk2 dk3 : R, (k1 = k2 -> dk1 = dk2) /\ (k1 = k3 -> dk1 = dk3) /\ (k2 = k3 -> dk2 = dk3) /\ k1 = k2 /\ dk1 <> dk3.
Proof. exists 1, 1, 2, (1/10), (1/10), (1/5). lra. Qed.
Theorem C84_width_ignored : forall s box kmag x k k3 dk1 dk2 dk2' dk3, bispectrum s box kmag x k k k3 dk1 dk2 dk3 = bispectrum s box kmag x k k k3 dk1 dk2' dk3.
Proof. intros. unfold bispectrum, masks. destruct (Req_EM_T k k) as [_|N]; [reflexivity|congruence]. Qed.
Print Assumptions C84_width_ignored.

(** * Translations *)
Lemma closed_phase : forall s m1 m2 m3 a, valid s m1 -> valid s m2 -> valid s m3 -> length a = length s -> closed s m1 m2 m3 = true -> exists k, phase s m1 a + phase s m2 a + phase s m3 a = IZR k.
Proof.
  intros s m1 m2 m3 a H1. revert m2 m3 a. induction H1 as [|n x s m1 Hx H1 IH]; intros m2 m3 a H2 H3 L C; [exists 0%Z; cbn; ring|]. inversion H2 as [|? y ? m2' Hy H2']; subst. inversion H3 as [|? z ? m3' Hz H3']; subst. destruct a as [|b a]; [discriminate|]. unfold closed in *. cbn [adds_up] in C. apply andb_true_iff in C. destruct C as [C1 C2].
  destruct (IH m2' m3' a H2' H3' ltac:(cbn in L; lia) C2) as [k Hk]. apply Nat.eqb_eq in C1. rewrite Nat.mod_0_l in C1 by lia. pose proof (Nat.div_mod (x + y + z) n ltac:(lia)) as D. rewrite C1, Nat.add_0_r in D. apply (f_equal INR) in D. rewrite !plus_INR, mult_INR in D.
  exists (k + Z.of_nat ((x + y + z) / n) * Z.of_nat b)%Z. cbn [phase]. rewrite plus_IZR, mult_IZR, <- !INR_IZR_INZ, <- Hk. assert (N : INR n <> 0) by (apply not_0_INR; lia).
  replace (INR x * INR b / INR n + phase s m1 a + (INR y * INR b / INR n + phase s m2' a) + (INR z * INR b / INR n + phase s m3' a)) with ((INR x + INR y + INR z) * INR b / INR n + (phase s m1 a + phase s m2' a + phase s m3' a)) by (field; exact N). rewrite D. field. exact N.
Qed.
(** On even grids the bispectrum does not change when the field is moved around the periodic box. *)
Theorem C84_translation : forall s box kmag x t k1 k2 k3 dk1 dk2 dk3, Forall (fun n => Nat.even n = true) s -> 0 < ncells s -> length t = length s -> (k1 = k2 -> dk1 = dk2) -> (k1 = k3 -> dk1 = dk3) -> (k2 = k3 -> dk2 = dk3) ->
  bispectrum s box kmag (translate s t x) k1 k2 k3 dk1 dk2 dk3 = bispectrum s box kmag x k1 k2 k3 dk1 dk2 dk3.
Proof.
  intros s box kmag x t k1 k2 k3 dk1 dk2 dk3 EV N Lt E12 E13 E23. rewrite !C84_triangles by assumption. f_equal. unfold mean_product. f_equal. apply rsum_ext. intros [[a b] c] I. unfold triples in I. apply filter_In in I. destruct I as [I P]. apply in_prod_iff in I. destruct I as [I Ic]. apply in_prod_iff in I. destruct I as [Ia Ib]. apply indices_valid in Ia, Ib, Ic. rewrite !andb_true_iff in P. destruct P as [[[P _] _] _]. rewrite C84_closed in P by exact EV.
  destruct (closed_phase s a b c t Ia Ib Ic Lt P) as [k Hk]. unfold product. pose proof (valid_length _ _ Ia) as La. pose proof (valid_length _ _ Ib) as Lb. pose proof (valid_length _ _ Ic) as Lc.
  destruct (fft_translate s x t a Lt La) as [-> ->]. destruct (fft_translate s x t b Lt Lb) as [-> ->]. destruct (fft_translate s x t c Lt Lc) as [-> ->]. rewrite re3_phase.
  replace (2 * PI * phase s a t + 2 * PI * phase s b t + 2 * PI * phase s c t) with (0 + 2 * PI * IZR k) by (rewrite <- Hk; ring). rewrite cos_period_Z, sin_period_Z, cos_0, sin_0. ring.
Qed.
Print Assumptions C84_translation.
Example C84_translation_sat : exists (s t : list nat) (k1 k2 k3 dk1 dk2 dk3 : R), Forall (fun n => Nat.even n = true) s /\ 0 < ncells s /\ length t = length s /\ (k1 = k2 -> dk1 = dk2) /\ (k1 = k3 -> dk1 = dk3) /\ (k2 = k3 -> dk2 = dk3).
Proof. exists [4; 6]%nat, [3; 1]%nat, 1, 1, 2, (1/10), (1/10), (1/5). split; [repeat constructor|]. split; [unfold ncells; cbn; lra|]. split; [reflexivity|]. lra. Qed.

(** * Shells and angles *)
(** Given components instead of magnitudes the mask compares the squared wavenumber with the centre. *)
Theorem C84_component_mask : forall k dk comps, in_shell_comp k dk comps = in_shell k dk (sqrt (rsum (map (fun c => c ^ 2) comps)) ^ 2).
Proof. intros k dk comps. unfold in_shell_comp. f_equal. rewrite pow2_sqrt; [reflexivity|]. apply rsum_nonneg. intros v Hv. apply in_map_iff in Hv. destruct Hv as (c & <- & _). nra. Qed.
Print Assumptions C84_component_mask.
Theorem C84_component_refuted : exists k dk comps, 0 < k /\ in_shell_comp k dk comps <> in_shell k dk (sqrt (rsum (map (fun c => c ^ 2) comps))).
Proof.
  exists 2, 1, [2]. split; [lra|]. unfold in_shell_comp. cbn [map rsum fold_right]. replace (2 ^ 2 + 0) with (2 * 2) by ring. rewrite sqrt_square by lra. unfold in_shell. replace (2 - 2) with 0 by ring. rewrite Rabs_R0. destruct (Rlt_dec 0 (1 / 2)); [|lra]. replace (2 * 2 - 2) with 2 by ring. rewrite Rabs_right by lra. destruct (Rlt_dec 2 (1 / 2)); lra.
Qed.
Print Assumptions C84_component_refuted.
(** The third side lies between the difference and the sum of the other two, reached at pi and 0; it shrinks as the angle grows; sides
    are equal iff the cosine is -1/2, so the angle pi/3 used for the equilateral case gives a side longer by the root of three. *)
Theorem C84_third_side : forall k1 k2 al, 0 <= k1 -> 0 <= k2 -> Rabs (k1 - k2) <= cosine_rule k1 k2 al <= k1 + k2 /\ cosine_rule k1 k2 0 = k1 + k2 /\ cosine_rule k1 k2 PI = Rabs (k1 - k2).
Proof.
  intros k1 k2 al H1 H2. unfold cosine_rule. pose proof (COS_bound al) as [B1 B2]. assert (P : 0 <= k1 * k2) by nra. split; [split|split].
  - rewrite <- sqrt_Rsqr_abs. apply sqrt_le_1_alt. unfold Rsqr. nra.
  - rewrite <- (sqrt_square (k1 + k2)) by lra. apply sqrt_le_1_alt. nra.
  - rewrite cos_0. rewrite <- (sqrt_square (k1 + k2)) by lra. f_equal. ring.
  - rewrite cos_PI, <- sqrt_Rsqr_abs. f_equal. unfold Rsqr. ring.
Qed.
Print Assumptions C84_third_side.
Example C84_third_side_sat : exists (k1 : R) (k2 : R), 0 <= k1 /\ 0 <= k2.
Proof. exists 2, 3. repeat split; first [lra | lia | reflexivity | discriminate | congruence | auto]. Qed.
Theorem C84_equilateral : forall k al, 0 < k -> (cosine_rule k k al = k <-> cos al = - / 2) /\ cosine_rule k k equilateral_angle = sqrt 3 * k.
Proof.
  intros k al H. unfold cosine_rule, equilateral_angle. pose proof (COS_bound al) as [B1 B2]. split; [split; intro E|].
  - apply (f_equal (fun v => v * v)) in E. rewrite sqrt_sqrt in E by nra. apply (Rmult_eq_reg_r (2 * k * k)); nra.
  - rewrite E. rewrite <- (sqrt_square k) at 5 by lra. f_equal. field.
  - rewrite cos_PI3. replace (k ^ 2 + k ^ 2 + 2 * k * k * (1 / 2)) with (3 * (k * k)) by field. rewrite sqrt_mult_alt by lra. rewrite sqrt_square by lra. reflexivity.
Qed.
Print Assumptions C84_equilateral.
Example C84_equilateral_sat : exists (k : R), 0 < k.
Proof. exists (1/2). repeat split; first [lra | lia | reflexivity | discriminate | congruence | auto]. Qed.
(** The wavenumbers of linear binning increase and lie strictly between the fundamental and the Nyquist wavenumber. *)
Theorem C84_bins : forall box nmin n_bins i, 0 < box -> (2 < nmin)%nat -> (i < n_bins)%nat -> 2 * PI / box < equilateral_k box nmin n_bins i < PI * INR nmin / box /\ equilateral_k box nmin n_bins i < equilateral_k box nmin n_bins (S i).
Proof.
  intros box nmin n_bins i B N I. unfold equilateral_k. cbv zeta. assert (PB : 0 < PI / box) by (apply Rdiv_lt_0_compat; [apply PI_RGT_0|exact B]). assert (NN : 3 <= INR nmin) by (replace 3 with (INR 3) by (cbn; ring); apply le_INR; lia). assert (NB : 0 < INR n_bins) by (apply lt_0_INR; lia).
  replace (2 * PI / box * INR nmin / 2) with (PI / box * INR nmin) by (field; lra). replace (2 * PI / box) with (2 * (PI / box)) by (field; lra). replace (PI * INR nmin / box) with (PI / box * INR nmin) by (field; lra). set (u := PI / box) in *. set (w := (u * INR nmin - 2 * u) / INR n_bins).
  assert (W : 0 < w) by (apply Rdiv_lt_0_compat; nra). assert (WN : INR n_bins * w = u * INR nmin - 2 * u) by (unfold w; field; lra). rewrite !S_INR. pose proof (pos_INR i) as P0. assert (I1 : INR i + 1 <= INR n_bins) by (rewrite <- S_INR; apply le_INR; lia). repeat split; nra.
Qed.
Print Assumptions C84_bins.
Example C84_bins_sat : exists box nmin n_bins i, 0 < box /\ (2 < nmin)%nat /\ (i < n_bins)%nat.
Proof. exists 100, 64%nat, 10%nat, 9%nat. repeat split; lra || lia. Qed.
