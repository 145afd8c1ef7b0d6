(** C91: cross spectra in bins, the anisotropy ratio and the dimensionless spectrum. *)
From Coq Require Import List Arith Reals Lra Lia Bool.
From Verif Require Import RLib KGridModel FourierModel FourierSpec FourierProofs FourierProps SpecModel.
Import ListNotations.
Local Open Scope R_scope.

Lemma rleb_true : forall a b, rleb a b = true <-> a <= b.
Proof. intros a b. unfold rleb. destruct (Rle_dec a b); split; auto; discriminate. Qed.
Lemma rltb_true : forall a b, rltb a b = true <-> a < b.
Proof. intros a b. unfold rltb. destruct (Rlt_dec a b); split; auto; discriminate. Qed.
Lemma rltb_false : forall a b, rltb a b = false <-> b <= a.
Proof. intros a b. unfold rltb. destruct (Rlt_dec a b); split; intro; try discriminate; try reflexivity; lra. Qed.

(** * Specification *)
(** Two results that are numbers or nan satisfy a relation: both are nan, or both numbers are related. *)
Definition both (P : R -> R -> Prop) (a b : option R) : Prop := match a, b with Some x, Some y => P x y | None, None => True | _, _ => False end.
Definition positive_box (shape : list nat) (box : list R) : Prop := Forall (fun n => (0 < n)%nat) shape /\ Forall (fun L => 0 < L) box.

Lemma scale_nonneg : forall shape box, positive_box shape box -> 0 <= ps_scale shape box.
Proof.
  intros shape box [S B]. unfold ps_scale. pose proof (rprod_pos box B). apply Rmult_le_pos; [apply pow2_ge_0|]. left. apply Rinv_0_lt_compat. lra.
Qed.
Lemma cs_step : forall a b c p q r, a * a <= b * c -> p * p <= q * r -> 0 <= b -> 0 <= c -> 0 <= q -> 0 <= r -> (a + p) * (a + p) <= (b + q) * (c + r).
Proof.
  intros a b c p q r H K B C Q Rr. assert (M : 2 * (a * p) <= b * r + c * q).
  { apply Rsqr_incr_0_var; [|nra]. unfold Rsqr. assert (X : (a * a) * (p * p) <= (b * c) * (q * r)) by (apply Rmult_le_compat; nra).
    pose proof (Rle_0_sqr (b * r - c * q)) as Y. unfold Rsqr in Y. lra. }
  nra.
Qed.
Lemma cs_sum : forall {A} (l : list A) (f g h : A -> R), (forall x, f x * f x <= g x * h x /\ 0 <= g x /\ 0 <= h x) ->
  rsum (map f l) * rsum (map f l) <= rsum (map g l) * rsum (map h l) /\ 0 <= rsum (map g l) /\ 0 <= rsum (map h l).
Proof.
  intros A l f g h H. unfold rsum. induction l as [|x l (I1 & I2 & I3)]; cbn [map fold_right]; [lra|]. destruct (H x) as (H1 & H2 & H3). split; [|split; lra].
  rewrite (Rplus_comm (f x)), (Rplus_comm (g x)), (Rplus_comm (h x)). apply cs_step; assumption.
Qed.
Lemma cell_cs : forall shape box x1 x2 i, positive_box shape box ->
  cross_power_spectrum_nd shape box x1 x2 i * cross_power_spectrum_nd shape box x1 x2 i <= power_spectrum_nd shape box x1 i * power_spectrum_nd shape box x2 i /\ 0 <= power_spectrum_nd shape box x1 i /\ 0 <= power_spectrum_nd shape box x2 i.
Proof.
  intros shape box x1 x2 i H. pose proof (scale_nonneg shape box H) as S. unfold power_spectrum_nd, cross_power_spectrum_nd. rewrite !cabs_sq. set (s := ps_scale shape box) in *.
  set (a := fft_re shape x1 _). set (b := fft_re shape x2 _). set (c := fft_im shape x1 _). set (d := fft_im shape x2 _). clearbody a b c d s. split; [|split; (apply Rmult_le_pos; [nra|assumption])].
  pose proof (Rle_0_sqr (a * d - b * c)) as Y. unfold Rsqr in Y. assert (0 <= s * s) by nra. replace ((a ^ 2 + c ^ 2) * s * ((b ^ 2 + d ^ 2) * s)) with ((a * b + c * d) * s * ((a * b + c * d) * s) + s * s * ((a * d - b * c) * (a * d - b * c))) by ring. nra.
Qed.
Lemma INR_pos : forall {A} (a : A) l, 0 < INR (length (a :: l)).
Proof. intros. apply lt_0_INR. cbn. lia. Qed.
Lemma mean_cs : forall cs shape box x1 x2, positive_box shape box -> forall p q r, bin_mean cs (cross_power_spectrum_nd shape box x1 x2) = Some p -> bin_mean cs (power_spectrum_nd shape box x1) = Some q -> bin_mean cs (power_spectrum_nd shape box x2) = Some r -> p * p <= q * r /\ 0 <= q /\ 0 <= r.
Proof.
  intros cs shape box x1 x2 H p q r P Q Rr. destruct cs as [|c cs]; [discriminate|].
  assert (M : forall f v, bin_mean (c :: cs) f = Some v -> v = rsum (map f (c :: cs)) / INR (length (c :: cs))) by (intros f v E; unfold bin_mean in E; congruence). apply M in P, Q, Rr. subst p q r.
  destruct (cs_sum (c :: cs) (cross_power_spectrum_nd shape box x1 x2) (power_spectrum_nd shape box x1) (power_spectrum_nd shape box x2) (fun i => cell_cs shape box x1 x2 i H)) as (E1 & E2 & E3).
  pose proof (Rinv_0_lt_compat _ (INR_pos c cs)) as N. unfold Rdiv. set (n := / INR (length (c :: cs))) in *. clearbody n. assert (N2 : 0 <= n * n) by nra. split; [|split; (apply Rmult_le_pos; [assumption|lra])]. pose proof (Rmult_le_compat_r (n * n) _ _ N2 E1). lra.
Qed.
(** A bin of the cross spectrum never exceeds what the two power spectra allow, and neither do the angular bins. *)
Theorem C91_cauchy_schwarz : forall shape box edges x1 x2 b p q r, positive_box shape box ->
  cross_power_1d shape box edges x1 x2 b = Some p -> power_1d shape box edges x1 b = Some q -> power_1d shape box edges x2 b = Some r -> p * p <= q * r /\ 0 <= q /\ 0 <= r.
Proof. intros. unfold cross_power_1d, power_1d in *. eapply mean_cs; eassumption. Qed.
Print Assumptions C91_cauchy_schwarz.

Lemma mean_map : forall cs f g, (forall i, f i = g i) -> bin_mean cs f = bin_mean cs g.
Proof. intros cs f g H. unfold bin_mean. destruct cs; [reflexivity|]. do 2 f_equal. apply rsum_ext. intros; apply H. Qed.
Lemma mean_map_in : forall cs f g, (forall i, In i cs -> f i = g i) -> bin_mean cs f = bin_mean cs g.
Proof. intros cs f g H. unfold bin_mean. destruct cs; [reflexivity|]. do 2 f_equal. apply rsum_ext. intros; apply H; assumption. Qed.
Lemma mean_affine : forall cs f g h c d, (forall i, h i = c * f i + d * g i) -> bin_mean cs h = match bin_mean cs f, bin_mean cs g with Some a, Some b => Some (c * a + d * b) | _, _ => None end.
Proof.
  intros cs f g h c d H. unfold bin_mean. destruct cs as [|x cs]; [reflexivity|]. f_equal. rewrite (rsum_ext h (fun i => c * f i + d * g i)) by (intros; apply H). rewrite rsum_plus, !rsum_scale. unfold Rdiv. ring.
Qed.
(** The order of the two fields does not matter, and a field with itself gives its power spectrum. *)
Theorem C91_symmetric : forall shape box edges x1 x2 b,
  cross_power_1d shape box edges x1 x2 b = cross_power_1d shape box edges x2 x1 b /\ cross_power_1d shape box edges x1 x1 b = power_1d shape box edges x1 b.
Proof. intros. unfold cross_power_1d, power_1d. split; apply mean_map; intro i; apply C24_cross_symmetric; exact x1. Qed.
Print Assumptions C91_symmetric.
Lemma cross_linear_r : forall shape box x y w c i, cross_power_spectrum_nd shape box w (fun a => c * x a + y a) i = c * cross_power_spectrum_nd shape box w x i + cross_power_spectrum_nd shape box w y i.
Proof. intros. rewrite (proj1 (C24_cross_symmetric shape box w _ i)), C24_bilinear, (proj1 (C24_cross_symmetric shape box x w i)), (proj1 (C24_cross_symmetric shape box y w i)). reflexivity. Qed.
Lemma power_sum : forall shape box x y c i, power_spectrum_nd shape box (fun a => c * x a + y a) i = c ^ 2 * power_spectrum_nd shape box x i + power_spectrum_nd shape box y i + 2 * c * cross_power_spectrum_nd shape box x y i.
Proof.
  intros. rewrite <- !(fun z => proj2 (C24_cross_symmetric shape box z z i)). rewrite C24_bilinear, !cross_linear_r, (proj1 (C24_cross_symmetric shape box y x i)). ring.
Qed.
(** The power spectrum of c x + y, from those of x and y and the cross spectrum; all are nan in the same bins. *)
Theorem C91_sum_of_fields : forall shape box edges x y c b,
  match power_1d shape box edges x b, power_1d shape box edges y b, cross_power_1d shape box edges x y b with
  | Some p, Some q, Some r => power_1d shape box edges (fun a => c * x a + y a) b = Some (c ^ 2 * p + q + 2 * c * r)
  | None, None, None => power_1d shape box edges (fun a => c * x a + y a) b = None
  | _, _, _ => False
  end.
Proof.
  intros. unfold power_1d, cross_power_1d, bin_mean. destruct (bin_1d shape box edges b) as [|i cs] eqn:E; [reflexivity|]. f_equal.
  rewrite (rsum_ext _ (fun i => (c ^ 2 * power_spectrum_nd shape box x i + power_spectrum_nd shape box y i) + 2 * c * cross_power_spectrum_nd shape box x y i)) by (intros; apply power_sum).
  rewrite rsum_plus, (rsum_plus (fun i => c ^ 2 * power_spectrum_nd shape box x i)), !rsum_scale. unfold Rdiv. ring.
Qed.
Print Assumptions C91_sum_of_fields.
Lemma cross_scale : forall shape box x y c d i, cross_power_spectrum_nd shape box (fun a => c * x a) (fun a => d * y a) i = c * d * cross_power_spectrum_nd shape box x y i.
Proof.
  intros. unfold cross_power_spectrum_nd. assert (F : forall z e j, fft_re shape (fun a => e * z a) j = e * fft_re shape z j /\ fft_im shape (fun a => e * z a) j = e * fft_im shape z j).
  { intros z e j. unfold fft_re, fft_im. split.
    - rewrite <- rsum_scale. apply rsum_ext. intros; ring.
    - rewrite Ropp_mult_distr_r_reverse, <- rsum_scale. f_equal. apply rsum_ext. intros; ring. }
  destruct (F x c (shift_sources shape i)) as [-> ->]. destruct (F y d (shift_sources shape i)) as [-> ->]. ring.
Qed.
Lemma mean_scale : forall cs f g c, (forall i, g i = c * f i) -> bin_mean cs g = option_map (Rmult c) (bin_mean cs f).
Proof. intros cs f g c H. unfold bin_mean. destruct cs as [|x cs]; [reflexivity|]. cbn [option_map]. f_equal. rewrite (rsum_ext g (fun i => c * f i)) by (intros; apply H). rewrite rsum_scale. unfold Rdiv. ring. Qed.
Theorem C91_scale : forall shape box edges x y c d b,
  cross_power_1d shape box edges (fun a => c * x a) (fun a => d * y a) b = option_map (Rmult (c * d)) (cross_power_1d shape box edges x y b).
Proof. intros. unfold cross_power_1d. apply mean_scale. intro i. apply cross_scale. Qed.
Print Assumptions C91_scale.
(** Translating both fields by the same periodic shift changes no bin. *)
Lemma power_ext : forall shape box x y i, (forall a, x a = y a) -> power_spectrum_nd shape box x i = power_spectrum_nd shape box y i.
Proof. intros shape box x y i H. unfold power_spectrum_nd, fft_re, fft_im. rewrite (rsum_ext (fun a => x a * cos _) (fun a => y a * cos (2 * PI * phase shape (shift_sources shape i) a))), (rsum_ext (fun a => x a * sin _) (fun a => y a * sin (2 * PI * phase shape (shift_sources shape i) a))); [reflexivity| |]; intros; rewrite H; reflexivity. Qed.
Lemma cross_translate : forall shape box x y s i, length s = length shape -> valid shape i ->
  cross_power_spectrum_nd shape box (translate shape s x) (translate shape s y) i = cross_power_spectrum_nd shape box x y i.
Proof.
  intros shape box x y s i L V. pose proof (power_sum shape box x y 1 i) as P. pose proof (power_sum shape box (translate shape s x) (translate shape s y) 1 i) as Q.
  pose proof (C24_translation_invariant shape box x s i L V) as T1. pose proof (C24_translation_invariant shape box y s i L V) as T2. pose proof (C24_translation_invariant shape box (fun a => 1 * x a + y a) s i L V) as T3.
  assert (E : power_spectrum_nd shape box (translate shape s (fun a => 1 * x a + y a)) i = power_spectrum_nd shape box (fun a => 1 * translate shape s x a + translate shape s y a) i) by (apply power_ext; reflexivity).
  rewrite E in T3. lra.
Qed.
Theorem C91_translation : forall shape box edges x y s b, length s = length shape ->
  cross_power_1d shape box edges (translate shape s x) (translate shape s y) b = cross_power_1d shape box edges x y b.
Proof.
  intros shape box edges x y s b L. unfold cross_power_1d. apply mean_map_in. intros i I. apply cross_translate; [exact L|]. unfold bin_1d, cells in I. apply filter_In in I. apply indices_valid. tauto.
Qed.
Print Assumptions C91_translation.
Example C91_translation_sat : exists (shape : list nat) (s : list nat), length s = length shape.
Proof. exists [4; 5; 6]%nat, [1; 2; 3]%nat. repeat split; first [lra | lia | reflexivity | discriminate | congruence | auto]. Qed.

(** * Angular bins *)
Lemma kmag_zero : forall shape box, length shape = 3%nat -> length box = 3%nat -> k_of shape box (map zero_index shape) = 0.
Proof.
  intros shape box S B. destruct shape as [|n1 [|n2 [|n3 [|? ?]]]]; try discriminate. destruct box as [|L1 [|L2 [|L3 [|? ?]]]]; try discriminate. cbn [map k_of]. unfold get_kmag_3d, kmag.
  assert (Z : forall n L, get_k_3d n L (zero_index n) = 0).
  { intros n L. unfold get_k_3d, k_component, center_3d, zero_index. destruct (Nat.eqb_spec (n mod 2) 0) as [E|E].
    - pose proof (Nat.div_mod n 2 ltac:(lia)) as D. rewrite E, Nat.add_0_r in D. rewrite D at 2. rewrite mult_INR. cbn [INR]. unfold Rdiv. replace (INR (n / 2) - (1 + 1) * INR (n / 2) * / 2) with 0 by lra. ring.
    - pose proof (Nat.div_mod n 2 ltac:(lia)) as D. assert (M : (n mod 2 = 1)%nat) by (pose proof (Nat.mod_upper_bound n 2); lia). rewrite M in D. rewrite D at 2. rewrite plus_INR, mult_INR. cbn [INR]. unfold Rdiv. replace (INR (n / 2) - ((1 + 1) * INR (n / 2) + 1 - 1) * / 2) with 0 by lra. ring. }
  rewrite !Z. replace (0 ^ 2 + 0 ^ 2 + 0 ^ 2) with 0 by ring. apply sqrt_0.
Qed.
Lemma not_zero_mode : forall absolute exclude los shape box mubins kbins m b i, length shape = 3%nat -> length box = 3%nat -> In i (bin_mu absolute exclude los shape box mubins kbins m b) -> i <> map zero_index shape.
Proof.
  intros absolute exclude los shape box mubins kbins m b i S B I ->. unfold bin_mu, cells in I. apply filter_In in I. destruct I as [_ I]. apply andb_prop in I. destruct I as [_ I]. unfold mu_of in I. rewrite kmag_zero in I by assumption. assert (E : rltb 0 0.001 = true) by (apply rltb_true; lra). cbv zeta in I. rewrite E in I. discriminate.
Qed.
(** Clearing the zero mode never matters: it belongs to no angular bin. So the angular bins average the plain spectra. *)
Theorem C91_mu_bins : forall absolute exclude los shape box mubins kbins x y m b, length shape = 3%nat -> length box = 3%nat ->
  power_mu absolute exclude los shape box mubins kbins x m b = bin_mean (bin_mu absolute exclude los shape box mubins kbins m b) (power_spectrum_nd shape box x) /\
  cross_power_mu absolute exclude los shape box mubins kbins x y m b = bin_mean (bin_mu absolute exclude los shape box mubins kbins m b) (cross_power_spectrum_nd shape box x y).
Proof.
  intros absolute exclude los shape box mubins kbins x y m b S B. unfold power_mu, cross_power_mu. split; apply mean_map_in; intros i I; unfold clear_zero_mode; destruct (list_eq_dec Nat.eq_dec i (map zero_index shape)) as [E|_]; try reflexivity; exfalso; exact (not_zero_mode _ _ _ _ _ _ _ _ _ _ S B I E).
Qed.
Print Assumptions C91_mu_bins.
Example C91_mu_bins_sat : exists (shape : list nat) (box : list R), length shape = 3%nat /\ length box = 3%nat.
Proof. exists [4; 5; 6]%nat, [1; 2; 3]. repeat split; first [lra | lia | reflexivity | discriminate | congruence | auto]. Qed.
Theorem C91_mu_cross : forall absolute exclude los shape box mubins kbins x y m b p q r, length shape = 3%nat -> length box = 3%nat -> positive_box shape box ->
  let P := power_mu absolute exclude los shape box mubins kbins in let X := cross_power_mu absolute exclude los shape box mubins kbins in
  X x y m b = X y x m b /\ X x x m b = P x m b /\ (X x y m b = Some p -> P x m b = Some q -> P y m b = Some r -> p * p <= q * r /\ 0 <= q /\ 0 <= r).
Proof.
  intros absolute exclude los shape box mubins kbins x y m b p q r S B H P X. unfold P, X.
  destruct (C91_mu_bins absolute exclude los shape box mubins kbins x y m b S B) as [E1 E2]. destruct (C91_mu_bins absolute exclude los shape box mubins kbins y x m b S B) as [E3 E4]. destruct (C91_mu_bins absolute exclude los shape box mubins kbins x x m b S B) as [E5 E6].
  rewrite E2, E4, E6, E1, E3. split; [|split].
  - apply mean_map. intro i. apply C24_cross_symmetric.
  - apply mean_map. intro i. apply C24_cross_symmetric. exact x.
  - intros. eapply mean_cs; eassumption.
Qed.
Print Assumptions C91_mu_cross.
Example C91_mu_cross_sat : exists (shape : list nat) (box : list R), length shape = 3%nat /\ length box = 3%nat /\ positive_box shape box.
Proof. exists [2; 2; 2]%nat, [10; 10; 10]. split; [reflexivity|]. split; [reflexivity|]. split; repeat constructor; lra. Qed.
(** The cosine of a cell lies between -1 and 1 (0 and 1 for absolute values) and is nan only within 0.001 of the zero mode. *)
Theorem C91_mu_range : forall absolute los shape box i, length shape = 3%nat -> length box = 3%nat -> length i = 3%nat -> (los < 3)%nat ->
  match mu_of absolute los shape box i with Some mu => 0.001 <= k_of shape box i /\ (if absolute then 0 else -1) <= mu <= 1 | None => k_of shape box i < 0.001 end.
Proof.
  intros absolute los shape box i S B I Lo. unfold mu_of. cbv zeta. destruct (rltb (k_of shape box i) 0.001) eqn:E; [apply rltb_true; exact E|]. apply rltb_false in E. split; [exact E|].
  destruct shape as [|n1 [|n2 [|n3 [|? ?]]]]; try discriminate. destruct box as [|L1 [|L2 [|L3 [|? ?]]]]; try discriminate. destruct i as [|i1 [|i2 [|i3 [|? ?]]]]; try discriminate. cbn [k_of] in *.
  set (kl := get_k_3d _ _ _). set (k := get_kmag_3d n1 n2 n3 L1 L2 L3 i1 i2 i3) in *.
  assert (K : Rabs kl <= k).
  { unfold k, get_kmag_3d, kmag. rewrite <- sqrt_Rsqr_abs. apply sqrt_le_1_alt. unfold Rsqr. destruct los as [|[|[|?]]]; [| | |lia]; unfold kl; cbn [nth]; pose proof (pow2_ge_0 (get_k_3d n1 L1 i1)); pose proof (pow2_ge_0 (get_k_3d n2 L2 i2)); pose proof (pow2_ge_0 (get_k_3d n3 L3 i3)); lra. }
  assert (P : 0 < k) by lra. clearbody kl k. assert (Q : Rabs (kl / k) <= 1). { unfold Rdiv. rewrite Rabs_mult, (Rabs_right (/ k)) by (apply Rle_ge; left; apply Rinv_0_lt_compat; exact P). apply Rmult_le_reg_r with k; [exact P|]. rewrite Rmult_assoc, Rinv_l, Rmult_1_r, Rmult_1_l by lra. exact K. }
  destruct absolute; [split; [apply Rabs_pos|exact Q]|]. rewrite (Rabs_right k) by lra. unfold Rabs in Q. destruct (Rcase_abs (kl / k)); lra.
Qed.
Print Assumptions C91_mu_range.
Example C91_mu_range_sat : exists (los : nat) (shape : list nat) (box : list R) (i : list nat), length shape = 3%nat /\ length box = 3%nat /\ length i = 3%nat /\ (los < 3)%nat.
Proof. exists 2%nat, [4; 5; 6]%nat, [1; 2; 3], [3; 1; 2]%nat. repeat split; first [lra | lia | reflexivity | discriminate | congruence | auto]. Qed.
(** In one dimension wave numbers keep their sign, so bins of positive edges never see the negative half. *)
Theorem C91_one_dimension : forall n L edges b i, 0 < L -> 0 <= nth b edges 0 -> In i (bin_1d [n] [L] edges b) -> exists x, i = [x] /\ (x < n)%nat /\ (n - 1 <= 2 * x)%nat.
Proof.
  intros n L edges b i HL E I. unfold bin_1d, cells in I. apply filter_In in I. destruct I as [I B]. apply indices_valid in I. inversion I as [|n' x sh r Hx Hr]; subst. inversion Hr; subst. exists x. split; [reflexivity|]. split; [assumption|].
  unfold in_bin in B. apply andb_prop in B. destruct B as [B _]. apply rleb_true in B. cbn [k_of] in B. unfold get_k_1d, k_component, center_half in B. destruct (le_lt_dec (n - 1) (2 * x)) as [|X]; [assumption|exfalso].
  apply lt_INR in X. rewrite mult_INR in X. cbn [INR] in X. pose proof PI_RGT_0. assert (0 < / L) by (apply Rinv_0_lt_compat; assumption). assert (0 < (2 * PI) * / L * (INR (n - 1) / 2 - INR x)) by (apply Rmult_lt_0_compat; [apply Rmult_lt_0_compat; lra|lra]). unfold Rdiv in *. lra.
Qed.
Print Assumptions C91_one_dimension.

(** * Anisotropy *)
Lemma finite_In : forall l v, In v (finite l) <-> In (Some v) l.
Proof.
  induction l as [|[a|] l IH]; intro v; cbn [finite In]; [tauto| |].
  - rewrite IH. split; intros [H|H]; auto; left; congruence.
  - rewrite IH. split; [auto|]. intros [H|H]; [discriminate|exact H].
Qed.
Lemma rsum_bounds : forall l a b, (forall v, In v l -> a <= v <= b) -> INR (length l) * a <= rsum l <= INR (length l) * b.
Proof.
  induction l as [|v l IH]; intros a b H; [cbn; lra|]. specialize (IH a b (fun w W => H w (or_intror W))). pose proof (H v (or_introl eq_refl)). cbn [length rsum fold_right]. rewrite S_INR. unfold rsum in IH. lra.
Qed.
Lemma finite_mean_bounds : forall l a b m, (forall v, In (Some v) l -> a <= v <= b) -> finite_mean l = Some m -> a <= m <= b.
Proof.
  intros l a b m H E. unfold finite_mean in E. destruct (finite l) as [|f fs] eqn:F; [discriminate|]. assert (M : m = rsum (f :: fs) / INR (length (f :: fs))) by congruence. subst m.
  pose proof (rsum_bounds (f :: fs) a b) as B. assert (I : forall v, In v (f :: fs) -> a <= v <= b) by (intros v V; apply H, finite_In; rewrite F; exact V). specialize (B I). clear I. pose proof (INR_pos f fs) as N. set (n := INR _) in *. set (s := rsum _) in *. clearbody n s. split; apply Rmult_le_reg_r with n; try assumption; unfold Rdiv; rewrite Rmult_assoc, Rinv_l by lra; lra.
Qed.
(** The cut splits the angular bins: each is in exactly one of the two halves. *)
Theorem C91_split : forall cut mubins m, (m < length mubins - 1)%nat -> (In m (upper cut mubins) <-> cut <= mid mubins m) /\ (In m (lower cut mubins) <-> mid mubins m < cut).
Proof.
  intros cut mubins m M. unfold upper, lower. rewrite !filter_In, in_seq, rleb_true, rltb_true. split; split; try tauto; intro; split; try assumption; lia.
Qed.
Print Assumptions C91_split.
Example C91_split_sat : exists (mubins : list R) (m : nat), (m < length mubins - 1)%nat.
Proof. exists [-1; 0; 1], 1%nat. cbn; lia. Qed.
(** A finite ratio is bounded by the extreme powers in the two halves; whatever bins are empty. *)
Theorem C91_ratio_bounds : forall cut mubins pk b v a1 a2 b1 b2, 0 <= a1 -> 0 < b1 ->
  (forall m p, In m (upper cut mubins) -> pk m b = Some p -> a1 <= p <= a2) -> (forall m p, In m (lower cut mubins) -> pk m b = Some p -> b1 <= p <= b2) ->
  ratio cut mubins pk b = Some v -> a1 / b2 - 1 <= v <= a2 / b1 - 1.
Proof.
  intros cut mubins pk b v a1 a2 b1 b2 A B U D E. unfold ratio in E. destruct (finite_mean (map (fun m => pk m b) (upper cut mubins))) as [u|] eqn:EU; [|discriminate]. destruct (finite_mean (map (fun m => pk m b) (lower cut mubins))) as [d|] eqn:ED; [|discriminate]. destruct (Req_EM_T d 0) as [|Z]; [discriminate|]. injection E as <-.
  apply (finite_mean_bounds _ a1 a2) in EU. 2:{ intros w W. apply in_map_iff in W. destruct W as (m & Wm & Wi). exact (U m w Wi Wm). }
  apply (finite_mean_bounds _ b1 b2) in ED. 2:{ intros w W. apply in_map_iff in W. destruct W as (m & Wm & Wi). exact (D m w Wi Wm). }
  split; (apply Rplus_le_compat_r; unfold Rdiv; apply Rmult_le_compat; try lra; try (left; apply Rinv_0_lt_compat; lra); apply Rinv_le_contravar; lra).
Qed.
Print Assumptions C91_ratio_bounds.
(** So it is zero when the power does not depend on the angle. *)
Theorem C91_isotropic : forall cut mubins pk b v p, 0 < p -> (forall m q, pk m b = Some q -> q = p) -> ratio cut mubins pk b = Some v -> v = 0.
Proof.
  intros cut mubins pk b v p P H E. destruct (C91_ratio_bounds cut mubins pk b v p p p p ltac:(lra) P) as [A B]; try assumption; try (intros m q _ Q; apply H in Q; lra). unfold Rdiv in *. rewrite Rinv_r in * by lra. lra.
Qed.
Print Assumptions C91_isotropic.
(** The ratio is finite iff both halves have a bin with modes and the lower half has power. *)
Theorem C91_ratio_finite : forall cut mubins pk b, (forall m p, pk m b = Some p -> 0 <= p) ->
  ((exists v, ratio cut mubins pk b = Some v) <-> (exists m p, In m (upper cut mubins) /\ pk m b = Some p) /\ (exists m p, In m (lower cut mubins) /\ pk m b = Some p /\ 0 < p)).
Proof.
  intros cut mubins pk b NN. unfold ratio.
  assert (F : forall ms, (exists u, finite_mean (map (fun m => pk m b) ms) = Some u) <-> exists m p, In m ms /\ pk m b = Some p).
  { intro ms. unfold finite_mean. split.
    - intros [u E]. destruct (finite (map (fun m => pk m b) ms)) as [|f fs] eqn:F; [discriminate|]. assert (I : In f (finite (map (fun m => pk m b) ms))) by (rewrite F; left; reflexivity). apply finite_In, in_map_iff in I. destruct I as (m & I1 & I2). exists m, f. auto.
    - intros (m & p & I & E). assert (J : In p (finite (map (fun m => pk m b) ms))) by (apply finite_In, in_map_iff; exists m; auto). destruct (finite (map (fun m => pk m b) ms)); [destruct J|]. eexists; reflexivity. }
  assert (S0 : forall l, (forall v, In v l -> 0 <= v) -> rsum l = 0 -> forall v, In v l -> v = 0).
  { induction l as [|x l IH]; intros H E v I; [destruct I|]. pose proof (rsum_nonneg l (fun w W => H w (or_intror W))) as Q. pose proof (H x (or_introl eq_refl)). cbn [rsum fold_right] in E. unfold rsum in Q. destruct I as [<-|I]; [lra|]. apply IH; [intros; apply H; right; assumption|unfold rsum; lra|assumption]. }
  assert (D : forall ms d, finite_mean (map (fun m => pk m b) ms) = Some d -> (d <> 0 <-> exists m p, In m ms /\ pk m b = Some p /\ 0 < p)).
  { intros ms d E. unfold finite_mean in E. set (l := map (fun m => pk m b) ms) in *. assert (P : forall v, In v (finite l) -> 0 <= v /\ exists m, In m ms /\ pk m b = Some v). { intros v I. apply finite_In in I. unfold l in I. apply in_map_iff in I. destruct I as (m & I1 & I2). split; [exact (NN m v I1)|exists m; auto]. }
    assert (P' : forall v m, In m ms -> pk m b = Some v -> In v (finite l)) by (intros v m I1 I2; apply finite_In; unfold l; apply in_map_iff; exists m; auto). destruct (finite l) as [|f fs]; [discriminate|]. assert (M : d = rsum (f :: fs) / INR (length (f :: fs))) by congruence. pose proof (INR_pos f fs) as N. set (n := INR (length (f :: fs))) in *. clearbody n. split.
    - intro Z. destruct (Rle_lt_or_eq_dec 0 (rsum (f :: fs)) (rsum_nonneg _ (fun v V => proj1 (P v V)))) as [L|L]; [|exfalso; apply Z; subst d; rewrite <- L; unfold Rdiv; ring].
      assert (X : exists v, In v (f :: fs) /\ 0 < v). { clear M P'. revert L P. generalize (f :: fs). induction l0 as [|x l0 IH]; intros L P; [cbn in L; lra|]. destruct (P x (or_introl eq_refl)) as [Q _]. destruct (Rle_lt_or_eq_dec 0 x Q) as [Y|Y]; [exists x; split; [left; reflexivity|exact Y]|]. destruct IH as (v & V1 & V2); [cbn [rsum fold_right] in L; unfold rsum; lra|intros; apply P; right; assumption|]. exists v. split; [right; exact V1|exact V2]. }
      destruct X as (v & V1 & V2). destruct (P v V1) as (_ & m & M1 & M2). exists m, v. auto.
    - intros (m & p & I1 & I2 & I3) Z. assert (R0 : rsum (f :: fs) = 0). { subst d. apply Rmult_eq_reg_r with (/ n); [rewrite Rmult_0_l; exact Z|]. apply Rinv_neq_0_compat. lra. } pose proof (S0 (f :: fs) (fun v V => proj1 (P v V)) R0 p (P' p m I1 I2)). lra. }
  split.
  - intros [v E]. destruct (finite_mean (map (fun m => pk m b) (upper cut mubins))) as [u|] eqn:EU; [|discriminate]. destruct (finite_mean (map (fun m => pk m b) (lower cut mubins))) as [d|] eqn:ED; [|discriminate]. destruct (Req_EM_T d 0) as [|Z]; [discriminate|]. split; [apply F; eexists; exact EU|]. apply (D _ d ED). exact Z.
  - intros [U L]. apply F in U. destruct U as [u EU]. rewrite EU. assert (L' := L). destruct L' as (m & p & I1 & I2 & _). destruct (proj2 (F (lower cut mubins))) as [d ED]; [exists m, p; auto|]. rewrite ED. apply (D _ d ED) in L. destruct (Req_EM_T d 0); [contradiction|]. eexists. reflexivity.
Qed.
Print Assumptions C91_ratio_finite.
Example C91_ratio_finite_sat : exists (pk : nat -> nat -> option R) (b : nat), (forall m p, pk m b = Some p -> 0 <= p).
Proof. exists (fun m _ => Some (INR m)), 0%nat. intros m p E. injection E as <-. apply pos_INR. Qed.
Lemma power_scale : forall shape box x c i, power_spectrum_nd shape box (fun a => c * x a) i = c ^ 2 * power_spectrum_nd shape box x i.
Proof. intros. rewrite <- !(fun z => proj2 (C24_cross_symmetric shape box z z i)), cross_scale. ring. Qed.
Lemma finite_mean_scale : forall l c, finite_mean (map (option_map (Rmult c)) l) = option_map (Rmult c) (finite_mean l).
Proof.
  intros l c. unfold finite_mean. assert (F : finite (map (option_map (Rmult c)) l) = map (Rmult c) (finite l)) by (induction l as [|[a|] l IH]; cbn [map option_map finite]; [reflexivity|f_equal; exact IH|exact IH]). rewrite F. destruct (finite l) as [|f fs]; [reflexivity|].
  cbn [map option_map]. change (c * f :: map (Rmult c) fs) with (map (Rmult c) (f :: fs)). rewrite map_length. f_equal. pose proof (rsum_scale (fun x => x) c (f :: fs)) as E. rewrite map_id in E. unfold Rdiv. rewrite <- Rmult_assoc. f_equal. exact E.
Qed.
(** The whole answer is unchanged when the field is multiplied with a number, and asking for the number of modes always fails. *)
Theorem C91_scale_invariant : forall absolute exclude los cut shape box mubins kbins x c, c <> 0 ->
  anisotropy_ratio_r_mu false absolute exclude los cut shape box mubins kbins (fun a => c * x a) = anisotropy_ratio_r_mu false absolute exclude los cut shape box mubins kbins x /\
  anisotropy_ratio_r_mu true absolute exclude los cut shape box mubins kbins x = None.
Proof.
  intros absolute exclude los cut shape box mubins kbins x c C. split; [|reflexivity]. unfold anisotropy_ratio_r_mu. f_equal. apply map_ext. intro b. unfold ratio.
  assert (P : forall ms, map (fun m => power_mu absolute exclude los shape box mubins kbins (fun a => c * x a) m b) ms = map (option_map (Rmult (c ^ 2))) (map (fun m => power_mu absolute exclude los shape box mubins kbins x m b) ms)).
  { intro ms. rewrite map_map. apply map_ext. intro m. unfold power_mu. apply mean_scale. intro i. unfold clear_zero_mode. destruct (list_eq_dec Nat.eq_dec i (map zero_index shape)); [ring|apply power_scale]. }
  rewrite !P, !finite_mean_scale. destruct (finite_mean (map (fun m => power_mu absolute exclude los shape box mubins kbins x m b) (upper cut mubins))) as [u|]; [|reflexivity]. destruct (finite_mean (map (fun m => power_mu absolute exclude los shape box mubins kbins x m b) (lower cut mubins))) as [d|]; [|reflexivity]. cbn [option_map].
  assert (C2 : c ^ 2 <> 0) by (apply pow_nonzero; exact C). destruct (Req_EM_T d 0) as [->|D].
  - destruct (Req_EM_T (c ^ 2 * 0) 0); [reflexivity|lra].
  - destruct (Req_EM_T (c ^ 2 * d) 0) as [E|_]; [exfalso; apply Rmult_integral in E; tauto|]. f_equal. field. tauto.
Qed.
Print Assumptions C91_scale_invariant.
Example C91_scale_invariant_sat : exists (c : R), c <> 0.
Proof. exists 2. repeat split; first [lra | lia | reflexivity | discriminate | congruence | auto]. Qed.
(** For a real field no finite ratio is below -1. *)
Theorem C91_ratio_real : forall absolute exclude los cut shape box mubins kbins x l b v, length shape = 3%nat -> length box = 3%nat -> positive_box shape box ->
  anisotropy_ratio_r_mu false absolute exclude los cut shape box mubins kbins x = Some l -> length l = (length kbins - 1)%nat /\ (nth_error l b = Some (Some v) -> -1 <= v).
Proof.
  intros absolute exclude los cut shape box mubins kbins x l b v S B H E. unfold anisotropy_ratio_r_mu in E. injection E as <-. split; [rewrite map_length, seq_length; reflexivity|]. intro N. apply nth_error_In in N. apply in_map_iff in N. destruct N as (b' & E & _).
  assert (NN : forall m p, power_mu absolute exclude los shape box mubins kbins x m b' = Some p -> 0 <= p).
  { intros m p P. destruct (C91_mu_cross absolute exclude los shape box mubins kbins x x m b' p p p S B H) as (_ & X & Y). rewrite X in Y. apply Y; assumption. }
  unfold ratio in E. destruct (finite_mean _) as [u|] eqn:EU in E; [|discriminate]. destruct (finite_mean _) as [d|] eqn:ED in E; [|discriminate]. destruct (Req_EM_T d 0) as [|Z]; [discriminate|]. injection E as <-.
  assert (M : forall ms w, finite_mean (map (fun m => power_mu absolute exclude los shape box mubins kbins x m b') ms) = Some w -> 0 <= w).
  { intros ms w F. unfold finite_mean in F. destruct (finite _) as [|f fs] eqn:Q in F; [discriminate|]. assert (W : w = rsum (f :: fs) / INR (length (f :: fs))) by congruence. subst w. apply Rmult_le_pos; [|left; apply Rinv_0_lt_compat, INR_pos]. apply rsum_nonneg. intros y Y. rewrite <- Q in Y. apply finite_In, in_map_iff in Y. destruct Y as (m & Y & _). exact (NN m y Y). }
  pose proof (M _ _ EU). pose proof (M _ _ ED). assert (0 <= u / d) by (apply Rmult_le_pos; [assumption|left; apply Rinv_0_lt_compat; lra]). lra.
Qed.
Print Assumptions C91_ratio_real.
Example C91_ratio_real_sat : exists (absolute : bool) (exclude : bool) (los : nat) (cut : R) (shape : list nat) (box : list R) (mubins : list R) (kbins : list R) (x : array) (l : list (option R)), length shape = 3%nat /\ length box = 3%nat /\ positive_box shape box /\ anisotropy_ratio_r_mu false absolute exclude los cut shape box mubins kbins x = Some l.
Proof. eexists true, false, 2%nat, (1/2), [2; 2; 2]%nat, [10; 10; 10], [0; 1/2; 1], [1; 2], (fun _ => 1), _. split; [reflexivity|]. split; [reflexivity|]. split; [split; repeat constructor; lra|]. reflexivity. Qed.

(** * The dimensionless spectrum *)
(** Specification: the polygon through the nodes, where a node keeps its own value and a segment with a nan end is nan. *)
Definition ascending (nodes : list (R * option R)) : Prop := forall j x0 y0 x1 y1, nth_error nodes j = Some (x0, y0) -> nth_error nodes (S j) = Some (x1, y1) -> x0 < x1.
Definition segment (x0 : R) (y0 : option R) (x1 : R) (y1 : option R) (x : R) : option R :=
  match y0, y1 with Some a, Some b => Some (a * ((x1 - x) / (x1 - x0)) + b * ((x - x0) / (x1 - x0))) | _, _ => None end.
Definition on_polygon (nodes : list (R * option R)) (x : R) (y : option R) : Prop :=
  (exists j, nth_error nodes j = Some (x, y)) \/ exists j x0 y0 x1 y1, nth_error nodes j = Some (x0, y0) /\ nth_error nodes (S j) = Some (x1, y1) /\ x0 < x < x1 /\ y = segment x0 y0 x1 y1 x.
Lemma ascending_tail : forall n l, ascending (n :: l) -> ascending l.
Proof. intros n l H j x0 y0 x1 y1 A B. exact (H (S j) x0 y0 x1 y1 A B). Qed.
Lemma ascending_all : forall l j x0 y0 x1 y1, ascending ((x0, y0) :: l) -> nth_error l j = Some (x1, y1) -> x0 < x1.
Proof.
  induction l as [|[x y] l IH]; intros j x0 y0 x1 y1 A E; [destruct j; discriminate|]. pose proof (A 0%nat x0 y0 x y eq_refl eq_refl) as L. destruct j as [|j]; [injection E as <- <-; exact L|]. pose proof (IH j x y x1 y1 (ascending_tail _ _ A) E). lra.
Qed.
Lemma interp_polygon : forall nodes x x0 y0, ascending ((x0, y0) :: nodes) -> x0 <= x <= fst (last ((x0, y0) :: nodes) (0, None)) -> on_polygon ((x0, y0) :: nodes) x (interp ((x0, y0) :: nodes) x).
Proof.
  induction nodes as [|[x1 y1] r IH]; intros x x0 y0 A B.
  - cbn in *. left. exists 0%nat. cbn. do 2 f_equal. lra.
  - change (interp ((x0, y0) :: (x1, y1) :: r) x) with (if Req_EM_T x x0 then y0 else if rltb x x1 then match y0, y1 with Some a, Some b => Some ((b - a) / (x1 - x0) * (x - x0) + a) | _, _ => None end else interp ((x1, y1) :: r) x).
    pose proof (A 0%nat x0 y0 x1 y1 eq_refl eq_refl) as L. destruct (Req_EM_T x x0) as [->|N]; [left; exists 0%nat; reflexivity|]. destruct (rltb x x1) eqn:E.
    + apply rltb_true in E. right. exists 0%nat, x0, y0, x1, y1. split; [reflexivity|]. split; [reflexivity|]. split; [lra|]. unfold segment. destruct y0, y1; try reflexivity. f_equal. field. lra.
    + apply rltb_false in E. destruct (IH x x1 y1 (ascending_tail _ _ A)) as [(j & J)|(j & a0 & b0 & a1 & b1 & J1 & J2 & J3 & J4)]; [split; [exact E|]; apply B|left; exists (S j); exact J|]. right. exists (S j), a0, b0, a1, b1. auto.
Qed.
Lemma node_of : forall (l : list (R * option R)) j x y, nth_error (map dimensionless l) j = Some (x, y) -> exists p, nth_error l j = Some (x, p) /\ y = option_map (fun v => v * x ^ 3 / 2 / PI ^ 2) p.
Proof. intros l j x y E. rewrite nth_error_map in E. destruct (nth_error l j) as [[k p]|]; [|discriminate]. cbn in E. injection E as <- <-. exists p. split; [reflexivity|]. destruct p; reflexivity. Qed.
Lemma ascending_dimensionless : forall l, ascending l -> ascending (map dimensionless l).
Proof. intros l A j x0 y0 x1 y1 E0 E1. apply node_of in E0, E1. destruct E0 as (p & E0 & _), E1 as (q & E1 & _). exact (A j x0 p x1 q E0 E1). Qed.
Lemma last_dimensionless : forall l n, fst (last (map dimensionless (n :: l)) (0, None)) = fst (last (n :: l) (0, None)).
Proof. induction l as [|m l IH]; intro n; [reflexivity|]. exact (IH m). Qed.
Lemma last_nth : forall (l : list (R * option R)) n, nth_error (n :: l) (length l) = Some (last (n :: l) (0, None)).
Proof. induction l as [|m l IH]; intro n; [reflexivity|]. exact (IH m). Qed.
Lemma linspace_nth : forall a b n t, (t < n)%nat -> nth_error (linspace a b n) t = Some (if (S t =? n)%nat && negb (n =? 1)%nat then b else a + INR t * ((b - a) / INR (n - 1))).
Proof. intros a b n t T. unfold linspace. rewrite nth_error_map. assert (E : nth_error (seq 0 n) t = Some t). { rewrite (nth_error_nth' (seq 0 n) 0%nat) by (rewrite seq_length; exact T). rewrite seq_nth by exact T. reflexivity. } rewrite E. reflexivity. Qed.
Lemma linspace_range : forall a b n v, a <= b -> In v (linspace a b n) -> a <= v <= b.
Proof.
  intros a b n v L I. unfold linspace in I. apply in_map_iff in I. destruct I as (t & <- & T). apply in_seq in T. destruct ((S t =? n)%nat && negb (n =? 1)%nat) eqn:E; [lra|]. destruct (Nat.eq_dec n 1) as [->|N1].
  - assert (t = 0)%nat by lia. subst t. cbn [INR]. lra.
  - assert (P : 0 < INR (n - 1)) by (apply lt_0_INR; lia). assert (Q : INR t <= INR (n - 1)) by (apply le_INR; lia). pose proof (pos_INR t) as Z. assert (U : 0 <= INR t / INR (n - 1) <= 1). { split; [apply Rmult_le_pos; [exact Z|left; apply Rinv_0_lt_compat; exact P]|]. apply Rmult_le_reg_r with (INR (n - 1)); [exact P|]. unfold Rdiv. rewrite Rmult_assoc, Rinv_l by lra. lra. }
    replace (INR t * ((b - a) / INR (n - 1))) with (INR t / INR (n - 1) * (b - a)) by (field; lra). set (u := INR t / INR (n - 1)) in *. nra.
Qed.
Lemma ln10_pos : 0 < ln 10.
Proof. rewrite <- ln_1. apply ln_increasing; lra. Qed.
Lemma power_log : forall k, 0 < k -> Rpower 10 (log10 k) = k.
Proof. intros k K. unfold Rpower, log10. pose proof ln10_pos. replace (ln k / ln 10 * ln 10) with (ln k) by (field; lra). apply exp_ln. exact K. Qed.
Lemma power_le : forall a b, a <= b -> Rpower 10 a <= Rpower 10 b.
Proof. intros a b H. apply Rle_Rpower; lra. Qed.
Lemma log_le : forall a b, 0 < a -> a <= b -> log10 a <= log10 b.
Proof. intros a b A H. unfold log10. pose proof ln10_pos. apply Rmult_le_compat_r; [left; apply Rinv_0_lt_compat; assumption|]. destruct (Req_dec a b) as [->|N]; [lra|]. left. apply ln_increasing; lra. Qed.
Lemma sequence_total : forall {A B} (f : A -> option B) l, (forall x, In x l -> exists y, f x = Some y) -> exists ys, sequence (map f l) = Some ys /\ length ys = length l /\ forall t x, nth_error l t = Some x -> f x = nth_error ys t.
Proof.
  intros A B f. induction l as [|x l IH]; intro H; [exists []; split; [reflexivity|split; [reflexivity|]]; intros t x E; destruct t; discriminate|]. destruct (H x (or_introl eq_refl)) as [y Y]. destruct IH as (ys & Y1 & Y2 & Y3); [intros; apply H; right; assumption|]. exists (y :: ys). cbn [map sequence]. rewrite Y, Y1. split; [reflexivity|]. split; [cbn; lia|]. intros [|t] z E; cbn [nth_error] in *; [injection E as <-; exact Y|apply Y3; exact E].
Qed.
Lemma combine_nth_error : forall {A B} (l : list A) (m : list B) t, nth_error (combine l m) t = match nth_error l t, nth_error m t with Some a, Some b => Some (a, b) | _, _ => None end.
Proof. induction l as [|a l IH]; intros [|b m] [|t]; try reflexivity; cbn [combine nth_error]; [destruct (nth_error l t); reflexivity|apply IH]. Qed.

(** With at least two bins of positive ascending wave numbers the call succeeds and returns [kbins] points. All of them lie on the polygon
    through the values P k^3/(2 pi^2) of the bins, none below the second bin: the first bin is never reached. The first point is the second bin,
    the last point (of two or more) the last bin. *)
Theorem C91_dimensionless : forall log k0 p0 k1 p1 rest kbins, let spectrum := (k0, p0) :: (k1, p1) :: rest in
  ascending spectrum -> 0 < k0 -> exists out, dimensionless_ps log spectrum kbins = Some out /\ length out = kbins /\
  (forall k v, In (k, v) out -> k1 <= k <= fst (last spectrum (0, None)) /\ on_polygon (map dimensionless spectrum) k v) /\
  ((0 < kbins)%nat -> exists v, nth_error out 0 = Some (k1, v)) /\
  ((1 < kbins)%nat -> exists v, nth_error out (kbins - 1) = Some (fst (last spectrum (0, None)), v)).
Proof.
  intros log k0 p0 k1 p1 rest kbins spectrum A K0. pose proof (A 0%nat k0 p0 k1 p1 eq_refl eq_refl) as K1. set (kl := fst (last spectrum (0, None))).
  assert (KL : k1 <= kl). { destruct rest as [|[k2 p2] rest]; [cbn; lra|]. pose proof (last_nth ((k1, p1) :: (k2, p2) :: rest) (k0, p0)) as E. fold spectrum in E. cbn [length nth_error spectrum] in E. unfold kl. destruct (last spectrum (0, None)) as [x y]. left. exact (ascending_all _ (length rest) k1 p1 x y (ascending_tail _ _ A) E). }
  set (knew := if log then map (fun e => Rpower 10 e) (linspace (log10 k1) (log10 kl) kbins) else linspace k1 kl kbins).
  assert (LEN : length knew = kbins) by (unfold knew, linspace; destruct log; rewrite ?map_length, seq_length; reflexivity).
  assert (RNG : forall k, In k knew -> k1 <= k <= kl).
  { intros k I. unfold knew in I. destruct log; [|exact (linspace_range _ _ _ _ KL I)]. apply in_map_iff in I. destruct I as (e & <- & I). apply linspace_range in I; [|apply log_le; lra]. rewrite <- (power_log k1), <- (power_log kl) by lra. split; apply power_le; lra. }
  assert (FST : (0 < kbins)%nat -> nth_error knew 0 = Some k1).
  { intro P. unfold knew. destruct log; [rewrite nth_error_map|]; rewrite linspace_nth by exact P; cbn [INR option_map]; destruct kbins as [|[|m]]; try lia; cbn [Nat.eqb negb andb]; f_equal; rewrite ?Rmult_0_l, ?Rplus_0_r; try reflexivity; apply power_log; lra. }
  assert (LST : (1 < kbins)%nat -> nth_error knew (kbins - 1) = Some kl).
  { intro P. assert (T : (S (kbins - 1) =? kbins)%nat && negb (kbins =? 1)%nat = true) by (replace (S (kbins - 1)) with kbins by lia; rewrite Nat.eqb_refl; destruct (Nat.eqb_spec kbins 1); [lia|reflexivity]). unfold knew. destruct log; [rewrite nth_error_map|]; rewrite linspace_nth by lia; rewrite T; cbn [option_map]; [|reflexivity]. f_equal. apply power_log. lra. }
  assert (IN : forall k, k1 <= k <= kl -> interp1d (map dimensionless spectrum) k = Some (interp (map dimensionless spectrum) k)).
  { intros k K. unfold interp1d. replace (fst (last (map dimensionless spectrum) (0, None))) with kl by (symmetry; apply last_dimensionless). cbn [spectrum map dimensionless fst]. assert (E1 : rleb k0 k = true) by (apply rleb_true; lra). assert (E2 : rleb k kl = true) by (apply rleb_true; lra). rewrite E1, E2. reflexivity. }
  destruct (sequence_total (interp1d (map dimensionless spectrum)) knew) as (vs & S1 & S2 & S3); [intros x I; eexists; apply IN, RNG, I|].
  exists (combine knew vs). split; [|split; [rewrite combine_length, S2, LEN; lia|split; [|split]]].
  - unfold dimensionless_ps, spectrum. cbv zeta. fold spectrum. fold kl. fold knew. rewrite S1. reflexivity.
  - intros k v I. apply In_nth_error in I. destruct I as [t T]. rewrite combine_nth_error in T. destruct (nth_error knew t) as [k'|] eqn:E1; [|discriminate]. destruct (nth_error vs t) as [v'|] eqn:E2; [|discriminate]. injection T as -> ->. pose proof (RNG k (nth_error_In _ _ E1)) as K. split; [exact K|]. pose proof (S3 t k E1) as E3. rewrite E2, IN in E3 by exact K. injection E3 as <-.
    apply (interp_polygon (map dimensionless ((k1, p1) :: rest)) k (fst (dimensionless (k0, p0))) (snd (dimensionless (k0, p0)))); [exact (ascending_dimensionless _ A)|]. split; [cbn; lra|].
    pose proof (last_dimensionless ((k1, p1) :: rest) (k0, p0)) as LD. cbn [map] in LD. unfold dimensionless at 1 in LD. cbn [fst snd] in LD. cbn [map dimensionless fst snd] in *. rewrite LD. apply K.
  - intro P. rewrite combine_nth_error, (FST P). destruct vs as [|v vs]; [cbn in S2; lia|]. exists v. reflexivity.
  - intro P. rewrite combine_nth_error, (LST P). destruct (nth_error vs (kbins - 1)) as [v|] eqn:E; [exists v; reflexivity|]. apply nth_error_None in E. lia.
Qed.
Print Assumptions C91_dimensionless.
Example C91_dimensionless_sat : exists (k0 : R) (p0 : option R) (k1 : R) (p1 : option R) (rest : list (R * option R)), let spectrum := (k0, p0) :: (k1, p1) :: rest in ascending spectrum /\ 0 < k0.
Proof. exists 1, (Some 2), 2, None, [(4, Some 1)]. split; [|lra]. intros j x0 y0 x1 y1 A B. destruct j as [|[|[|j]]]; cbn in A, B; try discriminate; injection A as <- <-; injection B as <- <-; lra. Qed.
(** The interpolation answers exactly between the outermost nodes. *)
Theorem C91_interp_range : forall x0 y0 nodes x, interp1d ((x0, y0) :: nodes) x <> None <-> x0 <= x <= fst (last ((x0, y0) :: nodes) (0, None)).
Proof.
  intros x0 y0 nodes x. unfold interp1d. set (xl := fst _). destruct (rleb x0 x) eqn:E1, (rleb x xl) eqn:E2; cbn [andb]; split; intro H; try congruence;
  repeat match goal with E : rleb _ _ = true |- _ => apply rleb_true in E | E : rleb ?a ?b = false |- _ => assert (~ a <= b) by (intro L; apply rleb_true in L; congruence); clear E end; try tauto; try discriminate; lra.
Qed.
Print Assumptions C91_interp_range.
(** With a single bin the call fails. *)
Theorem C91_single_bin : forall log k p kbins, dimensionless_ps log [(k, p)] kbins = None.
Proof. reflexivity. Qed.
Print Assumptions C91_single_bin.
Lemma cube_convex : forall a b x, 0 < a -> a < x -> x < b -> x ^ 3 <= a ^ 3 * ((b - x) / (b - a)) + b ^ 3 * ((x - a) / (b - a)).
Proof.
  intros a b x A X B. assert (D : 0 < b - a) by lra. apply Rmult_le_reg_r with (b - a); [exact D|]. replace ((a ^ 3 * ((b - x) / (b - a)) + b ^ 3 * ((x - a) / (b - a))) * (b - a)) with (a ^ 3 * (b - x) + b ^ 3 * (x - a)) by (field; lra).
  assert (F : a ^ 3 * (b - x) + b ^ 3 * (x - a) - x ^ 3 * (b - a) = (b - a) * ((x - a) * ((b - x) * (a + b + x)))) by ring. assert (0 <= (b - a) * ((x - a) * ((b - x) * (a + b + x)))) by (repeat (apply Rmult_le_pos); lra). lra.
Qed.
(** For power between p and q everywhere, the result is at least p k^3/(2 pi^2): linear interpolation never falls below the curve. It is never
    negative for non-negative power. *)
Theorem C91_dimensionless_bound : forall spectrum k v p, ascending spectrum -> (forall k' q, In (k', Some q) spectrum -> 0 < k' /\ p <= q) -> 0 <= p -> on_polygon (map dimensionless spectrum) k (Some v) -> p * k ^ 3 / 2 / PI ^ 2 <= v.
Proof.
  intros spectrum k v p A H P O. pose proof PI_RGT_0 as PP. assert (P2 : 0 < / 2 * / PI ^ 2) by (apply Rmult_lt_0_compat; [lra|apply Rinv_0_lt_compat; apply pow_lt; exact PP]).
  assert (V : forall x q, p <= q -> 0 < x -> p * x ^ 3 / 2 / PI ^ 2 <= q * x ^ 3 / 2 / PI ^ 2). { intros x q Q X. assert (0 < x ^ 3) by (apply pow_lt; exact X). unfold Rdiv. rewrite !Rmult_assoc. apply Rmult_le_compat_r; [|exact Q]. apply Rmult_le_pos; lra. }
  destruct O as [(j & J)|(j & x0 & y0 & x1 & y1 & J0 & J1 & X & E)].
  - apply node_of in J. destruct J as (q & J & E). destruct q as [q|]; [|discriminate]. cbn in E. injection E as ->. apply nth_error_In in J. destruct (H _ _ J). apply V; assumption.
  - apply node_of in J0, J1. destruct J0 as (q0 & J0 & E0), J1 as (q1 & J1 & E1). apply nth_error_In in J0, J1. subst y0 y1. destruct q0 as [q0|], q1 as [q1|]; cbn [option_map segment] in E; try discriminate. injection E as ->. destruct (H _ _ J0) as [B0 C0], (H _ _ J1) as [B1 C1]. pose proof (V x0 q0 C0 B0) as V0. pose proof (V x1 q1 C1 B1) as V1.
    pose proof (cube_convex x0 x1 k B0 ltac:(lra) ltac:(lra)) as C. set (s := (x1 - k) / (x1 - x0)) in *. set (t := (k - x0) / (x1 - x0)) in *. assert (S0 : 0 <= s) by (apply Rmult_le_pos; [lra|left; apply Rinv_0_lt_compat; lra]). assert (T0 : 0 <= t) by (apply Rmult_le_pos; [lra|left; apply Rinv_0_lt_compat; lra]). clearbody s t.
    apply Rle_trans with (p * x0 ^ 3 / 2 / PI ^ 2 * s + p * x1 ^ 3 / 2 / PI ^ 2 * t).
    + unfold Rdiv. replace (p * x0 ^ 3 * / 2 * / PI ^ 2 * s + p * x1 ^ 3 * / 2 * / PI ^ 2 * t) with (p * (x0 ^ 3 * s + x1 ^ 3 * t) * (/ 2 * / PI ^ 2)) by ring. rewrite Rmult_assoc. apply Rmult_le_compat_r; [lra|]. apply Rmult_le_compat_l; assumption.
    + apply Rplus_le_compat; apply Rmult_le_compat_r; assumption.
Qed.
Print Assumptions C91_dimensionless_bound.
Example C91_dimensionless_bound_sat : exists (spectrum : list (R * option R)) (k : R) (v : R) (p : R), ascending spectrum /\ ((forall k' q, In (k', Some q) spectrum -> 0 < k' /\ p <= q)) /\ 0 <= p /\ on_polygon (map dimensionless spectrum) k (Some v).
Proof. eexists [(1, Some 2); (2, Some 3)], 1, _, 2. split; [intros j x0 y0 x1 y1 A B; destruct j as [|[|j]]; cbn in A, B; try discriminate; injection A as <- <-; injection B as <- <-; lra|]. split; [intros k' q [E|[E|[]]]; injection E as <- <-; lra|]. split; [lra|]. left. exists 0%nat. reflexivity. Qed.
(** A nan bin costs the two segments next to it and nothing else. *)
Theorem C91_nan_segments : forall spectrum k, on_polygon (map dimensionless spectrum) k None -> exists j k' q, nth_error spectrum j = Some (k', None) /\ (k = k' \/ (k' < k /\ nth_error spectrum (S j) = Some q /\ k < fst q) \/ (k < k' /\ (exists i, j = S i /\ nth_error spectrum i = Some q) /\ fst q < k)).
Proof.
  intros spectrum k [(j & J)|(j & x0 & y0 & x1 & y1 & J0 & J1 & X & E)].
  - apply node_of in J. destruct J as (q & J & E). destruct q; [discriminate|]. exists j, k, (0, None). auto.
  - apply node_of in J0, J1. destruct J0 as (q0 & J0 & E0), J1 as (q1 & J1 & E1). subst y0 y1. destruct q0 as [q0|]; [destruct q1 as [q1|]; [discriminate|]|].
    + exists (S j), x1, (x0, Some q0). split; [exact J1|]. right. right. split; [lra|]. split; [exists j; auto|cbn; lra].
    + exists j, x0, (x1, q1). split; [exact J0|]. right. left. split; [lra|]. split; [exact J1|cbn; lra].
Qed.
Print Assumptions C91_nan_segments.
Example C91_nan_segments_sat : exists (spectrum : list (R * option R)) (k : R), on_polygon (map dimensionless spectrum) k None.
Proof. exists [(1, Some 2); (2, None)], 2. left. exists 1%nat. reflexivity. Qed.
Example C91_sat : ascending [(1, Some 2); (2, None); (4, Some 1); (5, Some 3)] /\ positive_box [2; 2; 2]%nat [10; 10; 10] /\ (exists v, ratio (1/2) [0; 1/2; 1] (fun m _ => Some (INR m + 1)) 0 = Some v) /\ on_polygon [(1, Some 2); (3, Some 4)] 2 (Some 3).
Proof.
  split; [|split; [split; repeat constructor; lra|split]].
  - intros j x0 y0 x1 y1 A B. destruct j as [|[|[|[|j]]]]; cbn in A, B; try discriminate; injection A as <- <-; injection B as <- <-; lra.
  - apply C91_ratio_finite.
    + intros m p E. injection E as <-. pose proof (pos_INR m). lra.
    + split; [exists 1%nat, 2; split; [apply C91_split; [cbn; lia|unfold mid; cbn; lra]|f_equal; cbn; ring]|]. exists 0%nat, 1. split; [apply C91_split; [cbn; lia|unfold mid; cbn; lra]|]. split; [f_equal; cbn; ring|lra].
  - right. exists 0%nat, 1, (Some 2), 3, (Some 4). repeat split; try lra. cbn. f_equal. field.
Qed.
(** [get_kbins] needs an array even when wave numbers are given, and then uses the given wave numbers. *)
Theorem C91_kbins_needs_array : forall {K A} (shape_of : A -> list nat) (k_from : A -> K) make k a,
  get_kbins shape_of k_from make k None = None /\ get_kbins shape_of k_from make k (Some a) = Some (make (match k with Some v => v | None => k_from a end)).
Proof. intros. split; destruct k; reflexivity. Qed.
Print Assumptions C91_kbins_needs_array.

(** * Which bin a cell falls into *)
Definition rising (edges : list R) : Prop := forall i j, (i < j < length edges)%nat -> nth i edges 0 < nth j edges 0.
Lemma bracket : forall (e : nat -> R) k m, e 0%nat <= k -> k < e m -> exists b, (b < m)%nat /\ e b <= k < e (S b).
Proof. intros e k m H0. induction m as [|m IH]; intro H; [lra|]. destruct (Rlt_le_dec k (e m)) as [L|L]; [destruct (IH L) as (b & B & Q); exists b; split; [lia|exact Q]|exists m; split; [lia|lra]]. Qed.
Lemma half_open_iff : forall edges b v, half_open edges b v = true <-> nth b edges 0 <= v < nth (S b) edges 0.
Proof. intros. unfold half_open. rewrite andb_true_iff, rleb_true, rltb_true. tauto. Qed.
Lemma half_open_once : forall edges b b' v, rising edges -> (S b < length edges)%nat -> (S b' < length edges)%nat -> half_open edges b v = true -> half_open edges b' v = true -> b = b'.
Proof.
  assert (G : forall edges b b' v, rising edges -> (S b' < length edges)%nat -> (b < b')%nat -> v < nth (S b) edges 0 -> nth b' edges 0 <= v -> False). { intros edges b b' v A B L H H'. destruct (Nat.eq_dec (S b) b') as [<-|N]; [lra|]. specialize (A (S b) b' ltac:(lia)). lra. }
  intros edges b b' v A B B' H H'. apply half_open_iff in H, H'. destruct (Nat.lt_trichotomy b b') as [L|[L|L]]; [exfalso; apply (G edges b b' v A B' L); tauto|exact L|exfalso; apply (G edges b' b v A B L); tauto].
Qed.
Lemma bins_cover : forall edges v, (2 <= length edges)%nat -> rising edges -> ((exists b, (S b < length edges)%nat /\ half_open edges b v = true) <-> nth 0 edges 0 <= v < last edges 0).
Proof.
  assert (LA : forall l : list R, last l 0 = nth (length l - 1) l 0). { intro l. induction l as [|a [|b l] IH]; [reflexivity..|]. cbn [last] in *. rewrite IH. cbn [length]. replace (S (S (length l)) - 1)%nat with (S (S (length l) - 1)) by lia. reflexivity. }
  intros edges v L A. rewrite LA. split.
  - intros (b & B & H). apply half_open_iff in H. assert (nth 0 edges 0 <= nth b edges 0) by (destruct b; [lra|left; apply A; lia]). assert (nth (S b) edges 0 <= nth (length edges - 1) edges 0) by (destruct (Nat.eq_dec (S b) (length edges - 1)) as [->|N]; [lra|left; apply A; lia]). lra.
  - intros [H0 H1]. destruct (bracket (fun b => nth b edges 0) v (length edges - 1) H0 H1) as (b & B & Q). exists b. split; [lia|apply half_open_iff, Q].
Qed.
(** Plain spectra: every cell from the first to the last edge, both included, is in exactly one bin. *)
Theorem C91_partition : forall shape box edges i, (2 <= length edges)%nat -> rising edges -> valid shape i ->
  ((exists b, (S b < length edges)%nat /\ In i (bin_1d shape box edges b)) <-> nth 0 edges 0 <= k_of shape box i <= last edges 0) /\
  (forall b b', (S b < length edges)%nat -> (S b' < length edges)%nat -> In i (bin_1d shape box edges b) -> In i (bin_1d shape box edges b') -> b = b').
Proof.
  intros shape box edges i L A V. assert (M : forall b, In i (bin_1d shape box edges b) <-> in_bin edges b (k_of shape box i) = true) by (intro b; unfold bin_1d, cells; rewrite filter_In, indices_valid; tauto). set (k := k_of shape box i) in *. clearbody k.
  assert (LA : forall l : list R, last l 0 = nth (length l - 1) l 0). { clear. intro l. induction l as [|a [|b l] IH]; [reflexivity..|]. cbn [last] in *. rewrite IH. cbn [length]. replace (S (S (length l)) - 1)%nat with (S (S (length l) - 1)) by lia. reflexivity. }
  assert (IB : forall b, (S b < length edges)%nat -> (in_bin edges b k = true <-> half_open edges b k = true \/ (S (S b) = length edges /\ k = last edges 0))).
  { intros b B. pose proof (A b (S b) ltac:(lia)) as A'. rewrite half_open_iff. unfold in_bin. rewrite andb_true_iff, rleb_true. destruct (S (S b) =? length edges)%nat eqn:E; [apply Nat.eqb_eq in E; rewrite rleb_true|apply Nat.eqb_neq in E; rewrite rltb_true].
    - rewrite LA, <- E. replace (S (S b) - 1)%nat with (S b) by lia. split; [intros [H1 [H2|H2]]; [left; tauto|right; split; [reflexivity|exact H2]]|intros [H|[_ H]]; [split; lra|split; lra]].
    - split; [intro; left; tauto|intros [H|[H _]]; [exact H|contradiction]]. }
  split.
  - split.
    + intros (b & B & H). apply M, IB in H; [|exact B]. destruct H as [H|[_ H]]; [assert (Q : nth 0 edges 0 <= k < last edges 0) by (apply bins_cover; [exact L|exact A|]; exists b; tauto); lra|]. rewrite H. split; [|lra]. rewrite LA. left. apply A. lia.
    + intros [H0 [H1|H1]]; [destruct (proj2 (bins_cover edges k L A) (conj H0 H1)) as (b & B & H); exists b; split; [exact B|]; apply M, IB; [exact B|left; exact H]|]. exists (length edges - 2)%nat. split; [lia|]. apply M, IB; [lia|]. right. split; [lia|exact H1].
  - intros b b' B B' H H'. apply M, IB in H, H'; try assumption. assert (NL : forall b, (S b < length edges)%nat -> k = last edges 0 -> half_open edges b k = true -> False). { intros c C K Q. assert (X : nth 0 edges 0 <= k < last edges 0) by (apply bins_cover; [exact L|exact A|]; exists c; tauto). lra. }
    destruct H as [H|[H K]], H' as [H'|[H' K']]; [exact (half_open_once edges b b' k A B B' H H')|exfalso; exact (NL b B K' H)|exfalso; exact (NL b' B' K H')|lia].
Qed.
Print Assumptions C91_partition.
Example C91_partition_sat : exists (shape : list nat) (edges : list R) (i : list nat), (2 <= length edges)%nat /\ rising edges /\ valid shape i.
Proof. exists [3; 3]%nat, [1; 2; 4], [1; 2]%nat. split; [cbn; lia|]. split; [intros i j H; cbn in H; destruct i as [|[|i]], j as [|[|[|j]]]; try lia; cbn; lra|repeat constructor]. Qed.
(** Angular bins: the last edges are left out, so that with edges from 0 to 1 modes exactly along the line of sight are in no bin. *)
Theorem C91_mu_partition : forall absolute exclude los shape box mubins kbins i, (2 <= length mubins)%nat -> (2 <= length kbins)%nat -> rising mubins -> rising kbins -> valid shape i ->
  ((exists m b, (S m < length mubins)%nat /\ (S b < length kbins)%nat /\ In i (bin_mu absolute exclude los shape box mubins kbins m b)) <->
     nth 0 kbins 0 <= k_of shape box i < last kbins 0 /\ good exclude los shape i = true /\ exists mu, mu_of absolute los shape box i = Some mu /\ nth 0 mubins 0 <= mu < last mubins 0) /\
  (forall m b m' b', (S m < length mubins)%nat -> (S b < length kbins)%nat -> (S m' < length mubins)%nat -> (S b' < length kbins)%nat -> In i (bin_mu absolute exclude los shape box mubins kbins m b) -> In i (bin_mu absolute exclude los shape box mubins kbins m' b') -> m = m' /\ b = b').
Proof.
  intros absolute exclude los shape box mubins kbins i Lm Lk Am Ak V.
  assert (M : forall m b, In i (bin_mu absolute exclude los shape box mubins kbins m b) <-> half_open kbins b (k_of shape box i) = true /\ good exclude los shape i = true /\ exists mu, mu_of absolute los shape box i = Some mu /\ half_open mubins m mu = true).
  { intros m b. unfold bin_mu, cells. rewrite filter_In, indices_valid, !andb_true_iff. split; [intros (_ & (H1 & H2) & H3); split; [exact H1|]; split; [exact H2|]; destruct (mu_of _ _ _ _ i) as [mu|]; [exists mu; split; [reflexivity|exact H3]|discriminate]|intros (H1 & H2 & mu & E & H3); rewrite E; tauto]. }
  split; [split|].
  - intros (m & b & Hm & Hb & H). apply M in H. destruct H as (H1 & H2 & mu & E & H3). split; [apply bins_cover; [exact Lk|exact Ak|exists b; tauto]|]. split; [exact H2|]. exists mu. split; [exact E|]. apply bins_cover; [exact Lm|exact Am|exists m; tauto].
  - intros (H1 & H2 & mu & E & H3). apply bins_cover in H1; [|assumption..]. apply bins_cover in H3; [|assumption..]. destruct H1 as (b & Hb & H1), H3 as (m & Hm & H3). exists m, b. split; [exact Hm|]. split; [exact Hb|]. apply M. split; [exact H1|]. split; [exact H2|]. exists mu. tauto.
  - intros m b m' b' Hm Hb Hm' Hb' H H'. apply M in H, H'. destruct H as (H1 & _ & mu & E & H3), H' as (H1' & _ & mu' & E' & H3'). rewrite E in E'. injection E' as <-. split; [exact (half_open_once mubins m m' mu Am Hm Hm' H3 H3')|exact (half_open_once kbins b b' _ Ak Hb Hb' H1 H1')].
Qed.
Print Assumptions C91_mu_partition.
Example C91_mu_partition_sat : exists (shape : list nat) (mubins : list R) (kbins : list R) (i : list nat), (2 <= length mubins)%nat /\ (2 <= length kbins)%nat /\ rising mubins /\ rising kbins /\ valid shape i.
Proof. exists [3; 3; 3]%nat, [0; 1/2; 1], [1; 2; 4], [1; 2; 0]%nat. split; [cbn; lia|]. split; [cbn; lia|]. split; [|split]; try (intros i j H; cbn in H; destruct i as [|[|i]], j as [|[|[|j]]]; try lia; cbn; lra). repeat constructor; lia. Qed.
(** Bins made from a number: from 0 or -1 to 1. Every cosine but 1 then has a bin. *)
Lemma mu_edges_nth : forall absolute n t, (t <= n)%nat -> nth t (mu_edges absolute n) 0 = (if absolute then 0 else -1) + INR t * ((1 - (if absolute then 0 else -1)) / INR n).
Proof.
  intros absolute n t H. unfold mu_edges. set (lo := if absolute then 0 else -1). rewrite (nth_indep _ 0 ((fun t => lo + INR t * ((1 - lo) / INR n)) 0%nat)) by (rewrite map_length, seq_length; lia). rewrite (map_nth (fun t => lo + INR t * ((1 - lo) / INR n))), seq_nth by lia. reflexivity.
Qed.
Theorem C91_mu_edges : forall absolute n, (0 < n)%nat -> length (mu_edges absolute n) = S n /\ rising (mu_edges absolute n) /\ nth 0 (mu_edges absolute n) 0 = (if absolute then 0 else -1) /\ last (mu_edges absolute n) 0 = 1.
Proof.
  intros absolute n Hn. assert (LEN : length (mu_edges absolute n) = S n) by (unfold mu_edges; rewrite map_length, seq_length; reflexivity). assert (LO : (if absolute then 0 else -1) < 1) by (destruct absolute; lra). assert (P : 0 < INR n) by (apply lt_0_INR, Hn). split; [exact LEN|]. split; [|split].
  - intros i j H. rewrite LEN in H. rewrite !mu_edges_nth by lia. apply Rplus_lt_compat_l, Rmult_lt_compat_r; [apply Rdiv_lt_0_compat; lra|apply lt_INR; lia].
  - rewrite mu_edges_nth by lia. cbn [INR]. lra.
  - assert (LA : forall l : list R, last l 0 = nth (length l - 1) l 0). { clear. intro l. induction l as [|a [|b l] IH]; [reflexivity..|]. cbn [last] in *. rewrite IH. cbn [length]. replace (S (S (length l)) - 1)%nat with (S (S (length l) - 1)) by lia. reflexivity. }
    rewrite LA, LEN, mu_edges_nth by lia. replace (S n - 1)%nat with n by lia. field. lra.
Qed.
Print Assumptions C91_mu_edges.
Example C91_mu_edges_sat : exists (n : nat), (0 < n)%nat.
Proof. exists 5%nat. repeat split; first [lra | lia | reflexivity | discriminate | congruence | auto]. Qed.
Theorem C91_line_of_sight : forall absolute los shape box n kbins i mu, (0 < n)%nat -> (2 <= length kbins)%nat -> rising kbins -> length shape = 3%nat -> length box = 3%nat -> (los < 3)%nat -> valid shape i ->
  nth 0 kbins 0 <= k_of shape box i < last kbins 0 -> mu_of absolute los shape box i = Some mu ->
  ((exists m b, (S m < length (mu_edges absolute n))%nat /\ (S b < length kbins)%nat /\ In i (bin_mu absolute false los shape box (mu_edges absolute n) kbins m b)) <-> mu <> 1).
Proof.
  intros absolute los shape box n kbins i mu Hn Lk Ak Ls Lb Hl V K E. destruct (C91_mu_edges absolute n Hn) as (LEN & UP & FI & LA). assert (L2 : (2 <= length (mu_edges absolute n))%nat) by lia.
  destruct (C91_mu_partition absolute false los shape box (mu_edges absolute n) kbins i L2 Lk UP Ak V) as [I _]. rewrite I, FI, LA. clear I. assert (R : (if absolute then 0 else -1) <= mu <= 1).
  { pose proof (C91_mu_range absolute los shape box i Ls Lb) as R. assert (Li : length i = 3%nat) by (rewrite <- Ls; symmetry; clear - V; unfold valid in V; induction V; cbn [length]; congruence). specialize (R Li Hl). rewrite E in R. apply R. }
  split.
  - intros (_ & _ & mu' & E' & H). rewrite E in E'. injection E' as <-. lra.
  - intro N. split; [exact K|]. split; [unfold good; destruct shape as [|? [|? [|? [|]]]]; try reflexivity; destruct i as [|? [|? [|? [|]]]]; reflexivity|]. exists mu. split; [exact E|]. destruct R as [R1 R2]. split; [exact R1|]. destruct R2; [assumption|contradiction].
Qed.
Print Assumptions C91_line_of_sight.
Example C91_ratio_bounds_sat : exists (cut : R) (mubins : list R) (pk : nat -> nat -> option R) (b : nat) (v : R) (a1 : R) (a2 : R) (b1 : R) (b2 : R), 0 <= a1 /\ 0 < b1 /\ ((forall m p, In m (upper cut mubins) -> pk m b = Some p -> a1 <= p <= a2)) /\ ((forall m p, In m (lower cut mubins) -> pk m b = Some p -> b1 <= p <= b2)) /\ ratio cut mubins pk b = Some v.
Proof. destruct C91_sat as (_ & _ & (v & E) & _). exists (1/2), [0; 1/2; 1], (fun m _ => Some (INR m + 1)), 0%nat, v, 1, 3, 1, 3. split; [lra|]. split; [lra|].
assert (B : forall m p, (m < 2)%nat -> Some (INR m + 1) = Some p -> 1 <= p <= 3). { intros m p M P. injection P as <-. split; [pose proof (pos_INR m); lra|]. assert (INR m <= INR 1) by (apply le_INR; lia). cbn in H. lra. }
split; [|split; [|exact E]]; intros m p I P; apply filter_In in I; destruct I as [I _]; apply in_seq in I; cbn in I; apply (B m p); [lia|exact P|lia|exact P]. Qed.
