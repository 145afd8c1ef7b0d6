(** C98: sliding windows, beams and painted spheres. *)
From Coq Require Import String List ZArith Bool Reals Lia Lra Permutation.
From Verif Require Import RLib GenusModel GenusProps SlideModel.
Import ListNotations.
Local Open Scope Z_scope.

Definition plusp (p q : pos) : pos := let '(i, j, k) := p in let '(a, b, c) := q in (i + a, j + b, k + c).
Lemma in_box_spec : forall s p, in_box s p = true <-> In p (grid s).
Proof. intros [[a b] c] [[i j] k]. rewrite grid_in. cbn [in_box in_grid]. rewrite !andb_true_iff, !Z.leb_le, !Z.ltb_lt. lia. Qed.
(** Sums over a window of shifted values, seen from the other side. *)
Lemma flip : forall s t d q (x : cube),
  rsum (map (fun p => if in_box s (minus (shift p d) q) then x (minus (shift p d) q) else 0%R) (grid t)) =
  rsum (map (fun r => if in_box t (shift (plusp r q) (- d)) then x r else 0%R) (grid s)).
Proof.
  intros. rewrite <- !rsum_filter.
  set (f := fun p => minus (shift p d) q).
  change (rsum (map (fun p => x (f p)) (filter (fun p => in_box s (f p)) (grid t))) = rsum (map x (filter (fun r => in_box t (shift (plusp r q) (- d))) (grid s)))).
  rewrite <- map_map. apply rsum_perm. apply Permutation_map. apply NoDup_Permutation.
  - assert (I : forall l, NoDup l -> NoDup (map f l)).
    { induction l; intro N; cbn [map]; constructor; inversion N; subst; auto. intro H. apply in_map_iff in H. destruct H as [y [E H]].
      replace a with y; [|]. { replace y with a in H; auto. destruct a as [[]], y as [[]], q as [[]]; cbn [f minus shift] in E. injection E. intros. apply pos_eq; lia. }
      destruct a as [[]], y as [[]], q as [[]]; cbn [f minus shift] in E. injection E. intros. apply pos_eq; lia. }
    apply I. apply NoDup_filter. apply grid_NoDup.
  - apply NoDup_filter. apply grid_NoDup.
  - intro r. split.
    + intro H. apply in_map_iff in H. destruct H as [p [E H]]. apply filter_In in H. destruct H as [H1 H2]. subst r. apply filter_In. split. { apply in_box_spec. exact H2. }
      apply in_box_spec. replace (shift (plusp (f p) q) (- d)) with p; auto. destruct p as [[]], q as [[]]; cbn [f minus shift plusp]. apply pos_eq; lia.
    + intro H. apply filter_In in H. destruct H as [H1 H2]. apply in_map_iff. exists (shift (plusp r q) (- d)).
      assert (E : f (shift (plusp r q) (- d)) = r). { destruct r as [[]], q as [[]]; cbn [f minus shift plusp]. apply pos_eq; lia. }
      split; auto. apply filter_In. split. { apply in_box_spec. exact H2. } rewrite E. apply in_box_spec. exact H1.
Qed.

(** * Weights *)
Definition total3 (s : pos) (x : cube) : R := rsum (map x (grid s)).
Lemma rsum_pos_in : forall {A} (f : A -> R) l a, (forall x, In x l -> (0 <= f x)%R) -> In a l -> (0 < f a)%R -> (0 < rsum (map f l))%R.
Proof.
  intros A f l a N I P. induction l as [|b l IH]; [destruct I|]. cbn [map]. change (0 < f b + rsum (map f l))%R.
  assert (0 <= rsum (map f l))%R. { apply rsum_nonneg. intros v H. apply in_map_iff in H. destruct H as [u [<- H]]. apply N. right. exact H. }
  destruct I as [->|I]; [lra|]. assert (0 <= f b)%R by (apply N; left; reflexivity). specialize (IH (fun x h => N x (or_intror h)) I). lra.
Qed.
Lemma raw_nonneg : forall m win q, (0 <= raw_kernel m win q)%R.
Proof. intros m [] q; cbn [raw_kernel]; [destruct (on_disc m q)|]; lra. Qed.
Lemma raw_total : forall m win, 1 <= m -> (0 < rsum (map (raw_kernel m win) (grid (m, m, m))))%R.
Proof.
  intros m win M. assert (H : 0 <= m / 2 < m) by (split; [apply Z.div_pos; lia|apply Z.div_lt; lia]).
  apply (rsum_pos_in _ _ (m / 2, m / 2, m / 2)); [intros; apply raw_nonneg|apply grid_in; cbn [in_grid]; lia|].
  destruct win; cbn [raw_kernel]; [|lra]. unfold on_disc. replace (_ <=? _) with true; [lra|symmetry; apply Z.leb_le; nia].
Qed.
Lemma gauss_total : forall m sigma, 1 <= m -> (0 < rsum (map (gauss m sigma) (grid (m, m, m))))%R.
Proof.
  intros m sigma M. apply (rsum_pos_in _ _ (0, 0, 0)); [|apply grid_in; cbn [in_grid]; lia|unfold gauss; apply exp_pos].
  intros [[i j] k] _. unfold gauss. apply Rlt_le, exp_pos.
Qed.
Lemma unit_sum : forall (f : cube) l, (0 < rsum (map f l))%R -> rsum (map (fun q => (f q / rsum (map f l))%R) l) = 1%R.
Proof. intros f l P. unfold Rdiv. rewrite rsum_scale_r. field. lra. Qed.
(** ** The total over any window of the full convolution. *)
Lemma window_total : forall s t m d x w,
  rsum (map (fun p => full s m x w (shift p d)) (grid t)) =
  rsum (map (fun q => (w q * rsum (map (fun r => if in_box t (shift (plusp r q) (- d)) then x r else 0%R) (grid s)))%R) (grid (m, m, m))).
Proof.
  intros. unfold full. rewrite (rsum_swap (fun p q => if in_box s (minus (shift p d) q) then (w q * x (minus (shift p d) q))%R else 0%R)).
  apply rsum_ext. intros q _. rewrite <- flip, <- rsum_scale. apply rsum_ext. intros p _. destruct (in_box s (minus (shift p d) q)); ring.
Qed.
Lemma full_nonneg : forall s m x w p, (forall r, In r (grid s) -> (0 <= x r)%R) -> (forall q, (0 <= w q)%R) -> (0 <= full s m x w p)%R.
Proof.
  intros s m x w p X W. unfold full. apply rsum_nonneg. intros v H. apply in_map_iff in H. destruct H as [q [<- _]].
  destruct (in_box s (minus p q)) eqn:E; [|lra]. apply in_box_spec in E. apply Rmult_le_pos; auto.
Qed.

(** * [smooth_gauss_3d]: the total is kept, but the array grows by its first side, less one, along every axis. *)
Theorem C98_smooth : forall a b c array fwhm, 1 <= a -> 1 <= b -> 1 <= c ->
  let out := smooth_gauss_3d (a, b, c) array fwhm in
  fst out = (2 * a - 1, a + b - 1, a + c - 1) /\
  rsum (map (snd out) (grid (fst out))) = rsum (map array (grid (a, b, c))) /\
  ((forall r, In r (grid (a, b, c)) -> (0 <= array r)%R) -> forall p, (0 <= snd out p)%R).
Proof.
  intros a b c array fwhm A B C out. subst out. unfold smooth_gauss_3d. cbn [fst snd].
  set (w := gauss_kernel a (fwhm / (2 * sqrt (2 * ln 2)))).
  assert (W1 : rsum (map w (grid (a, a, a))) = 1%R). { unfold w, gauss_kernel. apply unit_sum. apply gauss_total. exact A. }
  assert (W0 : forall q, (0 <= w q)%R). { intros q. unfold w, gauss_kernel. apply Rlt_le. apply Rdiv_lt_0_compat; [destruct q as [[]]; unfold gauss; apply exp_pos|apply gauss_total; exact A]. }
  split; [|split].
  - unfold full_shape, shift. apply pos_eq; lia.
  - transitivity (rsum (map (fun p => full (a, b, c) a array w (shift p 0)) (grid (full_shape (a, b, c) a)))).
    { apply rsum_ext. intros [[i j] k] _. apply (f_equal (full (a, b, c) a array w)). unfold shift. apply pos_eq; lia. }
    rewrite window_total. transitivity (rsum (map (fun q => (w q * rsum (map array (grid (a, b, c))))%R) (grid (a, a, a)))).
    { apply rsum_ext. intros q Q. apply (f_equal (Rmult (w q))). apply rsum_ext. intros r H. replace (in_box _ _) with true; [reflexivity|]. symmetry. apply in_box_spec.
      apply grid_in in Q, H. apply grid_in. destruct q as [[]], r as [[]]. cbn [in_grid full_shape shift plusp] in *. lia. }
    rewrite rsum_scale_r, W1. ring.
  - intros X p. apply full_nonneg; assumption.
Qed.
Print Assumptions C98_smooth.
Corollary C98_smooth_shape : forall a b c array fwhm, 1 <= a -> 1 <= b -> 1 <= c -> (fst (smooth_gauss_3d (a, b, c) array fwhm) = (a, b, c) <-> a = 1).
Proof.
  intros a b c array fwhm A B C. destruct (C98_smooth a b c array fwhm A B C) as [-> _]. split; intro H; [assert (2 * a - 1 = a) by congruence; lia|subst; apply pos_eq; lia].
Qed.
Print Assumptions C98_smooth_shape.

(** * [box_count_sliding] *)
Lemma kernel_unit : forall m win, 1 <= m -> rsum (map (get_kernel m win) (grid (m, m, m))) = 1%R.
Proof. intros. unfold get_kernel. apply unit_sum. apply raw_total. assumption. Qed.
Lemma kernel_nonneg : forall m win q, 1 <= m -> (0 <= get_kernel m win q)%R.
Proof. intros m win q M. unfold get_kernel. apply Rmult_le_pos; [apply raw_nonneg|]. apply Rlt_le, Rinv_0_lt_compat, raw_total, M. Qed.
Lemma upto_length : forall n, 0 <= n -> Z.of_nat (length (upto n)) = n.
Proof. intros. unfold upto. rewrite map_length, seq_length. lia. Qed.
Lemma grid_length : forall a b c, length (grid (a, b, c)) = (length (upto a) * length (upto b) * length (upto c))%nat.
Proof. intros. etransitivity; [exact (prod_length (list_prod (upto a) (upto b)) (upto c))|]. rewrite (prod_length (upto a) (upto b)). reflexivity. Qed.
(** The zeroth moment says nothing about the data. *)
Theorem C98_count_zero : forall a b c data m win, 0 <= a -> 0 <= b -> 0 <= c -> box_count_sliding (a, b, c) data m 0 win = IZR (a * b * c).
Proof.
  intros a b c data m win A B C. unfold box_count_sliding. rewrite (rsum_ext _ (fun _ => 1%R)) by (intros; reflexivity). rewrite rsum_const. rewrite grid_length, !mult_INR, !INR_IZR_INZ, !upto_length by assumption.
  rewrite !mult_IZR. ring.
Qed.
Print Assumptions C98_count_zero.
Example C98_count_zero_sat : exists (a : Z) (b : Z) (c : Z), 0 <= a /\ 0 <= b /\ 0 <= c.
Proof. exists 4, 5, 6. repeat split; first [lra | lia | reflexivity | discriminate | congruence | auto]. Qed.
(** The first moment is at most the total, and the total when the data keep half a window from the faces. *)
Definition interior (s : pos) (m : Z) (r : pos) : Prop := let '(a, b, c) := s in let '(i, j, k) := r in
  (m - 1) / 2 <= i < a - m / 2 /\ (m - 1) / 2 <= j < b - m / 2 /\ (m - 1) / 2 <= k < c - m / 2.
Theorem C98_count_one : forall s data m win, 1 <= m ->
  ((forall r, In r (grid s) -> (0 <= data r)%R) -> (0 <= box_count_sliding s data m 1 win <= rsum (map data (grid s)))%R) /\
  ((forall r, In r (grid s) -> ~ interior s m r -> data r = 0%R) -> box_count_sliding s data m 1 win = rsum (map data (grid s))).
Proof.
  intros s data m win M.
  assert (F : box_count_sliding s data m 1 win = rsum (map (fun q => (get_kernel m win q * rsum (map (fun r => if in_box s (shift (plusp r q) (- ((m - 1) / 2))) then data r else 0%R) (grid s)))%R) (grid (m, m, m)))).
  { rewrite <- window_total. unfold box_count_sliding, same. apply rsum_ext. intros. apply pow_1. }
  assert (K := kernel_unit m win M). split.
  - intro X. split.
    + rewrite F. apply rsum_nonneg. intros v H. apply in_map_iff in H. destruct H as [q [<- _]]. apply Rmult_le_pos; [apply kernel_nonneg; exact M|].
      apply rsum_nonneg. intros u H. apply in_map_iff in H. destruct H as [r [<- H]]. destruct (in_box s _); [auto|lra].
    + rewrite F. replace (rsum (map data (grid s))) with (rsum (map (get_kernel m win) (grid (m, m, m))) * rsum (map data (grid s)))%R by (rewrite K; ring).
      rewrite <- rsum_scale_r. apply rsum_le. intros q _. apply Rmult_le_compat_l; [apply kernel_nonneg; exact M|]. apply rsum_le. intros r H. destruct (in_box s _); [lra|auto].
  - intro X. rewrite F. transitivity (rsum (map (fun q => (get_kernel m win q * rsum (map data (grid s)))%R) (grid (m, m, m)))); [|rewrite rsum_scale_r, K; ring].
    apply rsum_ext. intros q Q. apply (f_equal (Rmult (get_kernel m win q))). apply rsum_ext. intros r H.
    destruct (in_box s (shift (plusp r q) (- ((m - 1) / 2)))) eqn:E; [reflexivity|]. symmetry. apply X; [exact H|]. intro J.
    assert (T : in_box s (shift (plusp r q) (- ((m - 1) / 2))) = true); [|congruence]. apply in_box_spec. apply grid_in. apply grid_in in Q. destruct s as [[]], q as [[]], r as [[]]. cbn [interior in_grid shift plusp] in *.
    assert ((m - 1) / 2 + m / 2 = m - 1). { pose proof (Z.div_mod m 2). pose proof (Z.div_mod (m - 1) 2). pose proof (Z.mod_pos_bound m 2). pose proof (Z.mod_pos_bound (m - 1) 2). lia. }
    lia.
Qed.
Print Assumptions C98_count_one.
Example C98_count_one_sat : exists (m : Z), 1 <= m.
Proof. exists 3. repeat split; first [lra | lia | reflexivity | discriminate | congruence | auto]. Qed.
(** ** What one bright cell becomes. *)
Definition impulse (r p : pos) : R := if pos_eqb p r then 1%R else 0%R.
Lemma pos_eqb_spec : forall p r, pos_eqb p r = true <-> p = r.
Proof. intros [[i j] k] [[a b] c]. unfold pos_eqb. rewrite !andb_true_iff, !Z.eqb_eq. split; [intros [[-> ->] ->]; reflexivity|intro E; repeat split; congruence]. Qed.
Lemma full_impulse : forall s m w r p, In r (grid s) -> full s m (impulse r) w p = if in_box (m, m, m) (minus p r) then w (minus p r) else 0%R.
Proof.
  intros s m w r p I. unfold full.
  transitivity (rsum (map (fun q => if pos_eqb q (minus p r) then w q else 0%R) (grid (m, m, m)))).
  { apply rsum_ext. intros q _. destruct (pos_eqb q (minus p r)) eqn:E.
    - apply pos_eqb_spec in E. assert (F : minus p q = r). { subst q. destruct p as [[]], r as [[]]. cbn [minus]. apply pos_eq; lia. }
      rewrite F, (proj2 (in_box_spec s r) I). unfold impulse. rewrite (proj2 (pos_eqb_spec r r) eq_refl). ring.
    - destruct (in_box s (minus p q)); [|reflexivity]. unfold impulse. destruct (pos_eqb (minus p q) r) eqn:F; [|ring]. apply pos_eqb_spec in F. exfalso.
      assert (T : pos_eqb q (minus p r) = true); [|congruence]. apply pos_eqb_spec. subst r. destruct p as [[]], q as [[]]. cbn [minus]. apply pos_eq; lia. }
  destruct (in_box (m, m, m) (minus p r)) eqn:B.
  - apply in_box_spec in B. pose proof (grid_NoDup (m, m, m)) as N. induction (grid (m, m, m)) as [|a l IH]; [destruct B|]. inversion N; subst. cbn [map]. change ((if pos_eqb a (minus p r) then w a else 0) + rsum (map (fun q => if pos_eqb q (minus p r) then w q else 0) l) = w (minus p r))%R.
    destruct (pos_eqb a (minus p r)) eqn:E.
    + apply pos_eqb_spec in E. subst a. rewrite rsum_zero; [ring|]. intros x X. destruct (pos_eqb x (minus p r)) eqn:F; [|reflexivity]. apply pos_eqb_spec in F. subst x. contradiction.
    + rewrite IH; [ring| |assumption]. destruct B as [->|B]; [|exact B]. rewrite (proj2 (pos_eqb_spec (minus p r) (minus p r)) eq_refl) in E. discriminate.
  - apply rsum_zero. intros x X. destruct (pos_eqb x (minus p r)) eqn:F; [|reflexivity]. apply pos_eqb_spec in F. subst x. apply in_box_spec in X. congruence.
Qed.
(** A window of side [m] reaches from [m/2] cells before the cell to [(m-1)/2] cells after it: off centre for even sides. *)
Theorem C98_cube_window : forall s m i j k i' j' k', 1 <= m -> In (i, j, k) (grid s) ->
  same s m (impulse (i, j, k)) (get_kernel m Cube) (i', j', k') =
  if (- ((m - 1) / 2) <=? i' - i) && (i' - i <=? m / 2) && (- ((m - 1) / 2) <=? j' - j) && (j' - j <=? m / 2) && (- ((m - 1) / 2) <=? k' - k) && (k' - k <=? m / 2) then (/ IZR (m * m * m))%R else 0%R.
Proof.
  intros s m i j k i' j' k' M I. unfold same. rewrite full_impulse by exact I.
  assert (D : (m - 1) / 2 + m / 2 = m - 1). { pose proof (Z.div_mod m 2). pose proof (Z.div_mod (m - 1) 2). pose proof (Z.mod_pos_bound m 2). pose proof (Z.mod_pos_bound (m - 1) 2). lia. }
  set (h := (m - 1) / 2) in *.
  assert (W : forall q, get_kernel m Cube q = (/ IZR (m * m * m))%R).
  { intro q. unfold get_kernel, raw_kernel. rewrite rsum_const, grid_length, !mult_INR, !INR_IZR_INZ, !upto_length, !mult_IZR by lia. unfold Rdiv. rewrite Rmult_1_l, Rmult_1_r. reflexivity. }
  rewrite W. match goal with |- (if ?a then _ else _) = (if ?b then _ else _) => replace a with b; [reflexivity|] end.
  unfold in_box, minus, shift. apply eq_true_iff_eq. rewrite !andb_true_iff, !Z.leb_le, !Z.ltb_lt. lia.
Qed.
Print Assumptions C98_cube_window.
Example C98_cube_window_sat : exists (s : pos) (m : Z) (i : Z) (j : Z) (k : Z), 1 <= m /\ In (i, j, k) (grid s).
Proof. exists (4, 5, 6), 2, 3, 4, 0. split; [lia|]. vm_compute. tauto. Qed.
(** A bright cell is smeared into a Gaussian of the given full width at half maximum, the first side halved further on. *)
Theorem C98_smooth_impulse : forall a b c fwhm i j k i' j' k', 1 <= a -> (fwhm <> 0)%R -> In (i, j, k) (grid (a, b, c)) ->
  0 <= i' - i < a -> 0 <= j' - j < a -> 0 <= k' - k < a ->
  let out := snd (smooth_gauss_3d (a, b, c) (impulse (i, j, k)) fwhm) in
  let d2 := IZR ((i' - i - a / 2) ^ 2 + (j' - j - a / 2) ^ 2 + (k' - k - a / 2) ^ 2) in
  out (i', j', k') = (out (i + a / 2, j + a / 2, k + a / 2)%Z * exp (- (4 * ln 2 * d2 / fwhm ^ 2)))%R.
Proof.
  intros a b c fwhm i j k i' j' k' A F I Hi Hj Hk out d2. subst out d2. unfold smooth_gauss_3d. cbn [fst snd].
  assert (H : 0 <= a / 2 < a) by (split; [apply Z.div_pos; lia|apply Z.div_lt_upper_bound; lia]).
  rewrite !full_impulse by exact I. unfold minus.
  rewrite (proj2 (in_box_spec (a, a, a) (i' - i, j' - j, k' - k))) by (apply grid_in; cbn [in_grid]; lia).
  replace (i + a / 2 - i) with (a / 2) by lia. replace (j + a / 2 - j) with (a / 2) by lia. replace (k + a / 2 - k) with (a / 2) by lia.
  rewrite (proj2 (in_box_spec (a, a, a) (a / 2, a / 2, a / 2))) by (apply grid_in; cbn [in_grid]; lia).
  unfold gauss_kernel. set (sg := (fwhm / (2 * sqrt (2 * ln 2)))%R). pose proof (gauss_total a sg A) as T. set (t := rsum _) in *.
  assert (L : (0 < ln 2)%R). { rewrite <- ln_1. apply ln_increasing; lra. }
  assert (S2 : (2 * sg ^ 2 = fwhm ^ 2 / (4 * ln 2))%R). { unfold sg. unfold Rdiv. rewrite Rpow_mult_distr. pose proof (sqrt_lt_R0 (2 * ln 2) ltac:(lra)) as Q. pose proof (sqrt_sqrt (2 * ln 2) ltac:(lra)) as Q2. rewrite pow_inv by lra.
    replace ((2 * sqrt (2 * ln 2)) ^ 2)%R with (4 * (sqrt (2 * ln 2) * sqrt (2 * ln 2)))%R by ring. rewrite Q2. field. lra. }
  unfold gauss. rewrite S2. rewrite !Z.sub_diag. replace (- IZR (0 * 0 + 0 * 0 + 0 * 0) / (fwhm ^ 2 / (4 * ln 2)))%R with 0%R by (cbn; unfold Rdiv; ring). rewrite exp_0.
  replace (1 / t * exp _)%R with (exp (- (4 * ln 2 * IZR ((i' - i - a / 2) ^ 2 + (j' - j - a / 2) ^ 2 + (k' - k - a / 2) ^ 2) / fwhm ^ 2)) / t)%R by (unfold Rdiv; ring).
  apply (f_equal (fun v => (v / t)%R)). apply f_equal. rewrite !Z.pow_2_r. field. split; lra.
Qed.
Print Assumptions C98_smooth_impulse.
Example C98_smooth_impulse_sat : exists (a : Z) (b : Z) (c : Z) (fwhm : R) (i : Z) (j : Z) (k : Z) (i' : Z) (j' : Z) (k' : Z), 1 <= a /\ (fwhm <> 0)%R /\ In (i, j, k) (grid (a, b, c)) /\ 0 <= i' - i < a /\ 0 <= j' - j < a /\ 0 <= k' - k < a.
Proof. exists 4, 4, 4, 2%R, 1, 0, 1, 2, 3, 1. repeat split; try lia; try lra. vm_compute. tauto. Qed.
(** Scaling the data by [c] scales the q-th moment by [c^q]. *)
Theorem C98_count_scale : forall s data c m q win, box_count_sliding s (fun r => (c * data r)%R) m q win = (c ^ q * box_count_sliding s data m q win)%R.
Proof.
  intros. unfold box_count_sliding. rewrite <- rsum_scale. apply rsum_ext. intros p _. rewrite <- Rpow_mult_distr. apply (f_equal (fun v => pow v q)). unfold same, full.
  rewrite <- rsum_scale. apply rsum_ext. intros o _. destruct (in_box s _); ring.
Qed.
Print Assumptions C98_count_scale.
(** The window called 'ball' is a disc drawn through the whole third axis. *)
Theorem C98_ball_refuted : forall m, 2 <= m -> exists i j k, 0 <= i < m /\ 0 <= j < m /\ 0 <= k < m /\
  (i - m / 2) ^ 2 + (j - m / 2) ^ 2 + (k - m / 2) ^ 2 > (m / 2) ^ 2 /\ (0 < get_kernel m Ball (i, j, k))%R.
Proof.
  intros m M. assert (1 <= m / 2) by (apply Z.div_le_lower_bound; lia). assert (m / 2 < m) by (apply Z.div_lt; lia). exists (m / 2), 0, 0. repeat split; try lia.
  unfold get_kernel. apply Rdiv_lt_0_compat; [|apply raw_total; lia]. unfold raw_kernel, on_disc. replace (_ <=? _) with true; [lra|symmetry; apply Z.leb_le; nia].
Qed.
Print Assumptions C98_ball_refuted.
Example C98_ball_refuted_sat : exists (m : Z), 2 <= m.
Proof. exists 3. repeat split; first [lra | lia | reflexivity | discriminate | congruence | auto]. Qed.
Theorem C98_cylinder : forall m i j k k', 1 <= m -> get_kernel m Ball (i, j, k) = get_kernel m Ball (i, j, k') /\
  ((0 < get_kernel m Ball (i, j, k))%R <-> (i - m / 2) ^ 2 + (j - m / 2) ^ 2 <= (m / 2) ^ 2).
Proof.
  intros m i j k k' M. split; [reflexivity|]. pose proof (raw_total m Ball M) as P. unfold get_kernel. set (t := rsum _) in *. unfold raw_kernel, on_disc.
  destruct (Z.leb_spec ((i - m / 2) * (i - m / 2) + (j - m / 2) * (j - m / 2)) (m / 2 * (m / 2))) as [L|L].
  - split; intro; [nia|]. apply Rdiv_lt_0_compat; lra.
  - split; intro H; [|nia]. unfold Rdiv in H. rewrite Rmult_0_l in H. lra.
Qed.
Print Assumptions C98_cylinder.
Example C98_cylinder_sat : exists (m : Z), 1 <= m.
Proof. exists 3. repeat split; first [lra | lia | reflexivity | discriminate | congruence | auto]. Qed.
(** [Renyi_diemsnions] never returns: its sizes are floats. *)
Theorem C98_renyi_raises : forall finish s data rr q, Renyi_dimensions finish s data rr q = None.
Proof. reflexivity. Qed.
Print Assumptions C98_renyi_raises.

(** * [put_sphere] *)
(** Squared distance to the centre when the box of shape [s] repeats in every direction. *)
Definition in_periodic_sphere (s p : pos) (c : R * R * R) (radius : R) : Prop :=
  exists u v w : Z, let '(a, b, n) := s in let '(i, j, k) := p in (dist2 (i + u * a, j + v * b, k + w * n)%Z c <= radius ^ 2)%R.
Theorem C98_sphere : forall s array centre radius label,
  put_sphere s false array centre radius label true = None /\
  (exists out, put_sphere s true array centre radius label false = Some out /\
     forall p, ((dist2 p centre <= radius ^ 2)%R -> out p = label) /\ (~ (dist2 p centre <= radius ^ 2)%R -> out p = array p)) /\
  (exists out, put_sphere s true array centre radius label true = Some out /\
     forall p, ((dist2 p centre <= radius ^ 2)%R -> out p = label) /\ (~ in_periodic_sphere s p centre radius -> out p = array p) /\
       (let '(a, b, c) := s in let '(i, j, k) := p in (dist2 (i + a, j + b, k + c)%Z centre <= radius ^ 2)%R -> out p = label)).
Proof.
  intros. split; [reflexivity|]. split; (eexists; split; [reflexivity|]); intro p; cbn beta; [split; intro H; destruct (Rle_dec _ _); tauto|].
  split; [|split; [|destruct s as [[a b] n], p as [[i j] k]]]; intro H.
  - destruct (Rle_dec (dist2 (far s p) centre) _); [reflexivity|]. destruct (Rle_dec _ _); tauto.
  - destruct (Rle_dec (dist2 (far s p) centre) _) as [F|F].
    + exfalso. apply H. exists 1, 1, 1. destruct s as [[a b] n], p as [[i j] k]. rewrite !Z.mul_1_l. exact F.
    + destruct (Rle_dec _ _) as [G|G]; [|reflexivity]. exfalso. apply H. exists 0, 0, 0. destruct s as [[a b] n], p as [[i j] k]. rewrite !Z.mul_0_l, !Z.add_0_r. exact G.
  - cbn [far]. destruct (Rle_dec _ _); [reflexivity|contradiction].
Qed.
Print Assumptions C98_sphere.
(** A sphere that crosses one face is cut off there, periodic or not. *)
Theorem C98_periodic_refuted : forall a b c array label, 3 <= a -> 3 <= b -> 3 <= c -> array (0, 1, 1) <> label ->
  let centre := (IZR (a - 1), 1, 1)%R in
  in_periodic_sphere (a, b, c) (0, 1, 1) centre 1 /\ exists out, put_sphere (a, b, c) true array centre 1 label true = Some out /\ out (0, 1, 1) <> label.
Proof.
  intros a b c array label A B C N centre. assert (A' : (3 <= IZR a)%R) by (apply IZR_le; exact A). assert (B' : (3 <= IZR b)%R) by (apply IZR_le; exact B). assert (C' : (3 <= IZR c)%R) by (apply IZR_le; exact C). subst centre. rewrite minus_IZR. split.
  - exists 1, 0, 0. unfold dist2. rewrite !plus_IZR, !mult_IZR. nra.
  - eexists. split; [reflexivity|]. cbn beta. unfold dist2, far. rewrite !plus_IZR. destruct (Rle_dec _ _) as [F|F]; [exfalso; nra|]. destruct (Rle_dec _ _) as [G|G]; [exfalso; nra|exact N].
Qed.
Print Assumptions C98_periodic_refuted.
Example C98_periodic_refuted_sat : exists (a : Z) (b : Z) (c : Z) (array : Z * Z * Z -> R) (label : R), 3 <= a /\ 3 <= b /\ 3 <= c /\ array (0, 1, 1) <> label.
Proof. exists 4, 4, 4, (fun _ => 1%R), 0%R. repeat split; try lia. lra. Qed.
(** What [periodic] adds: nothing unless the sphere reaches past the far corner of the box. *)
Theorem C98_periodic_corner : forall a b c array x y z radius label p, In p (grid (a, b, c)) -> (x <= IZR a)%R -> (y <= IZR b)%R -> (z <= IZR c)%R ->
  (radius ^ 2 < (IZR a - x) ^ 2 + (IZR b - y) ^ 2 + (IZR c - z) ^ 2)%R ->
  option_map (fun f => f p) (put_sphere (a, b, c) true array (x, y, z) radius label true) = option_map (fun f => f p) (put_sphere (a, b, c) true array (x, y, z) radius label false).
Proof.
  intros a b c array x y z radius label [[i j] k] I X Y Z0 H. apply grid_in in I. cbn [in_grid] in I. destruct I as [[I _] [[J _] [K _]]]. apply IZR_le in I, J, K.
  unfold put_sphere. cbn [option_map]. apply f_equal. destruct (Rle_dec (dist2 (far _ _) _) _) as [F|F]; [|reflexivity]. exfalso. unfold dist2, far in F. rewrite !plus_IZR in F.
  assert (Q : forall u v t : R, (0 <= u)%R -> (v <= t)%R -> ((t - v) ^ 2 <= (u + t - v) ^ 2)%R) by (intros; nra).
  pose proof (Q _ _ _ I X). pose proof (Q _ _ _ J Y). pose proof (Q _ _ _ K Z0). lra.
Qed.
Print Assumptions C98_periodic_corner.
Example C98_periodic_corner_sat : exists (a : Z) (b : Z) (c : Z) (x : R) (y : R) (z : R) (radius : R) (p : pos), In p (grid (a, b, c)) /\ (x <= IZR a)%R /\ (y <= IZR b)%R /\ (z <= IZR c)%R /\ (radius ^ 2 < (IZR a - x) ^ 2 + (IZR b - y) ^ 2 + (IZR c - z) ^ 2)%R.
Proof. exists 4, 4, 4, 2%R, 2%R, 2%R, 3%R, (3, 3, 3). repeat split; try lra. vm_compute. tauto. Qed.

(** * [beam_convolve] never returns *)
Theorem C98_beam_raises : forall beam_w max_baseline beamshape, exists e, beam_convolve beam_w max_baseline beamshape = inl e /\
  (e = NoWidth <-> (beam_w = None \/ beam_w = Some 0%R) /\ (max_baseline = None \/ max_baseline = Some 0%R)) /\
  (e = FloatSlice <-> e <> NoWidth /\ beamshape = "gaussian"%string) /\ (beamshape = "gaussian"%string -> e <> BadFormat).
Proof.
  assert (T : forall x, truthy x = false <-> x = None \/ x = Some 0%R).
  { intros [v|]; cbn [truthy]; [|tauto]. destruct (Req_EM_T v 0) as [->|N]; split; intro H; auto; try discriminate. destruct H as [H|H]; [discriminate|]. injection H as H. contradiction. }
  intros bw mb sh. unfold beam_convolve. setoid_rewrite <- T. destruct (truthy bw) eqn:E1, (truthy mb) eqn:E2; cbn [negb andb]; destruct (String.eqb_spec sh "gaussian") as [E|E]; eexists; (split; [reflexivity|]); (split; [split; intro H; try discriminate H; try (destruct H; discriminate); auto|]);
  (split; [split; intro H; first [discriminate H | destruct H; congruence | split; [discriminate|assumption]]|]); intro G; try discriminate; contradiction.
Qed.
Print Assumptions C98_beam_raises.

(** * [apply_uv_response] *)
Theorem C98_response : forall a b re im uv, 0 <= a -> 0 <= b ->
  (apply_uv_response a b re im uv = None <-> b < a) /\
  (a <= b -> exists fr fi, apply_uv_response a b re im uv = Some (fr, fi) /\
     forall i j, 0 <= i < a -> 0 <= j < b ->
       (j < a -> uv i j = 0%R -> fr i j = 0%R /\ fi i j = 0%R) /\
       (j < a -> (0 < uv i j)%R -> (fr i j * sqrt (uv i j) = re i j /\ fi i j * sqrt (uv i j) = im i j)%R) /\
       (j < a -> (1 <= uv i j)%R -> (fr i j ^ 2 + fi i j ^ 2 <= re i j ^ 2 + im i j ^ 2)%R) /\
       (a <= j -> fr i j = 0%R /\ fi i j = 0%R)).
Proof.
  intros a b re im uv A B. unfold apply_uv_response. destruct (Z.ltb_spec b a) as [L|L].
  { split; [split; [intros _; exact L|reflexivity]|intro; lia]. }
  split; [split; [discriminate|intro; lia]|]. intros _. eexists. eexists. split; [reflexivity|]. intros i j Hi Hj. cbn beta.
  assert (U : forall v u, (0 < u)%R -> (uv_cell v u * sqrt u = v)%R).
  { intros v u P. unfold uv_cell. destruct (Req_EM_T u 0); [lra|]. pose proof (sqrt_lt_R0 u P). field. lra. }
  split; [|split; [|split]].
  - intros J Z0. rewrite (proj2 (Z.ltb_lt j a) J). unfold uv_cell. rewrite Z0. destruct (Req_EM_T 0 0); [split; reflexivity|contradiction].
  - intros J P. rewrite (proj2 (Z.ltb_lt j a) J). split; apply U, P.
  - intros J P. rewrite (proj2 (Z.ltb_lt j a) J). assert (P0 : (0 < uv i j)%R) by lra. pose proof (U (re i j) _ P0) as E1. pose proof (U (im i j) _ P0) as E2. pose proof (sqrt_sqrt (uv i j) ltac:(lra)) as Q.
    set (x := uv_cell (re i j) (uv i j)) in *. set (y := uv_cell (im i j) (uv i j)) in *. rewrite <- E1, <- E2. set (t := sqrt (uv i j)) in *.
    replace ((x * t) ^ 2 + (y * t) ^ 2)%R with ((x ^ 2 + y ^ 2) * (t * t))%R by ring. rewrite Q. assert (0 <= x ^ 2 + y ^ 2)%R by (pose proof (pow2_ge_0 x); pose proof (pow2_ge_0 y); lra). nra.
  - intros J. replace (j <? a) with false by (symmetry; apply Z.ltb_ge; lia). split; reflexivity.
Qed.
Print Assumptions C98_response.
Example C98_response_sat : exists (a : Z) (b : Z), 0 <= a /\ 0 <= b.
Proof. exists 4, 5. repeat split; first [lra | lia | reflexivity | discriminate | congruence | auto]. Qed.

(** * Instances *)
Example C98_sat :
  rsum (map (snd (smooth_gauss_3d (3, 2, 4) (fun p => let '(i, j, k) := p in IZR (i + j * k)) 1)) (grid (5, 4, 6))) = rsum (map (fun p : pos => let '(i, j, k) := p in IZR (i + j * k)) (grid (3, 2, 4))) /\
  box_count_sliding (5, 5, 5) (fun p => if pos_eqb p (2, 2, 2) then 7%R else 0%R) 3 1 Ball = 7%R /\
  (exists u, put_sphere (3, 3, 3) true (fun _ => 0%R) (1, 1, 1)%R 1 5 true = Some u /\ u (1, 1, 2) = 5%R /\ u (0, 0, 1) = 0%R).
Proof.
  split; [|split].
  - apply (C98_smooth 3 2 4); lia.
  - destruct (C98_count_one (5, 5, 5) (fun p => if pos_eqb p (2, 2, 2) then 7%R else 0%R) 3 Ball ltac:(lia)) as [_ H]. rewrite H.
    + vm_compute grid. cbn [map rsum fold_right pos_eqb Z.eqb Pos.eqb andb]. lra.
    + intros [[i j] k] _ N. destruct (pos_eqb (i, j, k) (2, 2, 2)) eqn:E; [|reflexivity]. exfalso. apply N. unfold pos_eqb in E. rewrite !andb_true_iff, !Z.eqb_eq in E. destruct E as [[-> ->] ->]. cbn [interior]. change ((3 - 1) / 2) with 1. change (3 / 2) with 1. lia.
  - eexists. split; [reflexivity|]. cbn beta. unfold dist2, far. split.
    + destruct (Rle_dec _ _); [reflexivity|]. destruct (Rle_dec _ _) as [G|G]; [reflexivity|]. exfalso. apply G. lra.
    + destruct (Rle_dec _ _) as [F|F]; [exfalso; cbn in F; lra|]. destruct (Rle_dec _ _) as [G|G]; [exfalso; lra|reflexivity].
Qed.
