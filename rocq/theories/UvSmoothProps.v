(** C72: smoothing with a uv map. *)
From Coq Require Import List Arith ZArith Reals Lra Lia Bool.
From Verif Require Import RLib FourierModel FourierSpec FourierProofs FourierProps DftLib UvSmoothModel.
Import ListNotations.
Local Open Scope R_scope.

(** * Specification *)
Definition same_image (s : list nat) (x y : array) : Prop := forall a, valid s a -> x a = y a.
Definition total (s : list nat) (x : array) : R := rsum (map x (indices s)).
Definition energy (s : list nat) (x : array) : R := rsum (map (fun a => x a ^ 2) (indices s)).
Definition origin (s : list nat) : list nat := map (fun _ => 0%nat) s.
(** Size of the frequency in FFT cell [k] of [n]. *)
Definition freq (n k : nat) : R := Rmin (INR k) (INR n - INR k).
(** The mean weight of a mode and its opposite. *)
Definition mean_weight (s : list nat) (w : array) (j : list nat) : R := (w j + w (wrap_opp s j)) / 2.
Definition shape (c : cube) : nat * nat * nat := let '(a, b, d, _) := c in (a, b, d).
Definition value (c : cube) : nat -> nat -> nat -> R := let '(_, _, _, f) := c in f.

(** * Helpers *)
Lemma Rabs_le_inv : forall x a, Rabs x <= a -> - a <= x <= a.
Proof. intros x a. unfold Rabs. destruct (Rcase_abs x); lra. Qed.
Lemma filter_fft : forall s w x j, valid s j ->
  fft_re s (filter_modes s w x) j = mean_weight s w j * fft_re s x j /\ fft_im s (filter_modes s w x) j = mean_weight s w j * fft_im s x j.
Proof.
  intros s w x j Hj. unfold filter_modes. destruct (fft_of_real_part s (fun j => fft_re s x j * w j) (fun j => fft_im s x j * w j) j Hj) as [-> ->].
  destruct (fft_opp s x j Hj) as [E1 E2]. unfold even_part, odd_part, mean_weight. rewrite E1, E2. split; field.
Qed.
Lemma filter_linear : forall s w x y c, same_image s (filter_modes s w (fun a => c * x a + y a)) (fun a => c * filter_modes s w x a + filter_modes s w y a).
Proof.
  intros s w x y c a Ha. unfold filter_modes, ifft_re, Rdiv. rewrite <- Rmult_assoc, <- Rmult_plus_distr_r. f_equal. rewrite <- rsum_scale, <- rsum_plus. apply rsum_ext. intros j _.
  assert (FR : fft_re s (fun a => c * x a + y a) j = c * fft_re s x j + fft_re s y j) by (unfold fft_re; rewrite <- rsum_scale, <- rsum_plus; apply rsum_ext; intros; ring).
  assert (FI : fft_im s (fun a => c * x a + y a) j = c * fft_im s x j + fft_im s y j) by (unfold fft_im; rewrite <- Ropp_mult_distr_r, <- rsum_scale, <- Ropp_plus_distr, <- rsum_plus; f_equal; apply rsum_ext; intros; ring).
  rewrite FR, FI. ring.
Qed.
Lemma filter_energy : forall s w x, (forall j, valid s j -> Rabs (w j) <= 1) -> energy s (filter_modes s w x) <= energy s x.
Proof.
  intros s w x W. unfold energy. destruct (indices s) as [|i0 r] eqn:I; [cbn; lra|]. rewrite <- I.
  assert (V : valid s i0) by (apply indices_valid; rewrite I; left; reflexivity). pose proof (ncells_pos s i0 V) as N.
  assert (Sq : forall y, rsum (map (fun a => y a ^ 2) (indices s)) = rsum (map (fun a => y a * y a) (indices s))) by (intro y; apply rsum_ext; intros; ring).
  rewrite !Sq. apply (Rmult_le_reg_l (ncells s)); [exact N|]. rewrite <- !cross_sum. apply rsum_le. intros j Hj. apply indices_valid in Hj.
  rewrite (proj1 (filter_fft _ _ _ _ Hj)), (proj2 (filter_fft _ _ _ _ Hj)). pose proof (W j Hj) as A. pose proof (W _ (valid_opp s j Hj)) as B.
  assert (M : 0 <= mean_weight s w j * mean_weight s w j <= 1). { assert (Rabs (mean_weight s w j) <= 1) by (unfold mean_weight; apply Rabs_le; apply Rabs_le_inv in A, B; lra). apply Rabs_le_inv in H. split; [apply Rle_0_sqr|nra]. }
  set (m := mean_weight s w j) in *. set (p := fft_re s x j). set (q := fft_im s x j).
  replace (m * p * (m * p) + m * q * (m * q)) with (m * m * (p * p + q * q)) by ring. pose proof (Rle_0_sqr p). pose proof (Rle_0_sqr q). unfold Rsqr in *. nra.
Qed.
Lemma total_fft : forall s y, total s y = fft_re s y (origin s).
Proof.
  intros s y. unfold total, fft_re. apply rsum_ext. intros a _. rewrite phase_sym.
  assert (P : phase s a (origin s) = 0). { clear. revert a. induction s as [|n s IH]; intros [|k j]; try reflexivity. cbn [origin map phase]. fold (origin s). rewrite IH. cbn. unfold Rdiv. ring. }
  rewrite P, Rmult_0_r, cos_0. ring.
Qed.
Lemma origin_opp : forall s, (forall n, In n s -> (0 < n)%nat) -> valid s (origin s) /\ wrap_opp s (origin s) = origin s.
Proof.
  induction s as [|n s IH]; intro P; [split; [constructor|reflexivity]|]. destruct (IH ltac:(intros; apply P; right; assumption)) as [A B]. pose proof (P n (or_introl eq_refl)). cbn. fold (origin s). split; [constructor; assumption|].
  rewrite B. f_equal. rewrite Nat.sub_0_r. apply Nat.mod_same. lia.
Qed.
Lemma filter_total : forall s w x, (forall n, In n s -> (0 < n)%nat) -> total s (filter_modes s w x) = w (origin s) * total s x.
Proof.
  intros s w x P. destruct (origin_opp s P) as [V O]. rewrite !total_fft, (proj1 (filter_fft _ _ _ _ V)). unfold mean_weight. rewrite O. field.
Qed.
Lemma fold_max : forall l x y, In y (x :: l) -> y <= fold_right Rmax x l.
Proof.
  induction l as [|a l IH]; intros x y H; cbn in *; [destruct H as [->|[]]; lra|]. destruct H as [->|[->|H]].
  - eapply Rle_trans; [apply (IH y y); left; reflexivity|apply Rmax_r].
  - apply Rmax_l.
  - eapply Rle_trans; [apply (IH x y); right; exact H|apply Rmax_r].
Qed.
Lemma largest_ge : forall s uv j, valid s j -> uv j <= largest s uv.
Proof.
  intros s uv j Hj. apply indices_valid in Hj. apply (in_map uv) in Hj. unfold largest. destruct (map uv (indices s)) as [|x r]; [destruct Hj|]. apply fold_max. exact Hj.
Qed.

(** * Theorems *)
(** Every mode is multiplied by the mean weight of the mode and its opposite; the image is linear in the input. *)
Theorem C72_convolve : forall n0 n1 x z uv box cdist out, convolve_uvmap n0 n1 x z uv None box cdist = Some out ->
  let s := [n0; n1] in let M := largest s uv in
  (forall j, valid s j -> fft_re s out j = (uv j + uv (wrap_opp s j)) / (2 * M) * fft_re s x j /\ fft_im s out j = (uv j + uv (wrap_opp s j)) / (2 * M) * fft_im s x j) /\
  ((forall j, valid s j -> 0 <= uv j) -> 0 < M -> energy s out <= energy s x) /\
  ((0 < n0)%nat -> (0 < n1)%nat -> total s out = uv [0%nat; 0%nat] / M * total s x).
Proof.
  intros n0 n1 x z uv box cdist out H s M. cbn in H. injection H as <-. split; [|split].
  - intros j Hj. destruct (filter_fft s (fun j => uv j / M) x j Hj) as [E1 E2]. fold s. fold M.
    assert (W : mean_weight s (fun j => uv j / M) j = (uv j + uv (wrap_opp s j)) / (2 * M)) by (unfold mean_weight, Rdiv; rewrite Rinv_mult; ring). rewrite <- W. split; assumption.
  - intros P PM. apply filter_energy. intros j Hj. fold s. fold M. specialize (P j Hj). pose proof (largest_ge s uv j Hj) as L. fold M in L.
    rewrite Rabs_right by (apply Rle_ge, Rmult_le_pos; [exact P|left; apply Rinv_0_lt_compat; exact PM]). apply Rmult_le_reg_r with M; [exact PM|]. unfold Rdiv. rewrite Rmult_assoc, Rinv_l by lra. lra.
  - intros H0 H1. fold s. fold M. rewrite (filter_total s (fun j => uv j / M) x); [reflexivity|]. intros n [<-|[<-|[]]]; assumption.
Qed.
Print Assumptions C72_convolve.
Example C72_convolve_sat : exists (n0 : nat) (n1 : nat) (x : array) (z : option R) (uv : array) (box : R) (cdist : R) (out : array), convolve_uvmap n0 n1 x z uv None box cdist = Some out.
Proof. eexists 4%nat, 4%nat, (fun a => INR (nth 0 a 0%nat)), None, (fun a => INR (nth 1 a 0%nat)), 100, 9000, _. reflexivity. Qed.
Theorem C72_linear : forall n0 n1 x y c z uv b box cdist ox oy oc,
  convolve_uvmap n0 n1 x z uv b box cdist = Some ox -> convolve_uvmap n0 n1 y z uv b box cdist = Some oy -> convolve_uvmap n0 n1 (fun a => c * x a + y a) z uv b box cdist = Some oc ->
  same_image [n0; n1] oc (fun a => c * ox a + oy a).
Proof.
  intros n0 n1 x y c z uv b box cdist ox oy oc. unfold convolve_uvmap. destruct (match b with None => _ | Some _ => _ end) as [m|]; [|discriminate].
  intros H1 H2 H3. injection H1 as <-. injection H2 as <-. injection H3 as <-. apply filter_linear.
Qed.
Print Assumptions C72_linear.
Example C72_linear_sat : exists (n0 : nat) (n1 : nat) (x : array) (y : array) (c : R) (z : option R) (uv : array) (b : option R) (box : R) (cdist : R) (ox : array) (oy : array) (oc : array), convolve_uvmap n0 n1 x z uv b box cdist = Some ox /\ convolve_uvmap n0 n1 y z uv b box cdist = Some oy /\ convolve_uvmap n0 n1 (fun a => c * x a + y a) z uv b box cdist = Some oc.
Proof. eexists 4%nat, 4%nat, (fun a => INR (nth 0 a 0%nat)), (fun a => INR (nth 1 a 0%nat)), 3, (Some 8), (fun a => INR (nth 1 a 0%nat)), (Some 2), 100, 9000, _, _, _. split; [reflexivity|]. split; reflexivity. Qed.
(** With a baseline limit a redshift is needed and the map must be square; the mean of the image is lost. *)
Theorem C72_domain : forall n0 n1 x z uv b box cdist, convolve_uvmap n0 n1 x z uv b box cdist = None <-> (exists l, b = Some l) /\ (z = None \/ n0 <> n1).
Proof.
  intros n0 n1 x z uv b box cdist. unfold convolve_uvmap, remove_baselines_from_uvmap. destruct b as [l|]; [|split; [discriminate|intros [[l H] _]; discriminate]].
  destruct z as [z|]; [|split; [intros _; split; [exists l; reflexivity|left; reflexivity]|reflexivity]]. destruct (Nat.eqb_spec n0 n1) as [E|E].
  - split; [discriminate|]. intros [_ [H|H]]; [discriminate|contradiction].
  - split; [|reflexivity]. intros _. split; [exists l; reflexivity|right; exact E].
Qed.
Print Assumptions C72_domain.
Theorem C72_mean_lost : forall n x z uv l box cdist out, (0 < n)%nat -> convolve_uvmap n n x (Some z) uv (Some l) box cdist = Some out -> total [n; n] out = 0.
Proof.
  intros n x z uv l box cdist out Hn H. unfold convolve_uvmap, remove_baselines_from_uvmap in H. rewrite Nat.eqb_refl in H. injection H as <-.
  rewrite filter_total by (intros k [<-|[<-|[]]]; exact Hn). cbn [origin map nth]. unfold kept. cbn [Nat.eqb andb negb]. rewrite andb_false_r. unfold Rdiv. ring.
Qed.
Print Assumptions C72_mean_lost.
Example C72_mean_lost_sat : exists (n : nat) (x : array) (z : R) (uv : array) (l : R) (box : R) (cdist : R) (out : array), (0 < n)%nat /\ convolve_uvmap n n x (Some z) uv (Some l) box cdist = Some out.
Proof. eexists 4%nat, (fun a => INR (nth 0 a 0%nat)), 8, (fun a => INR (nth 1 a 0%nat)), 2, 100, 9000, _. split; [lia|reflexivity]. Qed.
(** The cut keeps exactly the frequencies within the radius, but not the zero frequency: it is aligned with
    the FFT and keeps opposite modes together. *)
Lemma kept_spec : forall n radius i j, (i < n)%nat -> (j < n)%nat ->
  kept n n radius i j = true <-> ~ (i = 0 /\ j = 0)%nat /\ freq n i ^ 2 + freq n j ^ 2 <= radius ^ 2.
Proof.
  intros n radius i j Hi Hj. unfold kept. rewrite andb_true_iff, negb_true_iff, andb_false_iff, !orb_true_iff, !Nat.eqb_neq.
  assert (W : forall a b, (if Rle_dec (a ^ 2 + b ^ 2) (radius ^ 2) then true else false) = true <-> a ^ 2 + b ^ 2 <= radius ^ 2) by (intros a b; destruct (Rle_dec _ _); split; intro; try assumption; try reflexivity; try discriminate; contradiction).
  rewrite !W.
  assert (F : forall k, (k < n)%nat -> (freq n k = INR k \/ freq n k = INR n - INR k) /\ freq n k ^ 2 <= INR k ^ 2 /\ freq n k ^ 2 <= (INR n - INR k) ^ 2).
  { intros k Hk. pose proof (pos_INR k). apply lt_INR in Hk. unfold freq, Rmin. destruct (Rle_dec _ _); split; auto; split; nra. }
  destruct (F i Hi) as [Ci [Ai Bi]]. destruct (F j Hj) as [Cj [Aj Bj]].
  split.
  - intros [[[[H|H]|H]|H] N]; (split; [lia|lra]).
  - intros [N H]. split; [|lia]. destruct Ci as [Ci|Ci], Cj as [Cj|Cj]; rewrite Ci, Cj in H.
    + left. left. left. lra.
    + left. left. right. lra.
    + left. right. lra.
    + right. lra.
Qed.
(** With a baseline limit the map is first restricted to the nonzero frequencies within the radius, and then divided by its largest
    remaining entry: a mode of the largest remaining weight (on both opposite modes) passes unchanged. *)
Definition limited (n : nat) (radius : R) (uv : array) : array := fun c =>
  let i := nth 0 c 0%nat in let j := nth 1 c 0%nat in
  if Rle_dec (freq n i ^ 2 + freq n j ^ 2) (radius ^ 2) then if (Nat.eqb i 0 && Nat.eqb j 0)%bool then 0 else uv c else 0.
Theorem C72_limited : forall n x z uv l box cdist out, convolve_uvmap n n x (Some z) uv (Some l) box cdist = Some out ->
  let s := [n; n] in let m := limited n (cut_radius z l cdist box) uv in let M := largest s m in
  (forall j, valid s j -> fft_re s out j = (m j + m (wrap_opp s j)) / (2 * M) * fft_re s x j /\ fft_im s out j = (m j + m (wrap_opp s j)) / (2 * M) * fft_im s x j) /\
  (forall j, valid s j -> M <> 0 -> m j = M -> m (wrap_opp s j) = M -> fft_re s out j = fft_re s x j /\ fft_im s out j = fft_im s x j).
Proof.
  intros n x z uv l box cdist out H s m M. unfold convolve_uvmap, remove_baselines_from_uvmap in H. rewrite Nat.eqb_refl in H. injection H as <-. set (r := cut_radius z l cdist box) in *.
  set (cut := fun c : list nat => (if kept n n r (nth 0 c 0%nat) (nth 1 c 0%nat) then 1 else 0) * uv c).
  assert (C : forall c, valid s c -> cut c = m c).
  { intros c Hc. inversion Hc as [|? i ? c' Hi Hc']; subst. inversion Hc' as [|? j ? c'' Hj Hc'']; subst. inversion Hc''; subst. unfold cut, m, limited. cbn [nth]. pose proof (kept_spec n r i j Hi Hj) as K. destruct (kept n n r i j).
    - destruct (proj1 K eq_refl) as [N L]. destruct (Rle_dec (freq n i ^ 2 + freq n j ^ 2) (r ^ 2)); [|contradiction]. destruct (Nat.eqb_spec i 0), (Nat.eqb_spec j 0); cbn [andb]; try ring. exfalso. apply N. split; assumption.
    - destruct (Rle_dec (freq n i ^ 2 + freq n j ^ 2) (r ^ 2)) as [L|L]; [|ring]. destruct (Nat.eqb_spec i 0) as [A|A], (Nat.eqb_spec j 0) as [B|B]; cbn [andb]; try ring; exfalso; assert (X : false = true) by (apply K; split; [lia|exact L]); discriminate. }
  assert (L : largest s cut = M). { unfold M, largest. assert (E : map cut (indices s) = map m (indices s)) by (apply map_ext_in; intros c Hc; apply C, indices_valid, Hc). rewrite E. reflexivity. }
  assert (G : forall j, valid s j -> fft_re s (filter_modes s (fun j => cut j / largest s cut) x) j = (m j + m (wrap_opp s j)) / (2 * M) * fft_re s x j /\ fft_im s (filter_modes s (fun j => cut j / largest s cut) x) j = (m j + m (wrap_opp s j)) / (2 * M) * fft_im s x j).
  { intros j Hj. destruct (filter_fft s (fun j => cut j / largest s cut) x j Hj) as [E1 E2]. assert (W : mean_weight s (fun j => cut j / largest s cut) j = (m j + m (wrap_opp s j)) / (2 * M)) by (unfold mean_weight, Rdiv; rewrite L, !C, Rinv_mult by (assumption || (apply valid_opp; assumption)); ring). rewrite <- W. split; assumption. }
  split; [exact G|]. intros j Hj NZ A B. destruct (G j Hj) as [E1 E2]. split; [etransitivity; [exact E1|]|etransitivity; [exact E2|]]; rewrite A, B; field; exact NZ.
Qed.
Print Assumptions C72_limited.
Example C72_limited_sat : exists (n : nat) (x : array) (z : R) (uv : array) (l : R) (box : R) (cdist : R) (out : array), convolve_uvmap n n x (Some z) uv (Some l) box cdist = Some out.
Proof. eexists 4%nat, (fun a => INR (nth 0 a 0%nat)), 8, (fun a => INR (nth 1 a 0%nat)), 2, 100, 9000, _. reflexivity. Qed.
Theorem C72_cut : forall n radius uv out, remove_baselines_from_uvmap n n radius uv = Some out -> forall i j, (i < n)%nat -> (j < n)%nat ->
  (~ (i = 0 /\ j = 0)%nat /\ freq n i ^ 2 + freq n j ^ 2 <= radius ^ 2 -> out [i; j] = uv [i; j]) /\
  ((i = 0 /\ j = 0)%nat \/ radius ^ 2 < freq n i ^ 2 + freq n j ^ 2 -> out [i; j] = 0).
Proof.
  intros n radius uv out H i j Hi Hj. unfold remove_baselines_from_uvmap in H. rewrite Nat.eqb_refl in H. injection H as <-. cbn [nth]. pose proof (kept_spec n radius i j Hi Hj) as K. destruct (kept n n radius i j).
  - split; [intros; ring|]. intros H. exfalso. destruct (proj1 K eq_refl) as [K1 K2]. destruct H as [H|H]; [exact (K1 H)|lra].
  - split; [|intros; ring]. intro H. apply K in H. discriminate.
Qed.
Print Assumptions C72_cut.
Example C72_cut_sat : exists (n : nat) (radius : R) (uv : array) (out : array), remove_baselines_from_uvmap n n radius uv = Some out /\ exists i j, (i < n)%nat /\ (j < n)%nat.
Proof. eexists 4%nat, 1, (fun a => INR (nth 1 a 0%nat)), _. split; [reflexivity|]. exists 1%nat, 2%nat. lia. Qed.
Theorem C72_cut_symmetric : forall n radius uv out, remove_baselines_from_uvmap n n radius uv = Some out ->
  (forall j, valid [n; n] j -> uv (wrap_opp [n; n] j) = uv j) -> forall j, valid [n; n] j -> out (wrap_opp [n; n] j) = out j.
Proof.
  intros n radius uv out H S j Hj. unfold remove_baselines_from_uvmap in H. rewrite Nat.eqb_refl in H. injection H as <-. rewrite (S j Hj). f_equal.
  inversion Hj as [|? a ? t Ha Ht]; subst. inversion Ht as [|? b ? u Hb Hu]; subst. inversion Hu; subst. cbn [wrap_opp nth].
  assert (F : forall k, (k < n)%nat -> freq n ((n - k) mod n) = freq n k).
  { intros k Hk. destruct (Nat.eq_dec k 0) as [->|N]; [rewrite Nat.sub_0_r, Nat.mod_same by lia; reflexivity|]. rewrite Nat.mod_small by lia. unfold freq. rewrite minus_INR by lia. replace (INR n - (INR n - INR k)) with (INR k) by ring. apply Rmin_comm. }
  assert (Z : forall k, (k < n)%nat -> ((n - k) mod n = 0 <-> k = 0)%nat) by (intros k Hk; destruct (Nat.eq_dec k 0) as [->|N]; [rewrite Nat.sub_0_r, Nat.mod_same by lia; tauto|rewrite Nat.mod_small by lia; lia]).
  assert (E : kept n n radius ((n - a) mod n) ((n - b) mod n) = kept n n radius a b).
  { apply eq_true_iff_eq. rewrite !kept_spec by (try assumption; apply Nat.mod_upper_bound; lia). rewrite !F, !Z by assumption. tauto. }
  rewrite E. reflexivity.
Qed.
Print Assumptions C72_cut_symmetric.
Example C72_cut_symmetric_sat : exists (n : nat) (radius : R) (uv : array) (out : array), remove_baselines_from_uvmap n n radius uv = Some out /\ ((forall j, valid [n; n] j -> uv (wrap_opp [n; n] j) = uv j)) /\ exists j, valid [n; n] j.
Proof. eexists 4%nat, 1, (fun _ => 1), _. split; [reflexivity|]. split; [reflexivity|]. exists [1%nat; 2%nat]. repeat constructor; lia. Qed.
(** Longer limits keep more, and cutting twice is cutting at the smaller limit. *)
Theorem C72_cut_nested : forall n r1 r2 uv o1 o12 i j, 0 <= r1 <= r2 -> (i < n)%nat -> (j < n)%nat ->
  remove_baselines_from_uvmap n n r1 uv = Some o1 -> (forall o2, remove_baselines_from_uvmap n n r2 uv = Some o2 -> remove_baselines_from_uvmap n n r1 o2 = Some o12) -> o12 [i; j] = o1 [i; j].
Proof.
  intros n r1 r2 uv o1 o12 i j HR Hi Hj. unfold remove_baselines_from_uvmap. rewrite Nat.eqb_refl. intros H1 H2. injection H1 as <-. specialize (H2 _ eq_refl). injection H2 as <-. cbn [nth].
  pose proof (kept_spec n r1 i j Hi Hj) as K1. pose proof (kept_spec n r2 i j Hi Hj) as K2. destruct (kept n n r1 i j); [|ring]. destruct (proj1 K1 eq_refl) as [A B]. assert (kept n n r2 i j = true) as -> by (apply K2; split; [exact A|nra]). ring.
Qed.
Print Assumptions C72_cut_nested.
Example C72_cut_nested_sat : exists (n : nat) (r1 : R) (r2 : R) (uv : array) (o1 : array) (o12 : array) (i : nat) (j : nat), 0 <= r1 <= r2 /\ (i < n)%nat /\ (j < n)%nat /\ remove_baselines_from_uvmap n n r1 uv = Some o1 /\ (forall o2, remove_baselines_from_uvmap n n r2 uv = Some o2 -> remove_baselines_from_uvmap n n r1 o2 = Some o12).
Proof. eexists 4%nat, 1, 2, (fun _ => 1), _, _, 1%nat, 2%nat. split; [lra|]. split; [lia|]. split; [lia|]. split; [reflexivity|]. intros o2 H. injection H as <-. reflexivity. Qed.
(** The radius in cells: a baseline of [b] km is b/lambda wavelengths of 21 cm (1+z) long, and a cell of the transform is
    distance over box size wavelengths wide. *)
Theorem C72_radius : forall z b cdist box, 0 < 1 + z -> 0 < cdist -> 0 < box -> 0 < b ->
  cut_radius z b cdist box = (b * 1000) / (21 / 100 * (1 + z)) / (cdist / box).
Proof. intros z b cdist box Hz Hc Hx Hb. unfold cut_radius. field. repeat split; lra. Qed.
Print Assumptions C72_radius.
Example C72_radius_sat : exists (z : R) (b : R) (cdist : R) (box : R), 0 < 1 + z /\ 0 < cdist /\ 0 < box /\ 0 < b.
Proof. exists 8, 2, 9000, 100. repeat split; first [lra | lia | reflexivity | discriminate | congruence | auto]. Qed.
Theorem C72_radius_monotone : forall z b b' cdist box, 0 < 1 + z -> 0 < cdist -> 0 < box -> 0 < b -> b < b' -> 0 < cut_radius z b cdist box < cut_radius z b' cdist box.
Proof.
  intros z b b' cdist box Hz Hc Hx Hb L. unfold cut_radius.
  assert (E : forall y, 0 < y -> box / ((1 + z) * (21 / 100000) / y * cdist) = box / ((1 + z) * (21 / 100000) * cdist) * y) by (intros y Hy; field; repeat split; lra).
  rewrite !E by lra. assert (0 < box / ((1 + z) * (21 / 100000) * cdist)) by (apply Rdiv_lt_0_compat; [assumption|repeat apply Rmult_lt_0_compat; lra]). split; [apply Rmult_lt_0_compat; assumption|apply Rmult_lt_compat_l; assumption].
Qed.
Print Assumptions C72_radius_monotone.
Example C72_radius_monotone_sat : exists (z : R) (b : R) (b' : R) (cdist : R) (box : R), 0 < 1 + z /\ 0 < cdist /\ 0 < box /\ 0 < b /\ b < b'.
Proof. exists 8, 2, 3, 9000, 100. repeat split; first [lra | lia | reflexivity | discriminate | congruence | auto]. Qed.
(** Thresholded uv coverage: a mode survives fully, by half or not at all; energy never grows. *)
Theorem C72_threshold : forall s x uv thr,
  (forall j, valid s j -> exists w, (uv j >= thr /\ uv (wrap_opp s j) >= thr -> w = 1) /\ (uv j < thr /\ uv (wrap_opp s j) < thr -> w = 0) /\ ((uv j < thr <-> uv (wrap_opp s j) >= thr) -> w = / 2) /\
     fft_re s (smooth_uv_threshold s x uv thr) j = w * fft_re s x j /\ fft_im s (smooth_uv_threshold s x uv thr) j = w * fft_im s x j) /\
  energy s (smooth_uv_threshold s x uv thr) <= energy s x.
Proof.
  intros s x uv thr. split.
  - intros j Hj. exists (mean_weight s (threshold_weight uv thr) j). unfold smooth_uv_threshold. destruct (filter_fft s (threshold_weight uv thr) x j Hj) as [E1 E2].
    unfold mean_weight, threshold_weight in *. destruct (Rlt_dec (uv j) thr), (Rlt_dec (uv (wrap_opp s j)) thr); repeat split; try assumption; intros; lra.
  - apply filter_energy. intros j _. unfold threshold_weight. destruct (Rlt_dec _ _); rewrite ?Rabs_R0, ?Rabs_R1; lra.
Qed.
Print Assumptions C72_threshold.
(** The default threshold 0 changes nothing; a threshold that is not a float, or is negative, yields an
    exception object as the result. *)
Theorem C72_threshold_argument : forall s x uv t,
  ((exists v, t = TFloat v /\ 0 <= v) <-> exists out, smooth_lightcone_uv_threshold s x uv t = Smoothed out) /\
  smooth_lightcone_uv_threshold s x uv t <> RaisedError /\
  (t = TFloat 0 -> (forall j, valid s j -> 0 <= uv j) -> exists out, smooth_lightcone_uv_threshold s x uv t = Smoothed out /\ same_image s out x).
Proof.
  intros s x uv t. unfold smooth_lightcone_uv_threshold. split; [|split].
  - destruct t as [v|z]; [destruct (Rlt_dec v 0) as [L|L]|].
    + split; [intros (w & E & H); injection E as <-; lra|intros [o E]; discriminate].
    + split; [intros _; eexists; reflexivity|intros _; exists v; split; [reflexivity|lra]].
    + split; [intros (w & E & H); discriminate|intros [o E]; discriminate].
  - destruct t as [v|z]; [destruct (Rlt_dec v 0)|]; discriminate.
  - intros -> P. destruct (Rlt_dec 0 0) as [L|_]; [lra|]. eexists. split; [reflexivity|]. intros a Ha. etransitivity; [|apply (ifft_fft s x a Ha)]. unfold smooth_uv_threshold, filter_modes, ifft_re. f_equal. apply rsum_ext.
    intros j Hj. apply indices_valid in Hj. unfold threshold_weight. destruct (Rlt_dec (uv j) 0) as [L|_]; [specialize (P j Hj); lra|]. ring.
Qed.
Print Assumptions C72_threshold_argument.
(** Coeval cubes: the axes of the result are rotated for every line-of-sight axis, so the shape is that of
    the input only for cubes with equal sides. *)
Theorem C72_coeval_axes : forall conv nu b smooth out, (nu < 3)%nat -> convolve_uvmap_coeval conv nu (Some b) smooth = Some out ->
  let '(a, c, d) := shape (smooth b) in let f := value (smooth b) in
  (nu = 2%nat -> shape out = (d, a, c) /\ forall i j k, value out k i j = conv (fun i' j' => f i' j' k) i j) /\
  (nu = 1%nat -> shape out = (c, d, a) /\ forall i j k, value out k j i = conv (fun i' j' => f i' k j') i j) /\
  (nu = 0%nat -> shape out = (c, d, a) /\ forall i j k, value out j i k = conv (fun i' j' => f k j' i') i j) /\
  (shape out = shape (smooth b) <-> a = c /\ c = d).
Proof.
  intros conv nu b smooth out Hn H. cbn in H. injection H as <-. destruct (smooth b) as [[[a c] d] f]. cbn [shape value]. destruct nu as [|[|[|]]]; [| | |lia]; cbn; repeat split; intros; try discriminate; try reflexivity; try congruence.
  all: try (injection H; intros; subst; reflexivity). all: try (destruct H; subst; reflexivity).
Qed.
Print Assumptions C72_coeval_axes.
Example C72_coeval_axes_sat : exists (conv : (nat -> nat -> R) -> nat -> nat -> R) (nu : nat) (b : R) (smooth : R -> cube) (out : cube), (nu < 3)%nat /\ convolve_uvmap_coeval conv nu (Some b) smooth = Some out.
Proof. eexists (fun f => f), 2%nat, 2, (fun b => ((2, 2, 2)%nat, fun _ _ _ => b)), _. split; [lia|reflexivity]. Qed.
Theorem C72_coeval_no_limit : forall conv nu smooth, convolve_uvmap_coeval conv nu None smooth = None.
Proof. reflexivity. Qed.
Print Assumptions C72_coeval_no_limit.
Example C72_sat : kept 4 4 1 0 1 = true /\ kept 4 4 1 3 0 = true /\ kept 4 4 1 2 0 = false /\ kept 4 4 1 0 0 = false /\ largest [1%nat; 2%nat] (fun c => INR (nth 1 c 0%nat)) = 1.
Proof.
  assert (F : freq 4 0 = 0 /\ freq 4 1 = 1 /\ freq 4 2 = 2 /\ freq 4 3 = 1) by (unfold freq, Rmin; cbn [INR]; repeat split; destruct (Rle_dec _ _); lra). destruct F as [F0 [F1 [F2 F3]]].
  split; [apply kept_spec; [lia|lia|]; rewrite F0, F1; split; [lia|lra]|]. split; [apply kept_spec; [lia|lia|]; rewrite F0, F3; split; [lia|lra]|].
  split; [apply not_true_iff_false; rewrite kept_spec by lia; rewrite F0, F2; intros [_ H]; lra|]. split; [apply not_true_iff_false; rewrite kept_spec by lia; intros [H _]; lia|].
  unfold largest. cbn. unfold Rmax. destruct (Rle_dec _ _); lra.
Qed.
