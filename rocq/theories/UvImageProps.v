(** C64: the image seen by an interferometer. *)
From Coq Require Import List Arith ZArith Reals Lra Lia Bool.
From Verif Require Import RLib KGridModel FourierModel FourierSpec FourierProofs DftLib UvImageModel.
Import ListNotations.
Local Open Scope R_scope.

(** * Specification *)
(** Frequency [j] is observed. *)
Definition sampled (uv : array) (j : list nat) : Prop := uv j <> 0.
(** With each frequency its opposite is observed (as with mirror baselines). *)
Definition point_symmetric (s : list nat) (uv : array) : Prop :=
  forall j, valid s j -> (sampled uv j <-> sampled uv (wrap_opp s j)).
Definition same_image (s : list nat) (x y : array) : Prop := forall a, valid s a -> x a = y a.
Definition origin (s : list nat) : list nat := map (fun _ => 0%nat) s.
Definition total (s : list nat) (x : array) : R := sum_over (indices s) x.
Definition energy (s : list nat) (x : array) : R := sum_over (indices s) (fun a => x a ^ 2).
(** The share of the Fourier mode [j] that survives: all, half or nothing of it. *)
Definition surviving (s : list nat) (uv : array) (j : list nat) (w : R) : Prop :=
  (sampled uv j /\ sampled uv (wrap_opp s j) /\ w = 1) \/
  (~ (sampled uv j <-> sampled uv (wrap_opp s j)) /\ w = / 2) \/
  (~ sampled uv j /\ ~ sampled uv (wrap_opp s j) /\ w = 0).

(** * Helpers *)
Definition share (s : list nat) (uv : array) (j : list nat) : R :=
  ((if Req_EM_T (uv j) 0 then 0 else 1) + (if Req_EM_T (uv (wrap_opp s j)) 0 then 0 else 1)) / 2.
Lemma share_spec : forall s uv j, surviving s uv j (share s uv j).
Proof.
  intros s uv j. unfold surviving, share, sampled. destruct (Req_EM_T (uv j) 0) as [A|A], (Req_EM_T (uv (wrap_opp s j)) 0) as [B|B].
  - right. right. repeat split; [tauto|tauto|lra].
  - right. left. split; [tauto|lra].
  - right. left. split; [tauto|lra].
  - left. repeat split; try assumption. lra.
Qed.
Lemma surviving_unique : forall s uv j w, surviving s uv j w -> w = share s uv j.
Proof.
  intros s uv j w H. pose proof (share_spec s uv j) as G. unfold surviving in *. intuition congruence.
Qed.
Lemma response_fft : forall s uv x j, valid s j ->
  fft_re s (response s uv x) j = share s uv j * fft_re s x j /\ fft_im s (response s uv x) j = share s uv j * fft_im s x j.
Proof.
  intros s uv x j Hj. unfold response. destruct (fft_of_real_part s (masked uv (fft_re s x)) (masked uv (fft_im s x)) j Hj) as [-> ->].
  destruct (fft_opp s x j Hj) as [E1 E2]. unfold even_part, odd_part, masked, share.
  destruct (Req_EM_T (uv j) 0), (Req_EM_T (uv (wrap_opp s j)) 0); rewrite ?E1, ?E2; split; field.
Qed.

(** * Theorems *)
(** Each Fourier mode of the result is the mode of the image times the surviving share. *)
Theorem C64_spectrum : forall s uv x out, apply_uv_response_on_image s s x uv = Some out -> forall j, valid s j ->
  exists w, surviving s uv j w /\ fft_re s out j = w * fft_re s x j /\ fft_im s out j = w * fft_im s x j.
Proof.
  intros s uv x out H j Hj. unfold apply_uv_response_on_image in H. destruct (list_eq_dec Nat.eq_dec s s) as [_|N]; [|congruence]. injection H as <-.
  exists (share s uv j). split; [apply share_spec|]. apply response_fft. exact Hj.
Qed.
Print Assumptions C64_spectrum.
Example C64_spectrum_sat : exists (s : list nat) (uv : array) (x : array) (out : array), apply_uv_response_on_image s s x uv = Some out /\ exists j, valid s j.
Proof. eexists [3%nat], (fun _ => 1), (fun a => INR (nth 0 a 0%nat)), _. split; [reflexivity|]. exists [1%nat]. repeat constructor; lia. Qed.
Theorem C64_shapes : forall s s_uv x uv, apply_uv_response_on_image s s_uv x uv = None <-> s <> s_uv.
Proof. intros. unfold apply_uv_response_on_image. destruct (list_eq_dec Nat.eq_dec s s_uv); split; congruence. Qed.
Print Assumptions C64_shapes.
(** With a point-symmetric coverage nothing is lost by taking the real part: observed modes are kept,
    the others removed. *)
Theorem C64_symmetric : forall s uv x, point_symmetric s uv -> 
  (forall j, valid s j -> (sampled uv j -> fft_re s (response s uv x) j = fft_re s x j /\ fft_im s (response s uv x) j = fft_im s x j) /\
                          (~ sampled uv j -> fft_re s (response s uv x) j = 0 /\ fft_im s (response s uv x) j = 0)) /\
  (forall a, valid s a -> ifft_im s (masked uv (fft_re s x)) (masked uv (fft_im s x)) a = 0).
Proof.
  intros s uv x Sy. split.
  - intros j Hj. destruct (response_fft s uv x j Hj) as [E1 E2]. rewrite E1, E2. specialize (Sy j Hj). unfold sampled in *. unfold share.
    destruct (Req_EM_T (uv j) 0), (Req_EM_T (uv (wrap_opp s j)) 0); split; intro H; try tauto; split; field.
  - intros a Ha. pose proof (proj2 (ifft_hermitian s (masked uv (fft_re s x)) (masked uv (fft_im s x)) a Ha)) as E.
    rewrite <- E. unfold ifft_im. f_equal. apply rsum_ext. intros j Hj. apply indices_valid in Hj. destruct (fft_opp s x j Hj) as [E1 E2]. specialize (Sy j Hj). unfold sampled in Sy. unfold even_part, odd_part, masked.
    destruct (Req_EM_T (uv j) 0) as [A|A], (Req_EM_T (uv (wrap_opp s j)) 0) as [B|B]; rewrite ?E1, ?E2; try tauto; field.
Qed.
Print Assumptions C64_symmetric.
Example C64_symmetric_sat : exists (s : list nat) (uv : array), point_symmetric s uv.
Proof. exists [3%nat], (fun _ => 1). intros j _. unfold sampled. split; intro H; exact H. Qed.

(** The point source at the origin has every Fourier mode equal to one. *)
Definition point_source (s : list nat) : array := fun a => if list_eqb a (origin s) then 1 else 0.
Lemma phase_origin : forall s j, phase s j (origin s) = 0.
Proof. induction s as [|n s IH]; intros [|k j]; try reflexivity. cbn [origin map phase]. fold (origin s). rewrite IH. cbn. unfold Rdiv. ring. Qed.
Lemma origin_valid : forall s j, valid s j -> valid s (origin s).
Proof. intros s j H. induction H; cbn; constructor; [lia|assumption]. Qed.
Lemma eqb_sym : forall a b, list_eqb a b = list_eqb b a.
Proof. intros a b. apply eq_true_iff_eq. rewrite !list_eqb_spec. split; auto. Qed.
Lemma fft_point_source : forall s j, valid s j -> fft_re s (point_source s) j = 1.
Proof.
  intros s j Hj. unfold fft_re, point_source. rewrite (rsum_ext _ (fun a => if list_eqb (origin s) a then cos (2 * PI * phase s j a) else 0)).
  - rewrite (rsum_delta list_eqb (fun a => cos (2 * PI * phase s j a))); [rewrite phase_origin, Rmult_0_r; apply cos_0|apply list_eqb_spec|apply indices_NoDup|apply indices_valid; eapply origin_valid; exact Hj].
  - intros a _. rewrite (eqb_sym a). destruct (list_eqb (origin s) a); ring.
Qed.
(** Observing twice is the same as observing once, for every image, exactly for the point-symmetric
    coverages. *)
Theorem C64_idempotent : forall s uv,
  (forall x, same_image s (response s uv (response s uv x)) (response s uv x)) <-> point_symmetric s uv.
Proof.
  intros s uv. split.
  - intros H j Hj. specialize (H (point_source s)).
    assert (E : fft_re s (response s uv (response s uv (point_source s))) j = fft_re s (response s uv (point_source s)) j).
    { unfold fft_re. apply rsum_ext. intros a Ha. apply indices_valid in Ha. rewrite (H a Ha). reflexivity. }
    rewrite !(proj1 (response_fft _ _ _ _ Hj)), fft_point_source in E by exact Hj. unfold share in E. unfold sampled.
    destruct (Req_EM_T (uv j) 0) as [A|A], (Req_EM_T (uv (wrap_opp s j)) 0) as [B|B]; try tauto; exfalso; lra.
  - intros Sy x. unfold same_image. apply fft_determines. intros j Hj. rewrite !(proj1 (response_fft _ _ _ _ Hj)), !(proj2 (response_fft _ _ _ _ Hj)).
    specialize (Sy j Hj). unfold sampled in Sy. unfold share. destruct (Req_EM_T (uv j) 0), (Req_EM_T (uv (wrap_opp s j)) 0); try tauto; split; field.
Qed.
Print Assumptions C64_idempotent.
(** The image is left as it is, whatever it is, exactly when every frequency is observed. *)
Theorem C64_complete : forall s uv, (forall x, same_image s (response s uv x) x) <-> (forall j, valid s j -> sampled uv j).
Proof.
  intros s uv. split.
  - intros H j Hj. specialize (H (point_source s)).
    assert (E : fft_re s (response s uv (point_source s)) j = fft_re s (point_source s) j).
    { unfold fft_re. apply rsum_ext. intros a Ha. apply indices_valid in Ha. rewrite (H a Ha). reflexivity. }
    rewrite (proj1 (response_fft _ _ _ _ Hj)), fft_point_source in E by exact Hj. unfold share in E. unfold sampled. intro Z. rewrite Z in E.
    destruct (Req_EM_T 0 0); [|lra]. destruct (Req_EM_T (uv (wrap_opp s j)) 0); lra.
  - intros H x. unfold same_image. apply fft_determines. intros j Hj. rewrite (proj1 (response_fft _ _ _ _ Hj)), (proj2 (response_fft _ _ _ _ Hj)).
    unfold share. destruct (Req_EM_T (uv j) 0) as [A|_]; [destruct (H j Hj A)|]. destruct (Req_EM_T (uv (wrap_opp s j)) 0) as [A|_]; [destruct (H _ (valid_opp _ _ Hj) A)|]. split; field.
Qed.
Print Assumptions C64_complete.
(** Linear. *)
Theorem C64_linear : forall s uv x y c, same_image s (response s uv (fun a => c * x a + y a)) (fun a => c * response s uv x a + response s uv y a).
Proof.
  intros s uv x y c.
  assert (FR : forall u v j, fft_re s (fun a => c * u a + v a) j = c * fft_re s u j + fft_re s v j).
  { intros u v j. unfold fft_re. rewrite <- rsum_scale, <- rsum_plus. apply rsum_ext. intros. ring. }
  assert (FI : forall u v j, fft_im s (fun a => c * u a + v a) j = c * fft_im s u j + fft_im s v j).
  { intros u v j. unfold fft_im. rewrite <- Ropp_mult_distr_r, <- rsum_scale. rewrite <- Ropp_plus_distr, <- rsum_plus. f_equal. apply rsum_ext. intros. ring. }
  unfold same_image. apply fft_determines. intros j Hj. rewrite FR, FI. rewrite !(proj1 (response_fft _ _ _ _ Hj)), !(proj2 (response_fft _ _ _ _ Hj)), FR, FI. split; ring.
Qed.
Print Assumptions C64_linear.
(** The sum of squares never grows. *)
Theorem C64_energy : forall s uv x, energy s (response s uv x) <= energy s x.
Proof.
  intros s uv x. unfold energy, sum_over. destruct (indices s) as [|i0 r] eqn:I; [cbn; lra|]. rewrite <- I.
  assert (V : valid s i0) by (apply indices_valid; rewrite I; left; reflexivity). pose proof (ncells_pos s i0 V) as N.
  assert (Sq : forall y, rsum (map (fun a => y a ^ 2) (indices s)) = rsum (map (fun a => y a * y a) (indices s))) by (intro y; apply rsum_ext; intros; ring).
  rewrite !Sq. apply (Rmult_le_reg_l (ncells s)); [exact N|]. rewrite <- !cross_sum. apply rsum_le. intros j Hj. apply indices_valid in Hj.
  rewrite (proj1 (response_fft _ _ _ _ Hj)), (proj2 (response_fft _ _ _ _ Hj)). assert (W : 0 <= share s uv j <= 1) by (unfold share; destruct (Req_EM_T (uv j) 0), (Req_EM_T (uv (wrap_opp s j)) 0); lra).
  set (w := share s uv j) in *. set (p := fft_re s x j). set (q := fft_im s x j). assert (0 <= p * p) by nra. assert (0 <= q * q) by nra. assert (w * w <= 1) by nra. nra.
Qed.
Print Assumptions C64_energy.
(** The total flux is kept if the zero frequency is observed, and zero otherwise. *)
Theorem C64_flux : forall s uv x, (forall n, In n s -> (0 < n)%nat) ->
  (sampled uv (origin s) -> total s (response s uv x) = total s x) /\ (~ sampled uv (origin s) -> total s (response s uv x) = 0).
Proof.
  intros s uv x P. assert (V : valid s (origin s)). { clear - P. induction s as [|n s IH]; cbn; constructor; [apply P; left; reflexivity|apply IH; intros; apply P; right; assumption]. }
  assert (T : forall y, total s y = fft_re s y (origin s)). { intro y. unfold total, sum_over, fft_re. apply rsum_ext. intros a _. rewrite phase_sym, phase_origin, Rmult_0_r, cos_0. ring. }
  assert (O : wrap_opp s (origin s) = origin s). { clear - P. induction s as [|n s IH]; cbn; [reflexivity|]. fold (origin s). rewrite IH by (intros; apply P; right; assumption). f_equal. rewrite Nat.sub_0_r. apply Nat.mod_same. specialize (P n (or_introl eq_refl)). lia. }
  rewrite !T, (proj1 (response_fft _ _ _ _ V)). unfold share, sampled. rewrite O. destruct (Req_EM_T (uv (origin s)) 0); split; intro H; try tauto; field.
Qed.
Print Assumptions C64_flux.
Example C64_flux_sat : exists (s : list nat), (forall n, In n s -> (0 < n)%nat).
Proof. exists [4; 5]%nat. intros n [<-|[<-|[]]]; lia. Qed.
Lemma response_ext : forall s uv x y, (forall a, valid s a -> x a = y a) -> forall a, response s uv x a = response s uv y a.
Proof.
  intros s uv x y H a. unfold response, ifft_re. f_equal. apply rsum_ext. intros j _. unfold masked. destruct (Req_EM_T (uv j) 0); [reflexivity|].
  assert (E1 : fft_re s x j = fft_re s y j) by (unfold fft_re; apply rsum_ext; intros b Hb; apply indices_valid in Hb; rewrite (H b Hb); reflexivity).
  assert (E2 : fft_im s x j = fft_im s y j) by (unfold fft_im; f_equal; apply rsum_ext; intros b Hb; apply indices_valid in Hb; rewrite (H b Hb); reflexivity). rewrite E1, E2. reflexivity.
Qed.
(** [apply_uv_response_on_coeval]: slice k of the result is the response of slice k of the cube. *)
Theorem C64_coeval : forall n m l s_uv cube uv,
  (apply_uv_response_on_coeval n m l s_uv cube uv = None <-> (0 < l)%nat /\ s_uv <> [n; m]) /\
  forall out k slice seen, apply_uv_response_on_coeval n m l s_uv cube uv = Some out -> (k < l)%nat ->
    (forall i j, slice [i; j] = cube i j k) -> apply_uv_response_on_image [n; m] s_uv slice uv = Some seen ->
    forall i j, out i j k = seen [i; j].
Proof.
  intros n m l s_uv cube uv. unfold apply_uv_response_on_coeval, apply_uv_response_on_image. destruct l as [|l]; destruct (list_eq_dec Nat.eq_dec [n; m] s_uv) as [E|E]; split; try (split; [congruence|intros [? ?]; lia || congruence]); try (intros; lia).
  - intros out k slice seen H K S1 H2 i j. injection H as <-. injection H2 as <-. apply response_ext. intros a Ha. inversion Ha as [|? ? ? a' ? Ha']; subst. inversion Ha' as [|? ? ? a'' ? Ha'']; subst. inversion Ha''; subst. cbn [nth]. symmetry. apply S1.
  - split; [split; [lia|congruence]|reflexivity].
  - congruence.
Qed.
Print Assumptions C64_coeval.
(** A concrete asymmetric coverage of a line of three cells: half of the mode is lost. *)
Example C64_asymmetric_sat : exists uv j, valid [3%nat] j /\ surviving [3%nat] uv j (/ 2) /\ ~ point_symmetric [3%nat] uv.
Proof.
  exists (fun j => match j with [2%nat] => 0 | _ => 1 end), [1%nat].
  assert (N : ~ (sampled (fun j => match j with [2%nat] => 0 | _ => 1 end) [1%nat] <-> sampled (fun j => match j with [2%nat] => 0 | _ => 1 end) (wrap_opp [3%nat] [1%nat]))).
  { unfold sampled. cbn. intros [H _]. apply H; [lra|reflexivity]. }
  split; [repeat constructor; lia|]. split; [right; left; split; [exact N|reflexivity]|]. intro H. apply N. apply (H [1%nat]). repeat constructor; lia.
Qed.
