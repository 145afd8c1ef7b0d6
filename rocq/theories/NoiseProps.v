(** C65: noise maps. *)
From Coq Require Import String List Arith ZArith Reals Lra Lia Bool FunctionalExtensionality.
From Verif Require Import RLib KGridModel FourierModel FourierSpec FourierProofs DftLib ProbLib UnitsModel NoiseModel.
Import ListNotations.
Local Open Scope R_scope.

(** * Specification *)
Definition observed (uv : array) (j : list nat) : Prop := 1 / 100 <= uv j.
(** The weight of a cell of the uv plane. *)
Definition cell_variance (n : nat) (natural : bool) (uv : array) (j : list nat) : R :=
  if Rlt_dec (uv j) (1 / 100) then 0 else if natural then taper n j ^ 2 / uv j else taper n j ^ 2.
Definition is_natural (w : string) : Prop := In w ["nat"; "natural"; "natural_weighting"]%string.
Definition is_uniform (w : string) : Prop := In w ["uni"; "uniform"; "uniform_weighting"]%string.

(** * Helpers *)
Lemma in_strings_spec : forall x l, in_strings x l = true <-> In x l.
Proof.
  intros x l. unfold in_strings. rewrite existsb_exists. split.
  - intros [y [H E]]. apply String.eqb_eq in E. subst. exact H.
  - intro H. exists x. split; [exact H|apply String.eqb_refl].
Qed.
Definition full_weight (n : nat) (natural : bool) (uv : array) (j : list nat) : R := uv_factor natural uv j * taper n j.
Definition amplitude (sefd depth obs it : R) : R := rms_noise sefd depth it * sqrt (it / 3600 / obs).
Definition base_map (n : nat) (natural : bool) (uv : array) (g : cplx) (a : list nat) : R :=
  ifft_re [n; n] (fun j => fst g j * full_weight n natural uv j) (fun j => snd g j * full_weight n natural uv j) a.
Lemma ifft_scale : forall s c P Q a, ifft_re s (fun j => c * P j) (fun j => c * Q j) a = c * ifft_re s P Q a.
Proof. intros. unfold ifft_re, Rdiv. rewrite <- Rmult_assoc, <- rsum_scale. f_equal. apply rsum_ext. intros. ring. Qed.
Lemma ifft_ext : forall s P P' Q Q' a, (forall j, P j = P' j) -> (forall j, Q j = Q' j) -> ifft_re s P Q a = ifft_re s P' Q' a.
Proof. intros s P P' Q Q' a HP HQ. unfold ifft_re. f_equal. apply rsum_ext. intros j _. rewrite HP, HQ. reflexivity. Qed.
Lemma noise_map_base : forall n sefd depth obs it w uv g out, noise_map n sefd depth obs it w uv g = Some out ->
  exists natural, (natural = true <-> is_natural w) /\ (natural = false -> is_uniform w) /\ forall a, out a = amplitude sefd depth obs it * base_map n natural uv g a.
Proof.
  intros n sefd depth obs it w uv g out H. unfold noise_map, apply_uv_response_noise in H.
  assert (Main : forall b f, (forall j, f j = uv_factor b uv j) -> forall a, ifft_re [n; n] (fst (scaled (taper n) (scaled f (scaled (fun _ => rms_noise sefd depth it) g)))) (snd (scaled (taper n) (scaled f (scaled (fun _ => rms_noise sefd depth it) g)))) a * sqrt (it / 3600 / obs) = amplitude sefd depth obs it * base_map n b uv g a).
  { intros b f Hf a. unfold amplitude, base_map. rewrite (ifft_ext _ _ (fun j => rms_noise sefd depth it * (fst g j * full_weight n b uv j)) _ (fun j => rms_noise sefd depth it * (snd g j * full_weight n b uv j))).
    - rewrite ifft_scale. ring.
    - intro j. cbn. rewrite Hf. unfold full_weight. ring.
    - intro j. cbn. rewrite Hf. unfold full_weight. ring. }
  destruct (in_strings w natural_names) eqn:N.
  - injection H as <-. exists true. apply in_strings_spec in N. split; [split; [intros _; exact N|reflexivity]|]. split; [discriminate|]. intro a. apply Main. reflexivity.
  - destruct (in_strings w uniform_names) eqn:U; [|discriminate]. injection H as <-. exists false. split; [split; [discriminate|intro I; unfold is_natural in I; apply in_strings_spec in I; unfold natural_names in N; congruence]|]. apply in_strings_spec in U. split; [intros _; exact U|]. intro a. apply Main. reflexivity.
Qed.
Lemma amplitude_value : forall sefd depth obs it, 0 < depth -> 0 < obs -> 0 < it ->
  amplitude sefd depth obs it = 10 ^ 6 * sefd / sqrt (2 * depth * 10 ^ 6 * 3600 * obs).
Proof.
  intros sefd depth obs it D O I. unfold amplitude, rms_noise.
  assert (P1 : 0 < 2 * depth * 10 ^ 6 * it) by nra. assert (P2 : 0 < 2 * depth * 10 ^ 6 * 3600 * obs) by nra.
  assert (Q : it / 3600 / obs = (2 * depth * 10 ^ 6 * it) / (2 * depth * 10 ^ 6 * 3600 * obs)) by (field; lra).
  rewrite Q, sqrt_div by lra. field. split; apply Rgt_not_eq; apply sqrt_lt_R0; assumption.
Qed.
Lemma amplitude_pair : forall s1 d1 o1 i1 s2 d2 o2 i2, 0 < d1 -> 0 < o1 -> 0 < i1 -> 0 < d2 -> 0 < o2 -> 0 < i2 ->
  amplitude s1 d1 o1 i1 * (s2 * sqrt (d1 * o1)) = amplitude s2 d2 o2 i2 * (s1 * sqrt (d2 * o2)).
Proof.
  intros. rewrite !amplitude_value by assumption.
  replace (2 * d1 * 10 ^ 6 * 3600 * o1) with ((2 * 10 ^ 6 * 3600) * (d1 * o1)) by ring.
  replace (2 * d2 * 10 ^ 6 * 3600 * o2) with ((2 * 10 ^ 6 * 3600) * (d2 * o2)) by ring.
  rewrite !(sqrt_mult (2 * 10 ^ 6 * 3600)) by nra.
  assert (0 < sqrt (d1 * o1)) by (apply sqrt_lt_R0; nra). assert (0 < sqrt (d2 * o2)) by (apply sqrt_lt_R0; nra). assert (0 < sqrt (2 * 10 ^ 6 * 3600)) by (apply sqrt_lt_R0; lra).
  field. repeat split; lra.
Qed.

(** * Theorems: weighting *)
(** Only the documented names are accepted; cells seen by (almost) no baseline are silent; natural weighting
    divides by the square root of the number of baselines and leaves the caller's array alone; uniform
    weighting returns the caller's own array, overwritten. *)
Theorem C65_weighting : forall w uv noise,
  (apply_uv_response_noise w uv noise = None <-> ~ is_natural w /\ ~ is_uniform w) /\
  forall out after, apply_uv_response_noise w uv noise = Some (out, after) ->
    (is_natural w -> after = noise) /\ (~ is_natural w -> after = out) /\
    forall j, (~ observed uv j -> fst out j = 0 /\ snd out j = 0) /\
              (observed uv j -> is_natural w -> fst out j * sqrt (uv j) = fst noise j /\ snd out j * sqrt (uv j) = snd noise j) /\
              (observed uv j -> ~ is_natural w -> fst out j = fst noise j /\ snd out j = snd noise j).
Proof.
  intros w uv noise. unfold apply_uv_response_noise.
  assert (N : in_strings w natural_names = true <-> is_natural w) by apply in_strings_spec.
  assert (U : in_strings w uniform_names = true <-> is_uniform w) by apply in_strings_spec.
  destruct (in_strings w natural_names); [|destruct (in_strings w uniform_names)].
  - split; [split; [discriminate|intros [A _]; tauto]|]. intros out after H. injection H as <- <-. split; [reflexivity|]. split; [intro; tauto|].
    intro j. unfold observed. cbn. unfold uv_factor, uv_map_min. destruct (Rlt_dec (uv j) (1 / 100)) as [Lt|Ge].
    + split; [intros _; split; ring|]. split; intro; lra.
    + split; [intro; lra|]. split; [|intros; tauto]. intros O _. assert (0 < sqrt (uv j)) by (apply sqrt_lt_R0; lra). split; field; lra.
  - split; [split; [discriminate|intros [_ A]; tauto]|]. intros out after H. injection H as <- <-. split; [intro A; apply N in A; discriminate|]. split; [reflexivity|].
    intro j. unfold observed. cbn. unfold uv_factor, uv_map_min. destruct (Rlt_dec (uv j) (1 / 100)) as [Lt|Ge].
    + split; [intros _; split; ring|]. split; intro; lra.
    + split; [intro; lra|]. split; [intros _ A; apply N in A; discriminate|]. intros; split; ring.
  - split; [split; [intros _; split; intro A; [apply N in A|apply U in A]; discriminate|reflexivity]|]. intros; discriminate.
Qed.
Print Assumptions C65_weighting.

(** * Theorems: scaling of the map *)
(** With the same draws the map is proportional to SEFD / sqrt(bandwidth * hours); the length of one
    integration drops out. *)
Theorem C65_scaling : forall n w uv g s1 d1 o1 i1 s2 d2 o2 i2 out1 out2,
  0 < d1 -> 0 < o1 -> 0 < i1 -> 0 < d2 -> 0 < o2 -> 0 < i2 ->
  noise_map n s1 d1 o1 i1 w uv g = Some out1 -> noise_map n s2 d2 o2 i2 w uv g = Some out2 ->
  forall a, out1 a * (s2 * sqrt (d1 * o1)) = out2 a * (s1 * sqrt (d2 * o2)).
Proof.
  intros n w uv g s1 d1 o1 i1 s2 d2 o2 i2 out1 out2 D1 O1 I1 D2 O2 I2 H1 H2 a.
  destruct (noise_map_base _ _ _ _ _ _ _ _ _ H1) as [b1 [N1 [_ E1]]]. destruct (noise_map_base _ _ _ _ _ _ _ _ _ H2) as [b2 [N2 [_ E2]]].
  assert (b1 = b2) as -> by (destruct b1, b2; try reflexivity; exfalso; [assert (false = true) by (apply N2, N1; reflexivity)|assert (false = true) by (apply N1, N2; reflexivity)]; discriminate).
  rewrite E1, E2. pose proof (amplitude_pair s1 d1 o1 i1 s2 d2 o2 i2 D1 O1 I1 D2 O2 I2) as P.
  transitivity (base_map n b2 uv g a * (amplitude s1 d1 o1 i1 * (s2 * sqrt (d1 * o1)))); [ring|]. rewrite P. ring.
Qed.
Print Assumptions C65_scaling.
Example C65_scaling_sat : exists (n : nat) (w : string) (uv : array) (g : cplx) (s1 : R) (d1 : R) (o1 : R) (i1 : R) (s2 : R) (d2 : R) (o2 : R) (i2 : R) (out1 : array) (out2 : array), 0 < d1 /\ 0 < o1 /\ 0 < i1 /\ 0 < d2 /\ 0 < o2 /\ 0 < i2 /\ noise_map n s1 d1 o1 i1 w uv g = Some out1 /\ noise_map n s2 d2 o2 i2 w uv g = Some out2.
Proof. eexists 2%nat, "natural"%string, (fun _ => 4), (fun _ => 1, fun _ => 2), 1, 1, 1000, 10, 2, 1, 500, 10, _, _. repeat split; try lra; reflexivity. Qed.
(** Four times the observing time halves every pixel. *)
Theorem C65_four_times_longer : forall n w uv g s d o i out1 out2, 0 < s -> 0 < d -> 0 < o -> 0 < i ->
  noise_map n s d o i w uv g = Some out1 -> noise_map n s d (4 * o) i w uv g = Some out2 -> forall a, out2 a = out1 a / 2.
Proof.
  intros n w uv g s d o i out1 out2 S0 D O I H1 H2 a. assert (O4 : 0 < 4 * o) by lra.
  pose proof (C65_scaling n w uv g s d o i s d (4 * o) i out1 out2 D O I D O4 I H1 H2 a) as E.
  replace (d * (4 * o)) with ((2 * 2) * (d * o)) in E by ring. rewrite (sqrt_mult (2 * 2) (d * o)), (sqrt_square 2) in E by nra.
  assert (Q : 0 < sqrt (d * o)) by (apply sqrt_lt_R0; nra). assert (P : 0 < s * sqrt (d * o)) by nra.
  apply (Rmult_eq_reg_r (s * sqrt (d * o))); [|lra]. lra.
Qed.
Print Assumptions C65_four_times_longer.
Example C65_four_times_longer_sat : exists (n : nat) (w : string) (uv : array) (g : cplx) (s : R) (d : R) (o : R) (i : R) (out1 : array) (out2 : array), 0 < s /\ 0 < d /\ 0 < o /\ 0 < i /\ noise_map n s d o i w uv g = Some out1 /\ noise_map n s d (4 * o) i w uv g = Some out2.
Proof. eexists 2%nat, "natural"%string, (fun _ => 4), (fun _ => 1, fun _ => 2), 1, 1, 1000, 10, _, _. repeat split; try lra; reflexivity. Qed.
(** Linear in the draws. *)
Theorem C65_linear : forall n s d o i w uv g h c outg outh outc,
  noise_map n s d o i w uv g = Some outg -> noise_map n s d o i w uv h = Some outh ->
  noise_map n s d o i w uv (fun j => c * fst g j + fst h j, fun j => c * snd g j + snd h j) = Some outc ->
  forall a, outc a = c * outg a + outh a.
Proof.
  intros n s d o i w uv g h c outg outh outc H1 H2 H3 a.
  destruct (noise_map_base _ _ _ _ _ _ _ _ _ H1) as [b1 [N1 [_ E1]]]. destruct (noise_map_base _ _ _ _ _ _ _ _ _ H2) as [b2 [N2 [_ E2]]]. destruct (noise_map_base _ _ _ _ _ _ _ _ _ H3) as [b3 [N3 [_ E3]]].
  assert (B : b1 = b2 /\ b3 = b2) by (destruct b1, b2, b3; split; try reflexivity; exfalso; intuition discriminate). destruct B as [-> ->].
  rewrite E1, E2, E3. unfold base_map, ifft_re, Rdiv. cbn [fst snd].
  transitivity (amplitude s d o i * ((c * rsum (map (fun j => fst g j * full_weight n b2 uv j * cos (angle [n; n] j a) - snd g j * full_weight n b2 uv j * sin (angle [n; n] j a)) (indices [n; n])) + rsum (map (fun j => fst h j * full_weight n b2 uv j * cos (angle [n; n] j a) - snd h j * full_weight n b2 uv j * sin (angle [n; n] j a)) (indices [n; n]))) * / ncells [n; n])); [|ring].
  do 2 f_equal. rewrite <- rsum_scale, <- rsum_plus. apply rsum_ext. intros. ring.
Qed.
Print Assumptions C65_linear.
Example C65_linear_sat : exists (n : nat) (s : R) (d : R) (o : R) (i : R) (w : string) (uv : array) (g : cplx) (h : cplx) (c : R) (outg : array) (outh : array) (outc : array), noise_map n s d o i w uv g = Some outg /\ noise_map n s d o i w uv h = Some outh /\ noise_map n s d o i w uv (fun j => c * fst g j + fst h j, fun j => c * snd g j + snd h j) = Some outc.
Proof. eexists 2%nat, 1, 1, 1000, 10, "natural"%string, (fun _ => 4), (fun _ => 1, fun _ => 2), (fun _ => 3, fun _ => 4), 5, _, _, _. repeat split; reflexivity. Qed.
(** A Fourier mode that neither a baseline nor its mirror observes is absent from the map. *)
Theorem C65_unobserved : forall n s d o i w uv g out, noise_map n s d o i w uv g = Some out -> forall k, valid [n; n] k ->
  ~ observed uv k -> ~ observed uv (wrap_opp [n; n] k) -> fft_re [n; n] out k = 0 /\ fft_im [n; n] out k = 0.
Proof.
  intros n s d o i w uv g out H k Hk O1 O2. destruct (noise_map_base _ _ _ _ _ _ _ _ _ H) as [b [_ [_ E]]].
  assert (Z : forall j, ~ observed uv j -> full_weight n b uv j = 0). { intros j Hj. unfold full_weight, uv_factor, uv_map_min. unfold observed in Hj. destruct (Rlt_dec (uv j) (1 / 100)); [ring|lra]. }
  set (P := fun j => fst g j * full_weight n b uv j) in *. set (Q := fun j => snd g j * full_weight n b uv j) in *.
  destruct (fft_of_real_part [n; n] P Q k Hk) as [F1 F2].
  assert (S1 : fft_re [n; n] out k = amplitude s d o i * fft_re [n; n] (ifft_re [n; n] P Q) k).
  { unfold fft_re. rewrite <- rsum_scale. apply rsum_ext. intros a _. rewrite E. unfold base_map. fold P Q. ring. }
  assert (S2 : fft_im [n; n] out k = amplitude s d o i * fft_im [n; n] (ifft_re [n; n] P Q) k).
  { unfold fft_im. rewrite <- Ropp_mult_distr_r, <- rsum_scale. f_equal. apply rsum_ext. intros a _. rewrite E. unfold base_map. fold P Q. ring. }
  rewrite S1, S2, F1, F2. unfold even_part, odd_part, P, Q. rewrite !Z by assumption. split; field.
Qed.
Print Assumptions C65_unobserved.
Example C65_unobserved_sat : exists (n : nat) (s : R) (d : R) (o : R) (i : R) (w : string) (uv : array) (g : cplx) (out : array), noise_map n s d o i w uv g = Some out /\ exists k, valid [n; n] k /\ ~ observed uv k /\ ~ observed uv (wrap_opp [n; n] k).
Proof. eexists 2%nat, 1, 1, 1000, 10, "natural"%string, (fun k => INR (nth 0 k 0%nat)), (fun _ => 1, fun _ => 2), _. split; [reflexivity|]. exists [0%nat; 1%nat]. split; [repeat constructor; lia|]. unfold observed. cbn. lra. Qed.

(** * Theorems: statistics of the map *)
(** The covariance of two pixels depends on the pair only through the phase differences; its spectrum is the
    cell variance over all observed cells. *)
Theorem C65_covariance : forall (O : Type) L E (g : O -> cplx) n sefd depth obs it w uv (out : O -> array),
  expectation L E -> unit_noise [n; n] L E g -> 0 < depth -> 0 < obs -> 0 < it ->
  (forall o, noise_map n sefd depth obs it w uv (g o) = Some (out o)) ->
  exists natural, (natural = true <-> is_natural w) /\ forall a b, valid [n; n] a -> valid [n; n] b ->
    E (fun o => out o a * out o b) =
    (10 ^ 6 * sefd) ^ 2 / (2 * depth * 10 ^ 6 * 3600 * obs) / (INR n ^ 2) ^ 2 *
    rsum (map (fun j => cell_variance n natural uv j * cos (2 * PI * (phase [n; n] j a - phase [n; n] j b))) (indices [n; n])).
Proof.
  intros O L E g n sefd depth obs it w uv out HE HG D Ob I H.
  set (natural := in_strings w natural_names). exists natural. split; [apply in_strings_spec|]. intros a b Ha Hb.
  assert (B : forall o a, out o a = amplitude sefd depth obs it * base_map n natural uv (g o) a).
  { intros o x. destruct (noise_map_base _ _ _ _ _ _ _ _ _ (H o)) as [b' [N [_ Ev]]]. rewrite Ev. assert (b' = natural) as ->; [|reflexivity].
    apply eq_true_iff_eq. rewrite N. symmetry. apply in_strings_spec. }
  pose proof (ncells_pos _ _ Ha) as NP. assert (NC : ncells [n; n] = INR n ^ 2) by (unfold ncells; cbn; ring).
  set (W := full_weight n natural uv). set (A := amplitude sefd depth obs it / ncells [n; n]).
  set (Sm := fun o x => rsum (map (fun j => fst (g o) j * (W j * cos (angle [n; n] j x)) - snd (g o) j * (W j * sin (angle [n; n] j x))) (indices [n; n]))).
  replace (fun o => out o a * out o b) with (fun o => (A * A) * (Sm o a * Sm o b)).
  2:{ apply functional_extensionality. intro o. rewrite !B. unfold A, Sm, base_map, ifft_re. fold W.
      rewrite !(rsum_ext (fun j => fst (g o) j * W j * cos _ - snd (g o) j * W j * sin _) (fun j => fst (g o) j * (W j * cos (angle [n; n] j a)) - snd (g o) j * (W j * sin (angle [n; n] j a)))) by (intros; ring).
      rewrite !(rsum_ext (fun j => fst (g o) j * W j * cos _ - snd (g o) j * W j * sin _) (fun j => fst (g o) j * (W j * cos (angle [n; n] j b)) - snd (g o) j * (W j * sin (angle [n; n] j b)))) by (intros; ring). field. lra. }
  assert (LP : L (fun o => Sm o a * Sm o b)).
  { pose proof HE as HE'. destruct HE' as [L0 [LA LS]]. unfold Sm.
    replace (fun o => _ * _) with (fun o => rsum (map (fun j => rsum (map (fun k => (fst (g o) j * (W j * cos (angle [n; n] j a)) - snd (g o) j * (W j * sin (angle [n; n] j a))) * (fst (g o) k * (W k * cos (angle [n; n] k b)) - snd (g o) k * (W k * sin (angle [n; n] k b)))) (indices [n; n]))) (indices [n; n]))).
    2:{ apply functional_extensionality. intro o. rewrite <- rsum_scale_r. apply rsum_ext. intros j _. rewrite <- rsum_scale. reflexivity. }
    apply (E_sum L E HE (fun j o => rsum (map (fun k => (fst (g o) j * (W j * cos (angle [n; n] j a)) - snd (g o) j * (W j * sin (angle [n; n] j a))) * (fst (g o) k * (W k * cos (angle [n; n] k b)) - snd (g o) k * (W k * sin (angle [n; n] k b)))) (indices [n; n])))).
    intros j Hj. apply indices_valid in Hj. apply (E_sum L E HE (fun k o => (fst (g o) j * (W j * cos (angle [n; n] j a)) - snd (g o) j * (W j * sin (angle [n; n] j a))) * (fst (g o) k * (W k * cos (angle [n; n] k b)) - snd (g o) k * (W k * sin (angle [n; n] k b))))).
    intros k Hk. apply indices_valid in Hk. destruct (HG j k Hj Hk) as [[X1 _] [[Y1 _] [Z1 _]]]. destruct (HG k j Hk Hj) as [_ [_ [V1 _]]].
    set (c := W j * cos (angle [n; n] j a)). set (s := W j * sin (angle [n; n] j a)). set (c' := W k * cos (angle [n; n] k b)). set (s' := W k * sin (angle [n; n] k b)).
    replace (fun o => _ * _) with (fun o => ((c * c') * (fst (g o) j * fst (g o) k) + (s * s') * (snd (g o) j * snd (g o) k)) + ((- (c * s')) * (fst (g o) j * snd (g o) k) + (- (s * c')) * (fst (g o) k * snd (g o) j))) by (apply functional_extensionality; intro o; ring).
    apply LA; apply LA; apply LS; assumption. }
  destruct HE as [L0 [LA LS]] eqn:EH. rewrite (proj2 (LS (A * A) _ LP)). unfold Sm. rewrite (E_product [n; n] L E g HE HG).
  assert (AV : A * A = (10 ^ 6 * sefd) ^ 2 / (2 * depth * 10 ^ 6 * 3600 * obs) / (INR n ^ 2) ^ 2).
  { unfold A. rewrite amplitude_value, NC by assumption. assert (P2 : 0 < 2 * depth * 10 ^ 6 * 3600 * obs) by nra. rewrite NC in NP.
    set (q := 2 * depth * 10 ^ 6 * 3600 * obs) in *. rewrite <- (sqrt_sqrt q) at 3 by lra. assert (0 < sqrt q) by (apply sqrt_lt_R0; exact P2). field. split; [lra|intro Z; rewrite Z in NP; cbn in NP; lra]. }
  rewrite AV. f_equal. apply rsum_ext. intros j _.
  replace (2 * PI * (phase [n; n] j a - phase [n; n] j b)) with (angle [n; n] j a - angle [n; n] j b) by (unfold angle; ring). rewrite cos_minus.
  assert (WV : W j * W j = cell_variance n natural uv j).
  { unfold W, full_weight, uv_factor, cell_variance, uv_map_min. destruct (Rlt_dec (uv j) (1 / 100)); [ring|]. destruct natural; [|ring].
    assert (P : 0 < uv j) by lra. rewrite <- (sqrt_sqrt (uv j)) at 3 by lra. assert (0 < sqrt (uv j)) by (apply sqrt_lt_R0; exact P). field. lra. }
  rewrite <- WV. ring.
Qed.
Print Assumptions C65_covariance.
(** Every pixel has the same variance. *)
Theorem C65_variance : forall (O : Type) L E (g : O -> cplx) n sefd depth obs it w uv (out : O -> array),
  expectation L E -> unit_noise [n; n] L E g -> 0 < depth -> 0 < obs -> 0 < it -> is_natural w ->
  (forall o, noise_map n sefd depth obs it w uv (g o) = Some (out o)) ->
  forall a, valid [n; n] a ->
    E (fun o => out o a ^ 2) = (10 ^ 6 * sefd) ^ 2 / (2 * depth * 10 ^ 6 * 3600 * obs) / (INR n ^ 2) ^ 2 * rsum (map (cell_variance n true uv) (indices [n; n])).
Proof.
  intros O L E g n sefd depth obs it w uv out HE HG D Ob I Nw H a Ha.
  destruct (C65_covariance O L E g n sefd depth obs it w uv out HE HG D Ob I H) as [b [Nb C]]. assert (b = true) as -> by (apply Nb; exact Nw). specialize (C a a Ha Ha).
  replace (fun o => out o a ^ 2) with (fun o => out o a * out o a) by (apply functional_extensionality; intro; ring). rewrite C. f_equal. apply rsum_ext. intros j _.
  replace (2 * PI * (phase [n; n] j a - phase [n; n] j a)) with 0 by ring. rewrite cos_0. ring.
Qed.
Print Assumptions C65_variance.
Example C65_variance_sat : exists E (g : sat_outcome -> cplx) (out : sat_outcome -> array), expectation (fun _ => True) E /\ unit_noise [2; 2]%nat (fun _ => True) E g /\ is_natural "natural" /\ (forall o, noise_map 2 1 1 1000 10 "natural" (fun _ => 4) (g o) = Some (out o)).
Proof. exists (sat_E [2; 2]%nat), (sat_g [2; 2]%nat). eexists. split; [apply sat_unit_noise|]. split; [apply sat_unit_noise|]. split; [cbn; tauto|]. intro o. reflexivity. Qed.

(** Such noise exists for every grid: one cell, one part, one sign at a time. *)
Example C65_unit_noise_sat : forall n, expectation (fun _ => True) (sat_E [n; n]) /\ unit_noise [n; n] (fun _ => True) (sat_E [n; n]) (sat_g [n; n]).
Proof. intro n. apply sat_unit_noise. Qed.

(** * Theorems: rms and SEFD *)
(** The image rms does not depend on the length of one integration. *)
Theorem C65_image_sigma : forall sefd depth obs it N, 0 < depth -> 0 < obs -> 0 < it -> 1 < N ->
  sigma_image sefd depth obs it N = 10 ^ 6 * sefd / sqrt (2 * (depth * 10 ^ 6) * (3600 * obs) * (N * (N - 1) / 2)).
Proof.
  intros sefd depth obs it N D O I HN. unfold sigma_image, rms_noise.
  assert (P1 : 0 < 2 * depth * 10 ^ 6 * it) by nra. assert (P2 : 0 < N * (N - 1) / 2) by nra. assert (P3 : 0 < 3600 * obs / it) by (apply Rdiv_lt_0_compat; lra).
  replace (2 * (depth * 10 ^ 6) * (3600 * obs) * (N * (N - 1) / 2)) with ((2 * depth * 10 ^ 6 * it) * (N * (N - 1) / 2) * (3600 * obs / it)) by (field; lra).
  set (p := 2 * depth * 10 ^ 6 * it) in *. set (q := N * (N - 1) / 2) in *. set (r := 3600 * obs / it) in *.
  rewrite (sqrt_mult (p * q) r), (sqrt_mult p q) by nra. pose proof (sqrt_lt_R0 _ P1). pose proof (sqrt_lt_R0 _ P2). pose proof (sqrt_lt_R0 _ P3). field. repeat split; lra.
Qed.
Print Assumptions C65_image_sigma.
Example C65_image_sigma_sat : exists (depth : R) (obs : R) (it : R) (N : R), 0 < depth /\ 0 < obs /\ 0 < it /\ 1 < N.
Proof. exists (1/2), 6, 10, 512. repeat split; first [lra | lia | reflexivity | discriminate | congruence | auto]. Qed.

(** [get_SEFD]: the value at each frequency, the shape of the answer, and where it fails. *)
Definition value_at (dflt : R -> R) (q : quantity) (nu : R) : R := match q with Default => dflt nu | Number r => r | Function f => f nu end.
Definition is_number (q : quantity) : Prop := exists r, q = Number r.
Definition sefd_at (T ep : quantity) (D nu : R) : R :=
  2 * KB_SI * value_at (fun nu => 60 * Rpower (300 / nu) (255 / 100) + 100) T nu /
  (value_at (fun nu => if Rlt_dec 110 nu then (110 / nu) ^ 2 else 1) ep nu * (PI * (D / 2) ^ 2)) / janskytowatt.
Lemma combine_map_map : forall {A} (f g : A -> R) (h : R -> R -> R) l, map (fun p => h (fst p) (snd p)) (combine (map f l) (map g l)) = map (fun x => h (f x) (g x)) l.
Proof. intros A f g h l. induction l as [|x l IH]; cbn; [reflexivity|]. rewrite IH. reflexivity. Qed.
Theorem C65_sefd : forall nus T D ep,
  (is_number T /\ is_number ep -> get_SEFD nus T None false D ep = if Nat.eqb (length nus) 1 then TypeErr else Scalar (sefd_at T ep D 0)) /\
  (~ (is_number T /\ is_number ep) -> get_SEFD nus T None false D ep =
     match nus with [nu] => Scalar (sefd_at T ep D nu) | _ => Array (map (sefd_at T ep D) nus) end).
Proof.
  intros nus T D ep. split.
  - intros [[t ->] [e ->]]. unfold get_SEFD. cbn. destruct (Nat.eqb (length nus) 1); reflexivity.
  - intro N.
    assert (M : binop (fun t a => 2 * KB_SI * t / a / janskytowatt) (T_sys_val T nus) (binop Rmult (ep_val ep nus) (Sc (PI * (D / 2) ^ 2))) = Ar (map (sefd_at T ep D) nus)).
    { destruct T as [|t|f], ep as [|e|h]; try (exfalso; apply N; split; eexists; reflexivity); cbn [T_sys_val ep_val binop]; f_equal; rewrite ?map_map;
        first [apply map_ext; intro; reflexivity | etransitivity; [apply (combine_map_map _ _ (fun t a => 2 * KB_SI * t / a / janskytowatt))|apply map_ext; intro; reflexivity]]. }
    unfold get_SEFD. rewrite M. destruct nus as [|nu [|nu' nus]]; reflexivity.
Qed.
Print Assumptions C65_sefd.
Theorem C65_sefd_table : forall nus T D ep f,
  get_SEFD nus T (Some f) false D ep = ValueErr /\
  get_SEFD nus T (Some f) true D ep = match nus with [nu] => Scalar (f nu) | _ => Array (map f nus) end.
Proof. intros. split; reflexivity. Qed.
Print Assumptions C65_sefd_table.
