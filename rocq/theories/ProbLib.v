(** Expectations as linear functionals, and uncorrelated unit draws on a grid of cells. *)
From Coq Require Import List Arith ZArith Reals Lra Lia Bool FunctionalExtensionality.
From Verif Require Import RLib FourierModel FourierSpec FourierProofs.
Import ListNotations.
Local Open Scope R_scope.

(** An expectation on a class of random variables closed under linear combinations. *)
Definition expectation {O : Type} (L : (O -> R) -> Prop) (E : (O -> R) -> R) : Prop :=
  L (fun _ => 0) /\
  (forall f g, L f -> L g -> L (fun o => f o + g o) /\ E (fun o => f o + g o) = E f + E g) /\
  (forall c f, L f -> L (fun o => c * f o) /\ E (fun o => c * f o) = c * E f).
(** Independent-looking unit noise: all draws (real and imaginary parts, every cell) are uncorrelated with
    unit variance. *)
Definition unit_noise {O : Type} (s : list nat) (L : (O -> R) -> Prop) (E : (O -> R) -> R) (g : O -> array * array) : Prop :=
  forall j k, valid s j -> valid s k ->
    (L (fun o => fst (g o) j * fst (g o) k) /\ E (fun o => fst (g o) j * fst (g o) k) = if list_eqb j k then 1 else 0) /\
    (L (fun o => snd (g o) j * snd (g o) k) /\ E (fun o => snd (g o) j * snd (g o) k) = if list_eqb j k then 1 else 0) /\
    (L (fun o => fst (g o) j * snd (g o) k) /\ E (fun o => fst (g o) j * snd (g o) k) = 0).
Lemma E_sum : forall {O I : Type} (L : (O -> R) -> Prop) E, expectation L E -> forall (f : I -> O -> R) l, (forall i, In i l -> L (f i)) ->
  L (fun o => rsum (map (fun i => f i o) l)) /\ E (fun o => rsum (map (fun i => f i o) l)) = rsum (map (fun i => E (f i)) l).
Proof.
  intros O I L E [L0 [LA LS]] f. induction l as [|i l IH]; intro H; cbn [map rsum fold_right].
  - split; [exact L0|]. destruct (LS 0 (fun _ => 0) L0) as [_ E0]. replace (fun o : O => 0 * 0) with (fun o : O => 0) in E0 by (apply functional_extensionality; intro; ring). rewrite E0. ring.
  - destruct IH as [I1 I2]; [intros; apply H; right; assumption|]. destruct (LA (f i) (fun o => rsum (map (fun i => f i o) l)) (H i (or_introl eq_refl)) I1) as [A1 A2]. split; [exact A1|]. unfold rsum in *. rewrite A2, I2. reflexivity.
Qed.
Lemma E_product : forall {O} sh (L : (O -> R) -> Prop) E g, expectation L E -> unit_noise sh L E g -> forall c s c' s' : list nat -> R,
  E (fun o => rsum (map (fun j => fst (g o) j * c j - snd (g o) j * s j) (indices sh)) * rsum (map (fun j => fst (g o) j * c' j - snd (g o) j * s' j) (indices sh))) =
  rsum (map (fun j => c j * c' j + s j * s' j) (indices sh)).
Proof.
  intros O sh L E g HE HG c s c' s'. pose proof HE as HE'. destruct HE' as [L0 [LA LS]].
  set (T := fun j k o => (fst (g o) j * c j - snd (g o) j * s j) * (fst (g o) k * c' k - snd (g o) k * s' k)).
  assert (Tv : forall j k, valid sh j -> valid sh k -> L (T j k) /\ E (T j k) = if list_eqb j k then c j * c' k + s j * s' k else 0).
  { intros j k Hj Hk. destruct (HG j k Hj Hk) as [[X1 X2] [[Y1 Y2] [Z1 Z2]]]. destruct (HG k j Hk Hj) as [_ [_ [W1 W2]]].
    replace (T j k) with (fun o => ((c j * c' k) * (fst (g o) j * fst (g o) k) + (s j * s' k) * (snd (g o) j * snd (g o) k)) + ((- (c j * s' k)) * (fst (g o) j * snd (g o) k) + (- (s j * c' k)) * (fst (g o) k * snd (g o) j))) by (apply functional_extensionality; intro o; unfold T; ring).
    destruct (LS (c j * c' k) _ X1) as [A1 A2]. destruct (LS (s j * s' k) _ Y1) as [B1 B2]. destruct (LS (- (c j * s' k)) _ Z1) as [C1 C2]. destruct (LS (- (s j * c' k)) _ W1) as [D1 D2].
    destruct (LA _ _ A1 B1) as [F1 F2]. destruct (LA _ _ C1 D1) as [G1 G2]. destruct (LA _ _ F1 G1) as [H1 H2]. split; [exact H1|]. rewrite H2, F2, G2, A2, B2, C2, D2, X2, Y2, Z2, W2. destruct (list_eqb j k); ring. }
  replace (fun o => _ * _) with (fun o => rsum (map (fun j => rsum (map (fun k => T j k o) (indices sh))) (indices sh))).
  2:{ apply functional_extensionality. intro o. rewrite <- rsum_scale_r. apply rsum_ext. intros j _. rewrite <- rsum_scale. apply rsum_ext. intros k _. reflexivity. }
  rewrite (proj2 (E_sum L E HE (fun j o => rsum (map (fun k => T j k o) (indices sh))) (indices sh) ltac:(intros j Hj; apply indices_valid in Hj; apply (proj1 (E_sum L E HE (fun k o => T j k o) (indices sh) ltac:(intros k Hk; apply indices_valid in Hk; apply Tv; assumption)))))).
  apply rsum_ext. intros j Hj. pose proof Hj as Hj'. apply indices_valid in Hj'.
  rewrite (proj2 (E_sum L E HE (fun k o => T j k o) (indices sh) ltac:(intros k Hk; apply indices_valid in Hk; apply Tv; assumption))).
  rewrite (rsum_ext _ (fun k => if list_eqb j k then c j * c' k + s j * s' k else 0)).
  - apply (rsum_delta list_eqb (fun k => c j * c' k + s j * s' k)); [apply list_eqb_spec|apply indices_NoDup|exact Hj].
  - intros k Hk. apply indices_valid in Hk. apply Tv; assumption.
Qed.

(** Such draws exist on every grid: one cell, one part, one sign at a time. *)
Definition sat_outcome : Type := (list nat * bool * bool)%type.
Definition sat_E (s : list nat) (f : sat_outcome -> R) : R :=
  rsum (map (fun j => f (j, true, true) + f (j, true, false) + f (j, false, true) + f (j, false, false)) (indices s)) / (4 * ncells s).
Definition sat_g (s : list nat) (o : sat_outcome) : array * array :=
  let '(j, part, sign) := o in
  let v := (if sign then 1 else -1) * sqrt (2 * ncells s) in
  (fun k => if (part && list_eqb j k)%bool then v else 0, fun k => if (negb part && list_eqb j k)%bool then v else 0).
Lemma cells_pos : forall s i, valid s i -> 0 < ncells s.
Proof. intros s i H. unfold ncells. induction H as [|n k s i Hk H IH]; cbn; [lra|]. apply Rmult_lt_0_compat; [|exact IH]. apply lt_0_INR. lia. Qed.
Lemma sat_unit_noise : forall s, expectation (fun _ => True) (sat_E s) /\ unit_noise s (fun _ => True) (sat_E s) (sat_g s).
Proof.
  intro s. split.
  - split; [exact I|]. split.
    + intros f g _ _. split; [exact I|]. unfold sat_E, Rdiv. rewrite <- Rmult_plus_distr_r. f_equal. rewrite <- rsum_plus. apply rsum_ext. intros. ring.
    + intros c f _. split; [exact I|]. unfold sat_E, Rdiv. rewrite <- Rmult_assoc. f_equal. rewrite <- rsum_scale. apply rsum_ext. intros. ring.
  - intros j k Hj Hk. pose proof (cells_pos s j Hj) as NR.
    assert (Q : sqrt (2 * ncells s) * sqrt (2 * ncells s) = 2 * ncells s) by (apply sqrt_sqrt; lra).
    assert (K : forall (F : list nat -> R), (forall i, F i = if list_eqb j i then (if list_eqb j k then 4 * ncells s else 0) else 0) -> rsum (map F (indices s)) / (4 * ncells s) = if list_eqb j k then 1 else 0).
    { intros F HF. rewrite (rsum_ext F (fun i => if list_eqb j i then (fun _ => if list_eqb j k then 4 * ncells s else 0) i else 0)) by (intros i _; apply HF).
      rewrite (rsum_delta list_eqb (fun _ => if list_eqb j k then 4 * ncells s else 0)); [destruct (list_eqb j k); field; lra|apply list_eqb_spec|apply indices_NoDup|apply indices_valid; exact Hj]. }
    assert (Sy : forall i, list_eqb i j = list_eqb j i) by (intro i; apply eq_true_iff_eq; rewrite !list_eqb_spec; split; auto).
    split; [|split]; (split; [exact I|]); unfold sat_E; cbn [sat_g fst snd andb negb].
    + apply K. intro i. rewrite Sy. destruct (list_eqb j i) eqn:E1.
      * apply list_eqb_spec in E1. subst i. destruct (list_eqb j k); [|ring]. ring_simplify. rewrite <- Rsqr_pow2. unfold Rsqr. rewrite Q. ring.
      * ring.
    + apply K. intro i. rewrite Sy. destruct (list_eqb j i) eqn:E1.
      * apply list_eqb_spec in E1. subst i. destruct (list_eqb j k); [|ring]. ring_simplify. rewrite <- Rsqr_pow2. unfold Rsqr. rewrite Q. ring.
      * ring.
    + rewrite (rsum_ext _ (fun _ => 0)); [rewrite rsum_zero by reflexivity; field; lra|]. intros i _. destruct (list_eqb i j), (list_eqb i k); ring.
Qed.
