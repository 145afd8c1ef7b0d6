(** C74: test-time augmentation of the segmentation. *)
From Coq Require Import List Arith ZArith Reals Lra Lia Bool Permutation.
From Verif Require Import SegModel.
Import ListNotations.
Local Open Scope nat_scope.

(** * Specification *)
(** Cubes are compared on their cells. *)
Definition same {V} (n : nat) (x y : image V) : Prop := forall i j k, i < n -> j < n -> k < n -> x i j k = y i j k.
(** The network sees only the pixels of its input. *)
Definition sees_pixels_only {V} (net : network V) : Prop :=
  forall n m f g, (forall p q, p < n -> q < m -> f p q = g p q) -> forall i j, i < n -> j < m -> net n m f i j = net n m g i j.
(** The network classifies each pixel by its value alone. *)
Definition pointwise {V} (net : network V) (g : V -> V) : Prop := forall n m f i j, i < n -> j < m -> net n m f i j = g (f i j).

(** * Symmetries of the cube as signed permutations of the coordinates *)
Definition sp := ((axis * bool) * (axis * bool) * (axis * bool))%type.
Definition pick {V} (a : axis) (p q r : V) : V := match a with A0 => p | A1 => q | A2 => r end.
Definition src (n : nat) (c : axis * bool) (i j k : nat) : nat := let v := pick (fst c) i j k in if snd c then n - 1 - v else v.
Definition act {V} (n : nat) (s : sp) (x : image V) : image V := fun i j k => let '(a, b, c) := s in x (src n a i j k) (src n b i j k) (src n c i j k).
Definition comp1 (c : axis * bool) (t : sp) : axis * bool := let '(a, b, d) := t in let e := pick (fst c) a b d in (fst e, xorb (snd c) (snd e)).
Definition comp (s t : sp) : sp := let '(a, b, c) := s in (comp1 a t, comp1 b t, comp1 c t).
Definition sp_id : sp := ((A0, false), (A1, false), (A2, false)).
Definition sp_flip (a : axis) : sp := match a with A0 => ((A0, true), (A1, false), (A2, false)) | A1 => ((A0, false), (A1, true), (A2, false)) | A2 => ((A0, false), (A1, false), (A2, true)) end.
Definition sp_swap (a : axis) : sp := match a with A0 => ((A0, false), (A2, false), (A1, false)) | A1 => ((A2, false), (A1, false), (A0, false)) | A2 => ((A1, false), (A0, false), (A2, false)) end.
Definition sp_rot (k : Z) (a : axis) : sp :=
  match (k mod 4)%Z with
  | 0%Z => sp_id
  | 1%Z => comp (sp_flip (second_axis a)) (sp_swap a)
  | 2%Z => comp (sp_flip (first_axis a)) (sp_flip (second_axis a))
  | _ => comp (sp_swap a) (sp_flip (second_axis a))
  end.
Definition sp_func (f : func) : sp := match f with Keep => sp_id | FlipLr => sp_flip A1 | FlipUd => sp_flip A0 | UdOfLr => comp (sp_flip A1) (sp_flip A0) | LrOfUd => comp (sp_flip A0) (sp_flip A1) end.
Definition sp_op (op : operation) : sp := let '(f, a, k) := op in comp (sp_func f) (sp_rot k a).
Definition sp_undo (op : operation) : sp := let '(f, a, k) := op in comp (sp_rot (- k) a) (sp_func f).

Lemma src_lt : forall n c i j k, i < n -> j < n -> k < n -> src n c i j k < n.
Proof. intros n [[] []] i j k Hi Hj Hk; unfold src; cbn; lia. Qed.
Lemma act_same : forall V n s (x y : image V), same n x y -> same n (act n s x) (act n s y).
Proof. intros V n [[a b] c] x y H i j k Hi Hj Hk. cbn. apply H; apply src_lt; assumption. Qed.
Lemma same_trans : forall V n (x y z : image V), same n x y -> same n y z -> same n x z.
Proof. intros V n x y z A B i j k Hi Hj Hk. rewrite A, B by assumption. reflexivity. Qed.
Lemma same_sym : forall V n (x y : image V), same n x y -> same n y x.
Proof. intros V n x y A i j k Hi Hj Hk. symmetry. apply A; assumption. Qed.
Lemma same_refl : forall V n (x : image V), same n x x.
Proof. intros V n x i j k _ _ _. reflexivity. Qed.
Lemma src_comp : forall n c t i j k, i < n -> j < n -> k < n ->
  src n (comp1 c t) i j k = src n c (src n (fst (fst t)) i j k) (src n (snd (fst t)) i j k) (src n (snd t) i j k).
Proof. intros n [a fb] [[[a1 b1] [a2 b2]] [a3 b3]] i j k Hi Hj Hk. destruct a; destruct fb; destruct b1, b2, b3; cbn [comp1 src fst snd pick xorb]; unfold src; cbn [fst snd]; try reflexivity; destruct a1, a2, a3; cbn; lia. Qed.
Lemma act_comp : forall V n s t (x : image V), same n (act n (comp s t) x) (act n t (act n s x)).
Proof. intros V n [[a b] c] [[ta tb] tc] x i j k Hi Hj Hk. cbn [comp act]. rewrite !src_comp by assumption. reflexivity. Qed.
Lemma act_id : forall V n (x : image V), same n (act n sp_id x) x.
Proof. intros V n x i j k _ _ _. reflexivity. Qed.
Lemma flip_act : forall V n a (x : image V), flip n a x = act n (sp_flip a) x.
Proof. intros V n [] x; reflexivity. Qed.
Lemma swap_act : forall V n a (x : image V), swap_others a x = act n (sp_swap a) x.
Proof. intros V n [] x; reflexivity. Qed.
Lemma rot_act : forall V n k a (x : image V), same n (rot90 n k a x) (act n (sp_rot k a) x).
Proof.
  intros V n k a x. unfold rot90, sp_rot. pose proof (Z.mod_pos_bound k 4 ltac:(lia)) as B. remember (k mod 4)%Z as r eqn:E. clear E.
  assert (C : (r = 0 \/ r = 1 \/ r = 2 \/ r = 3)%Z) by lia. destruct C as [-> | [-> | [-> | ->]]].
  - apply same_sym, act_id.
  - rewrite (swap_act V n), flip_act. apply same_sym, act_comp.
  - rewrite !flip_act. apply same_sym, act_comp.
  - rewrite flip_act, (swap_act V n). apply same_sym, act_comp.
Qed.
Lemma func_act : forall V n f (x : image V), same n (apply_func n f x) (act n (sp_func f) x).
Proof. intros V n [] x; cbn [apply_func sp_func]; rewrite ?flip_act; try (apply same_refl); try (apply same_sym, act_comp). Qed.
Lemma rot_same : forall V n k a (x y : image V), same n x y -> same n (rot90 n k a x) (rot90 n k a y).
Proof. intros V n k a x y H. eapply same_trans; [apply rot_act|]. eapply same_trans; [apply act_same, H|]. apply same_sym, rot_act. Qed.
Lemma func_same : forall V n f (x y : image V), same n x y -> same n (apply_func n f x) (apply_func n f y).
Proof. intros V n f x y H. eapply same_trans; [apply func_act|]. eapply same_trans; [apply act_same, H|]. apply same_sym, func_act. Qed.
Lemma transform_act : forall V n op (x : image V), same n (transform n op x) (act n (sp_op op) x).
Proof.
  intros V n [[f a] k] x. cbn [transform sp_op]. eapply same_trans; [apply rot_same, func_act|]. eapply same_trans; [apply rot_act|]. apply same_sym, act_comp.
Qed.
Lemma undo_act : forall V n op (x : image V), same n (undo n op x) (act n (sp_undo op) x).
Proof.
  intros V n [[f a] k] x. cbn [undo sp_undo]. eapply same_trans; [apply func_same, rot_act|]. eapply same_trans; [apply func_act|]. apply same_sym, act_comp.
Qed.
Lemma sp_undo_op : forall op, comp (sp_op op) (sp_undo op) = sp_id.
Proof.
  intros [[f a] k]. cbn [sp_op sp_undo]. unfold sp_rot. pose proof (Z.mod_pos_bound k 4 ltac:(lia)) as B.
  assert (C : ((k mod 4 = 0 /\ (- k) mod 4 = 0) \/ (k mod 4 = 1 /\ (- k) mod 4 = 3) \/ (k mod 4 = 2 /\ (- k) mod 4 = 2) \/ (k mod 4 = 3 /\ (- k) mod 4 = 1))%Z) by (Z.div_mod_to_equations; lia).
  destruct C as [[-> ->] | [[-> ->] | [[-> ->] | [-> ->]]]]; destruct f, a; reflexivity.
Qed.
Lemma along_same : forall V (net : network V) n a x y, sees_pixels_only net -> same n x y -> same n (along net n a x) (along net n a y).
Proof. intros V net n [] x y P H i j k Hi Hj Hk; cbn [along]; apply P; try assumption; intros p q Hp Hq; apply H; assumption. Qed.

(** * Theorems *)
(** Undoing an operation after applying it gives the cube back, whatever its side. *)
Theorem C74_undo : forall V n op (x : image V), same n (undo n op (transform n op x)) x.
Proof.
  intros V n op x. eapply same_trans; [apply undo_act|]. eapply same_trans; [apply act_same, transform_act|].
  eapply same_trans; [apply same_sym, act_comp|]. rewrite sp_undo_op. apply act_id.
Qed.
Print Assumptions C74_undo.
Lemma pointwise_map : forall V (net : network V) g n op a x, pointwise net g -> same n (undo n op (along net n a (transform n op x))) (fun i j k => g (x i j k)).
Proof.
  intros V net g n op a x P. eapply same_trans; [apply undo_act|].
  assert (A : same n (along net n a (transform n op x)) (fun i j k => g (act n (sp_op op) x i j k))).
  { intros i j k Hi Hj Hk. destruct a; cbn [along]; rewrite P by assumption; f_equal; apply transform_act; assumption. }
  eapply same_trans; [apply act_same, A|].
  assert (B : same n (act n (sp_undo op) (fun i j k => g (act n (sp_op op) x i j k))) (fun i j k => g (act n (sp_undo op) (act n (sp_op op) x) i j k))) by (intros i j k _ _ _; destruct (sp_undo op) as [[? ?] ?]; reflexivity).
  eapply same_trans; [exact B|]. intros i j k Hi Hj Hk. f_equal. rewrite <- act_comp by assumption. rewrite sp_undo_op. reflexivity.
Qed.
Lemma predictions_each : forall V (net : network V) tta n x y, In y (predictions net tta n x) -> exists a op, In op (manip tta) /\ y = undo n op (along net n a (transform n op x)).
Proof. intros V net tta n x y H. unfold predictions in H. apply in_flat_map in H. destruct H as (a & _ & H). apply in_map_iff in H. destruct H as (op & <- & H). exists a, op. split; [exact H|reflexivity]. Qed.
Lemma predictions_length : forall V (net : network V) tta n x, length (predictions net tta n x) = 3 * length (manip tta).
Proof. intros. unfold predictions. cbn [flat_map]. rewrite !app_length, !map_length. cbn [length]. lia. Qed.
Lemma manip_nonempty : forall tta, 0 < length (manip tta).
Proof. intro tta. unfold manip. destruct (tta =? 2)%Z; [vm_compute; lia|cbn; lia]. Qed.
Local Open Scope R_scope.
Lemma total_const : forall (l : list R) c, (forall v, In v l -> v = c) -> total l = INR (length l) * c.
Proof. intros l c H. induction l as [|v r IH]; [cbn; ring|]. cbn [total fold_right] in *. fold (total r) in *. rewrite (H v (or_introl eq_refl)), IH by (intros; apply H; right; assumption). cbn [length]. rewrite S_INR. ring. Qed.
Lemma mean_const : forall (l : list R) c, (0 < length l)%nat -> (forall v, In v l -> v = c) -> mean l = c.
Proof. intros l c L H. unfold mean. rewrite (total_const l c H). apply lt_0_INR in L. field. lra. Qed.
(** A pixel-by-pixel network gives its own answer with no spread, with or without augmentation. *)
Theorem C74_pointwise : forall net g tta n x i j k, pointwise net g -> (i < n)%nat -> (j < n)%nat -> (k < n)%nat ->
  segmentation net tta n x i j k = np_round (g (x i j k)) /\ uncertainty net tta n x i j k = 0.
Proof.
  intros net g tta n x i j k P Hi Hj Hk. set (l := map (fun y => y i j k) (predictions net tta n x)).
  assert (E : forall v, In v l -> v = g (x i j k)). { intros v Hv. unfold l in Hv. apply in_map_iff in Hv. destruct Hv as (y & <- & Hy). apply predictions_each in Hy. destruct Hy as (a & op & _ & ->). rewrite (pointwise_map R net g n op a x P) by assumption. reflexivity. }
  assert (L : (0 < length l)%nat) by (replace (length l) with (3 * length (manip tta))%nat by (unfold l; rewrite map_length; symmetry; apply predictions_length); pose proof (manip_nonempty tta); lia).
  pose proof (mean_const l _ L E) as M. split; [unfold segmentation; fold l; rewrite M; reflexivity|]. unfold uncertainty. fold l. rewrite M.
  rewrite (mean_const _ 0); [apply sqrt_0|rewrite map_length; exact L|]. intros v Hv. apply in_map_iff in Hv. destruct Hv as (w & <- & Hw). rewrite (E w Hw). ring.
Qed.
Print Assumptions C74_pointwise.
Example C74_pointwise_sat : pointwise (fun _ _ f i j => f i j * f i j)%R (fun v => v * v)%R /\ length (manip 2) = 28%nat.
Proof. split; [intros n m f i j _ _; reflexivity|vm_compute; reflexivity]. Qed.

(** Rounding. *)
Lemma Int_part_unique : forall x z, IZR z <= x < IZR z + 1 -> Int_part x = z.
Proof. intros x z [A B]. destruct (base_Int_part x) as [C D]. assert (Int_part x < z + 1)%Z by (apply lt_IZR; rewrite plus_IZR; lra). assert (z < Int_part x + 1)%Z by (apply lt_IZR; rewrite plus_IZR; lra). lia. Qed.
Lemma np_round_low : forall x, 0 <= x <= 1 / 2 -> np_round x = 0%Z.
Proof. intros x H. unfold np_round. rewrite (Int_part_unique x 0) by (cbn; lra). destruct (Rlt_dec (x - 0) (1 / 2)); [reflexivity|]. destruct (Rlt_dec (1 / 2) (x - 0)); [lra|reflexivity]. Qed.
Lemma np_round_high : forall x, 1 / 2 < x <= 1 -> np_round x = 1%Z.
Proof.
  intros x H. destruct (Req_dec x 1) as [-> | N].
  - unfold np_round. rewrite (Int_part_unique 1 1) by (cbn; lra). destruct (Rlt_dec (1 - 1) (1 / 2)); [reflexivity|lra].
  - unfold np_round. rewrite (Int_part_unique x 0) by (cbn; lra). destruct (Rlt_dec (x - 0) (1 / 2)); [lra|]. destruct (Rlt_dec (1 / 2) (x - 0)); [reflexivity|lra].
Qed.
Lemma total_le : forall l lo hi, (forall v, In v l -> lo <= v <= hi) -> INR (length l) * lo <= total l <= INR (length l) * hi.
Proof. intros l lo hi H. induction l as [|v r IH]; [cbn; lra|]. cbn [total fold_right]. fold (total r). cbn [length]. rewrite S_INR. specialize (IH (fun w Hw => H w (or_intror Hw))). specialize (H v (or_introl eq_refl)). lra. Qed.
Lemma mean_between : forall l lo hi, (0 < length l)%nat -> (forall v, In v l -> lo <= v <= hi) -> lo <= mean l <= hi.
Proof.
  intros l lo hi L H. pose proof (total_le l lo hi H). apply lt_0_INR in L. unfold mean.
  split; [apply (Rmult_le_reg_r (INR (length l))); [exact L|]|apply (Rmult_le_reg_r (INR (length l))); [exact L|]]; unfold Rdiv; rewrite Rmult_assoc, Rinv_l by lra; lra.
Qed.
Lemma total_sq : forall l m, total (map (fun v => (v - m) ^ 2) l) = total (map (fun v => v ^ 2) l) - 2 * m * total l + INR (length l) * m ^ 2.
Proof. intros l m. induction l as [|v r IH]; [cbn; ring|]. cbn [total fold_right map] in *. fold (total r) in *. cbn [length]. rewrite S_INR. unfold total in *. rewrite IH. ring. Qed.
Lemma total_sq_le : forall l, (forall v, In v l -> 0 <= v <= 1) -> total (map (fun v => v ^ 2) l) <= total l.
Proof. intros l H. induction l as [|v r IH]; [cbn; lra|]. cbn [total fold_right map]. specialize (IH (fun w Hw => H w (or_intror Hw))). specialize (H v (or_introl eq_refl)). unfold total in IH. assert (v ^ 2 <= v) by nra. lra. Qed.
Definition probabilities (net : network R) : Prop := forall n m f i j, 0 <= net n m f i j <= 1.
(** If the network returns probabilities, the segmentation is 0 or 1 (1 iff the mean exceeds one half), and the uncertainty at most 1/2. *)
Theorem C74_range : forall net tta n x i j k, probabilities net -> (i < n)%nat -> (j < n)%nat -> (k < n)%nat ->
  let m := mean (map (fun y => y i j k) (predictions net tta n x)) in
  0 <= m <= 1 /\ segmentation net tta n x i j k = (if Rlt_dec (1 / 2) m then 1%Z else 0%Z) /\ 0 <= uncertainty net tta n x i j k <= 1 / 2.
Proof.
  intros net tta n x i j k P Hi Hj Hk m. set (l := map (fun y => y i j k) (predictions net tta n x)) in *.
  assert (E : forall v, In v l -> 0 <= v <= 1).
  { intros v Hv. unfold l in Hv. apply in_map_iff in Hv. destruct Hv as (y & <- & Hy). apply predictions_each in Hy. destruct Hy as (a & op & _ & ->). rewrite undo_act by assumption.
    destruct (sp_undo op) as [[p q] r]. cbn [act]. destruct a; cbn [along]; apply P. }
  assert (L : (0 < length l)%nat) by (replace (length l) with (3 * length (manip tta))%nat by (unfold l; rewrite map_length; symmetry; apply predictions_length); pose proof (manip_nonempty tta); lia).
  pose proof (mean_between l 0 1 L E) as M. fold m in M. split; [exact M|]. split.
  - unfold segmentation. fold l. fold m. destruct (Rlt_dec (1 / 2) m); [apply np_round_high; lra|apply np_round_low; lra].
  - unfold uncertainty. fold l. fold m. split; [apply sqrt_pos|]. replace (1 / 2) with (sqrt (1 / 4)) by (replace (1 / 4) with ((1 / 2) * (1 / 2)) by field; apply sqrt_square; lra). apply sqrt_le_1_alt.
    apply lt_0_INR in L as L'. unfold mean. rewrite map_length, total_sq. pose proof (total_sq_le l E). apply (Rmult_le_reg_r (INR (length l))); [exact L'|]. unfold Rdiv at 1. rewrite Rmult_assoc, Rinv_l by lra.
    assert (T : total l = INR (length l) * m) by (unfold m, mean; field; lra). rewrite T in H |- *. pose proof (Rmult_le_pos _ _ (Rlt_le _ _ L') (pow2_ge_0 (m - 1 / 2))). nra.
Qed.
Print Assumptions C74_range.
Example C74_range_sat : exists (net : network R) (n : nat) (i : nat) (j : nat) (k : nat), probabilities net /\ (i < n)%nat /\ (j < n)%nat /\ (k < n)%nat.
Proof. exists (fun _ _ _ _ _ => 1/2), 4%nat, 1%nat, 2%nat, 3%nat. repeat split; try lia; lra. Qed.

(** The augmentation uses 28 different symmetries on every cube of side two or more... *)
Definition corner (n : nat) (b : bool) : nat := if b then (n - 1)%nat else 0%nat.
Definition bits := [(false, false, false); (false, false, true); (false, true, false); (false, true, true); (true, false, false); (true, false, true); (true, true, false); (true, true, true)].
Definition bsrc (c : axis * bool) (b : bool * bool * bool) : bool := let '(p, q, r) := b in xorb (snd c) (pick (fst c) p q r).
Lemma src_corner : forall n c p q r, src n c (corner n p) (corner n q) (corner n r) = corner n (bsrc c (p, q, r)).
Proof. intros n [a f] p q r. unfold src, bsrc, corner. destruct a, f, p, q, r; cbn; lia. Qed.
Definition code (i j k : nat) : nat := ((if Nat.eqb i 0 then 0 else 4) + (if Nat.eqb j 0 then 0 else 2) + (if Nat.eqb k 0 then 0 else 1))%nat.
Lemma code_corner : forall n p q r p' q' r', (2 <= n)%nat -> code (corner n p) (corner n q) (corner n r) = code (corner n p') (corner n q') (corner n r') -> (p, q, r) = (p', q', r').
Proof. intros n p q r p' q' r' H. unfold code, corner. assert (E : Nat.eqb (n - 1) 0 = false) by (apply Nat.eqb_neq; lia). destruct p, q, r, p', q', r'; rewrite ?E; cbn; intro; congruence. Qed.
Lemma act_injective : forall n s t, (2 <= n)%nat -> same n (act n s code) (act n t code) -> s = t.
Proof.
  intros n [[a b] c] [[a' b'] c'] Hn H.
  assert (C : forall p q r, (bsrc a (p, q, r), bsrc b (p, q, r), bsrc c (p, q, r)) = (bsrc a' (p, q, r), bsrc b' (p, q, r), bsrc c' (p, q, r))).
  { intros p q r. apply (code_corner n); [exact Hn|]. specialize (H (corner n p) (corner n q) (corner n r)). cbn [act] in H. rewrite !src_corner in H. apply H; unfold corner; [destruct p|destruct q|destruct r]; lia. }
  assert (D : forall u v : axis * bool, (forall p q r, bsrc u (p, q, r) = bsrc v (p, q, r)) -> u = v).
  { intros [a1 f1] [a2 f2] E. pose proof (E false false false) as E0. pose proof (E true false false) as E1. pose proof (E false true false) as E2. pose proof (E false false true) as E3. destruct a1, f1, a2, f2; cbn in *; congruence. }
  f_equal; [f_equal|]; apply D; intros p q r; specialize (C p q r); congruence.
Qed.
Definition sp_eqb (s t : sp) : bool := let ax := fun a b => match a, b with A0, A0 | A1, A1 | A2, A2 => true | _, _ => false end in let c := fun u v => (ax (fst u) (fst v) && eqb (snd u) (snd v))%bool in
  let '(a, b, d) := s in let '(a', b', d') := t in (c a a' && c b b' && c d d')%bool.
Lemma sp_eqb_spec : forall s t, sp_eqb s t = true <-> s = t.
Proof. intros [[[a1 b1] [a2 b2]] [a3 b3]] [[[c1 d1] [c2 d2]] [c3 d3]]. unfold sp_eqb. cbn [fst snd]. destruct a1, b1, c1, d1; cbn; try (split; [discriminate|intro; congruence]); destruct a2, b2, c2, d2; cbn; try (split; [discriminate|intro; congruence]); destruct a3, b3, c3, d3; cbn; (split; [discriminate|intro; congruence]) || (split; reflexivity). Qed.
Fixpoint all_distinct (l : list sp) : bool := match l with [] => true | s :: r => (negb (existsb (sp_eqb s) r) && all_distinct r)%bool end.
Lemma all_distinct_NoDup : forall l, all_distinct l = true -> NoDup l.
Proof. intros l. induction l as [|s r IH]; intro H; [constructor|]. cbn in H. apply andb_true_iff in H. destruct H as [H1 H2]. constructor; [|apply IH, H2]. intro I. apply negb_true_iff in H1. assert (existsb (sp_eqb s) r = true) by (apply existsb_exists; exists s; split; [exact I|apply sp_eqb_spec; reflexivity]). congruence. Qed.
Lemma NoDup_map_inj : forall (l : list operation), NoDup (map sp_op l) -> forall p q, (p < length l)%nat -> (q < length l)%nat -> sp_op (nth p l (Keep, A0, 0%Z)) = sp_op (nth q l (Keep, A0, 0%Z)) -> p = q.
Proof.
  intros l N p q Hp Hq E. eapply (proj1 (NoDup_nth (map sp_op l) (sp_op (Keep, A0, 0%Z))) N); rewrite ?map_length; try assumption. rewrite !(map_nth sp_op). exact E.
Qed.
Theorem C74_operations : length (manip 2) = 28%nat /\
  forall n p q, (2 <= n)%nat -> (p < 28)%nat -> (q < 28)%nat ->
  (forall x : image nat, same n (transform n (nth p (manip 2) (Keep, A0, 0%Z)) x) (transform n (nth q (manip 2) (Keep, A0, 0%Z)) x)) -> p = q.
Proof.
  split; [vm_compute; reflexivity|]. intros n p q Hn Hp Hq H. assert (L : length (manip 2) = 28%nat) by (vm_compute; reflexivity).
  apply (NoDup_map_inj (manip 2)); [apply all_distinct_NoDup; vm_compute; reflexivity|rewrite L; exact Hp|rewrite L; exact Hq|].
  apply (act_injective n); [exact Hn|]. eapply same_trans; [apply same_sym, transform_act|]. eapply same_trans; [apply H|apply transform_act].
Qed.
Print Assumptions C74_operations.
(** ... every flip and right-angle rotation about one axis among them... *)
Theorem C74_generators : forall n op, In op all_operations -> exists op', In op' (manip 2) /\ forall V (x : image V), same n (transform n op' x) (transform n op x).
Proof.
  intros n op H. assert (C : forallb (fun o => existsb (fun o' => sp_eqb (sp_op o') (sp_op o)) (manip 2)) all_operations = true) by (vm_compute; reflexivity).
  rewrite forallb_forall in C. specialize (C op H). apply existsb_exists in C. destruct C as (op' & I & E). apply sp_eqb_spec in E. exists op'. split; [exact I|].
  intros V x. eapply same_trans; [apply transform_act|]. rewrite E. apply same_sym, transform_act.
Qed.
Print Assumptions C74_generators.
(** ... but they are not closed under composition. *)
Theorem C74_closed_refuted : exists op1 op2, In op1 (manip 2) /\ In op2 (manip 2) /\
  forall n op3, (2 <= n)%nat -> In op3 (manip 2) -> ~ forall x : image nat, same n (transform n op2 (transform n op1 x)) (transform n op3 x).
Proof.
  assert (C : existsb (fun o1 => existsb (fun o2 => negb (existsb (fun o3 => sp_eqb (comp (sp_op o1) (sp_op o2)) (sp_op o3)) (manip 2))) (manip 2)) (manip 2) = true) by (vm_compute; reflexivity).
  apply existsb_exists in C. destruct C as (o1 & I1 & C). apply existsb_exists in C. destruct C as (o2 & I2 & C). exists o1, o2. split; [exact I1|]. split; [exact I2|].
  intros n o3 Hn I3 H. apply negb_true_iff in C. assert (existsb (fun o3 => sp_eqb (comp (sp_op o1) (sp_op o2)) (sp_op o3)) (manip 2) = true); [|congruence].
  apply existsb_exists. exists o3. split; [exact I3|]. apply sp_eqb_spec. apply (act_injective n); [exact Hn|].
  eapply same_trans; [apply act_comp|]. eapply same_trans; [apply act_same, same_sym, transform_act|]. eapply same_trans; [apply same_sym, transform_act|]. eapply same_trans; [apply H|apply transform_act].
Qed.
Print Assumptions C74_closed_refuted.

(** * Flipped input *)
Lemma sp_invol : forall g, comp (sp_flip g) (sp_flip g) = sp_id.
Proof. intros []; reflexivity. Qed.
Definition one_map (net : network R) (n : nat) (a : axis) (s u : sp) (x : image R) : image R := act n u (along net n a (act n s x)).
Lemma prediction_one : forall net n a op x, sees_pixels_only net -> same n (undo n op (along net n a (transform n op x))) (one_map net n a (sp_op op) (sp_undo op) x).
Proof. intros net n a op x P. eapply same_trans; [apply undo_act|]. unfold one_map. apply act_same, along_same; [exact P|apply transform_act]. Qed.
Lemma undo_determined : forall op op' g, sp_op op' = comp (sp_flip g) (sp_op op) -> sp_undo op' = comp (sp_undo op) (sp_flip g).
Proof.
  (* inverses are unique *)
  intros op op' g E. assert (A : forall s t u, comp (comp s t) u = comp s (comp t u)).
  { intros [[[a1 f1] [a2 f2]] [a3 f3]] [[[b1 g1] [b2 g2]] [b3 g3]] [[[c1 h1] [c2 h2]] [c3 h3]]. cbn [comp comp1 fst snd].
    assert (K : forall a f, comp1 (comp1 (a, f) ((b1, g1), (b2, g2), (b3, g3))) ((c1, h1), (c2, h2), (c3, h3)) = comp1 (a, f) (comp ((b1, g1), (b2, g2), (b3, g3)) ((c1, h1), (c2, h2), (c3, h3)))).
    { intros a f. destruct a; cbn [comp comp1 fst snd pick]; rewrite xorb_assoc; reflexivity. }
    pose proof (K a1 f1) as K1. pose proof (K a2 f2) as K2. pose proof (K a3 f3) as K3. cbn [comp comp1 fst snd] in K1, K2, K3. rewrite K1, K2, K3. reflexivity. }
  assert (I : forall s, comp s sp_id = s). { intros [[[a1 f1] [a2 f2]] [a3 f3]]. destruct a1, a2, a3; cbn; rewrite !xorb_false_r; reflexivity. }
  assert (J : forall s, comp sp_id s = s). { intros [[[a1 f1] [a2 f2]] [a3 f3]]. destruct f1, f2, f3; reflexivity. }
  assert (R1 : comp (sp_op op') (comp (sp_undo op) (sp_flip g)) = sp_id). { rewrite E. rewrite !A. rewrite <- (A (sp_op op) (sp_undo op)). rewrite sp_undo_op, J. apply sp_invol. }
  (* the left inverse of sp_op op' *)
  assert (L : exists v, comp v (sp_op op') = sp_id).
  { destruct op' as [[f a] k]. exists (sp_undo (f, a, k)). cbn [sp_op sp_undo]. unfold sp_rot. pose proof (Z.mod_pos_bound k 4 ltac:(lia)) as B.
    assert (C : ((k mod 4 = 0 /\ (- k) mod 4 = 0) \/ (k mod 4 = 1 /\ (- k) mod 4 = 3) \/ (k mod 4 = 2 /\ (- k) mod 4 = 2) \/ (k mod 4 = 3 /\ (- k) mod 4 = 1))%Z) by (Z.div_mod_to_equations; lia).
    destruct C as [[-> ->] | [[-> ->] | [[-> ->] | [-> ->]]]]; destruct f, a; reflexivity. }
  destruct L as [v Lv]. rewrite <- (J (sp_undo op')), <- (J (comp (sp_undo op) (sp_flip g))), <- Lv, !A, R1, sp_undo_op. reflexivity.
Qed.
Lemma one_map_flip : forall net n a op op' g x, sees_pixels_only net -> sp_op op' = comp (sp_flip g) (sp_op op) ->
  same n (one_map net n a (sp_op op) (sp_undo op) (flip n g x)) (flip n g (one_map net n a (sp_op op') (sp_undo op') x)).
Proof.
  intros net n a op op' g x P E. rewrite !flip_act. unfold one_map. rewrite (undo_determined op op' g E), E.
  assert (A : same n (along net n a (act n (sp_op op) (act n (sp_flip g) x))) (along net n a (act n (comp (sp_flip g) (sp_op op)) x))) by (apply along_same; [exact P|apply same_sym, act_comp]).
  eapply same_trans; [apply act_same, A|]. set (y := along net n a (act n (comp (sp_flip g) (sp_op op)) x)).
  apply same_sym. eapply same_trans; [apply act_same, act_comp|]. eapply same_trans; [apply same_sym, act_comp|]. rewrite sp_invol. apply act_id.
Qed.
Definition partner_list (g : axis) : list operation := map (fun op => match find (fun o => sp_eqb (sp_op o) (comp (sp_flip g) (sp_op op))) (manip 2) with Some o => o | None => op end) (manip 2).
Lemma total_perm : forall l l', Permutation l l' -> total l = total l'.
Proof. intros l l' H. induction H; cbn [total fold_right] in *; unfold total in *; cbn; lra. Qed.
Lemma mean_perm : forall l l', Permutation l l' -> mean l = mean l'.
Proof. intros l l' H. unfold mean. rewrite (total_perm l l' H), (Permutation_length H). reflexivity. Qed.
Definition op_eq_dec : forall a b : operation, {a = b} + {a <> b}.
Proof. intros. decide equality; [apply Z.eq_dec|]. decide equality; decide equality. Defined.
(** Flipping the input along axis 0 or 1 flips the output. *)
Theorem C74_flip : forall net n x g i j k, sees_pixels_only net -> g = A0 \/ g = A1 -> (i < n)%nat -> (j < n)%nat -> (k < n)%nat ->
  segmentation net 2 n (flip n g x) i j k = flip n g (segmentation net 2 n x) i j k.
Proof.
  intros net n x g i j k P Hg Hi Hj Hk.
  assert (Q : exists i' j' k', (i' < n)%nat /\ (j' < n)%nat /\ (k' < n)%nat /\ (forall V (y : image V), flip n g y i j k = y i' j' k')).
  { destruct g; cbn [flip]; [exists (n - 1 - i)%nat, j, k|exists i, (n - 1 - j)%nat, k|exists i, j, (n - 1 - k)%nat]; repeat split; try lia; reflexivity. }
  destruct Q as (i' & j' & k' & Hi' & Hj' & Hk' & Q). rewrite Q. unfold segmentation. f_equal. apply mean_perm.
  assert (PL : forall op, In op (manip 2) -> sp_op (match find (fun o => sp_eqb (sp_op o) (comp (sp_flip g) (sp_op op))) (manip 2) with Some o => o | None => op end) = comp (sp_flip g) (sp_op op)).
  { intros op I. assert (C : forallb (fun g => forallb (fun o => existsb (fun o' => sp_eqb (sp_op o') (comp (sp_flip g) (sp_op o))) (manip 2)) (manip 2)) [A0; A1] = true) by (vm_compute; reflexivity).
    rewrite forallb_forall in C. specialize (C g ltac:(destruct Hg as [-> | ->]; cbn; auto)). rewrite forallb_forall in C. specialize (C op I). apply existsb_exists in C. destruct C as (o & Io & Eo).
    destruct (find _ (manip 2)) as [o'|] eqn:F; [apply find_some in F; apply sp_eqb_spec, (proj2 F)|]. exfalso. pose proof (find_none _ _ F o Io) as N. cbn beta in N. congruence. }
  assert (PP : Permutation (partner_list g) (manip 2)).
  { assert (N : NoDup (map sp_op (partner_list g)) /\ incl (partner_list g) (manip 2) /\ length (partner_list g) = length (manip 2)).
    { split; [apply all_distinct_NoDup; destruct Hg as [-> | ->]; vm_compute; reflexivity|]. split; [|unfold partner_list; apply map_length].
      intros o Io. unfold partner_list in Io. apply in_map_iff in Io. destruct Io as (op & <- & I). destruct (find _ (manip 2)) eqn:F; [apply find_some in F; apply F|exact I]. }
    destruct N as (N & I & L). apply NoDup_Permutation_bis; [eapply NoDup_map_inv; exact N|rewrite L; apply le_n|exact I]. }
  unfold predictions. cbn [flat_map]. rewrite !map_app. cbn [map]. rewrite !app_nil_r.
  assert (B : forall a, Permutation (map (fun y : image R => y i j k) (map (fun op => undo n op (along net n a (transform n op (flip n g x)))) (manip 2)))
                                    (map (fun y : image R => y i' j' k') (map (fun op => undo n op (along net n a (transform n op x))) (manip 2)))).
  { intro a. rewrite !map_map. eapply Permutation_trans; [|apply Permutation_map; exact PP]. unfold partner_list. rewrite map_map.
    match goal with |- Permutation (map ?f1 ?l) (map ?f2 ?l) => assert (EE : map f1 l = map f2 l) end; [|rewrite EE; apply Permutation_refl].
    apply map_ext_in. intros op I. rewrite (prediction_one net n a op (flip n g x) P) by assumption.
    rewrite (one_map_flip net n a op _ g x P (PL op I)) by assumption. rewrite Q. symmetry. apply (prediction_one net n a _ x P); assumption. }
  repeat apply Permutation_app; apply B.
Qed.
Print Assumptions C74_flip.
Example C74_flip_sat : exists (net : network R) n g i j k, sees_pixels_only net /\ (g = A0 \/ g = A1) /\ (i < n)%nat /\ (j < n)%nat /\ (k < n)%nat.
Proof. exists (fun n m f i j => f i j + f 0%nat 0%nat), 4%nat, A1, 1%nat, 2%nat, 3%nat. split; [|repeat split; try lia; right; reflexivity]. intros n m f g E i j I J. rewrite (E i j I J), (E 0%nat 0%nat) by lia. reflexivity. Qed.
(** The third axis is treated differently: some flip along it changes the segmentation. *)
Definition corner_net {V} : network V := fun _ _ f _ _ => f 0%nat 0%nat.
Definition three_cells {V} (one zero : V) : image V := fun i j k =>
  match i, j, k with 1%nat, 0%nat, 1%nat | 1%nat, 1%nat, 0%nat | 1%nat, 1%nat, 1%nat => one | _, _, _ => zero end.
Lemma total_bits : forall l : list bool, total (map (fun b : bool => if b then R1 else R0) l) = INR (length (filter (fun b => b) l)).
Proof. intro l. induction l as [|b r IH]; [reflexivity|]. cbn [map total fold_right filter]. unfold total in IH. rewrite IH. destruct b; [change (length (true :: filter (fun b => b) r)) with (S (length (filter (fun b => b) r))); rewrite S_INR; change R1 with 1; ring|change R0 with 0; ring]. Qed.
Lemma segmentation_bits : forall (x : image R) l i j k, map (fun y => y i j k) (predictions corner_net 2 2 x) = map (fun b : bool => if b then R1 else R0) l ->
  segmentation corner_net 2 2 x i j k = np_round (INR (length (filter (fun b => b) l)) / INR (length l)).
Proof. intros x l i j k E. unfold segmentation, mean. rewrite E, total_bits, map_length. reflexivity. Qed.
Theorem C74_flip_refuted : exists net n x i j k, sees_pixels_only net /\ (forall i j k, x i j k = 0 \/ x i j k = 1) /\ (i < n)%nat /\ (j < n)%nat /\ (k < n)%nat /\
  segmentation net 2 n (flip n A2 x) i j k = 1%Z /\ flip n A2 (segmentation net 2 n x) i j k = 0%Z.
Proof.
  exists corner_net, 2%nat, (three_cells R1 R0), 1%nat, 0%nat, 0%nat. split.
  { intros n m f g H i j Hi Hj. unfold corner_net. apply H; lia. }
  split. { intros i j k. unfold three_cells. destruct i as [|[|?]], j as [|[|?]], k as [|[|?]]; auto. }
  split; [lia|]. split; [lia|]. split; [lia|]. split.
  - set (l := map (fun y => y 1 0 0)%nat (predictions corner_net 2 2 (flip 2 A2 (three_cells true false)))).
    rewrite (segmentation_bits _ l) by (vm_compute; reflexivity).
    replace (length (filter (fun b => b) l)) with 44%nat by (vm_compute; reflexivity). replace (length l) with 84%nat by (vm_compute; reflexivity).
    rewrite !INR_IZR_INZ. cbn [Z.of_nat Pos.of_succ_nat Pos.succ]. apply np_round_high. lra.
  - cbn [flip]. set (l := map (fun y => y 1 0 1)%nat (predictions corner_net 2 2 (three_cells true false))).
    change (2 - 1 - 0)%nat with 1%nat. rewrite (segmentation_bits _ l) by (vm_compute; reflexivity).
    replace (length (filter (fun b => b) l)) with 40%nat by (vm_compute; reflexivity). replace (length l) with 84%nat by (vm_compute; reflexivity).
    rewrite !INR_IZR_INZ. cbn [Z.of_nat Pos.of_succ_nat Pos.succ]. apply np_round_low. lra.
Qed.
Print Assumptions C74_flip_refuted.
(** Arrays that are not cubes (without augmentation): an error iff the first axis is not the shortest;
    otherwise cells beyond the first axis' length keep only part of the prediction. *)
Theorem C74_any_shape : forall net g n0 n1 n2 x i j k, pointwise net g -> (i < n0)%nat -> (j < n1)%nat -> (k < n2)%nat ->
  match predictions_any_shape net n0 n1 n2 x with
  | None => (n1 < n0)%nat \/ (n2 < n0)%nat
  | Some l => (n0 <= n1)%nat /\ (n0 <= n2)%nat /\
      mean (map (fun y => y i j k) l) = g (x i j k) * (1 + (if Nat.ltb j n0 then 1 else 0) + (if Nat.ltb k n0 then 1 else 0)) / 3
  end.
Proof.
  intros net g n0 n1 n2 x i j k P Hi Hj Hk. unfold predictions_any_shape.
  destruct (Nat.ltb n1 n0) eqn:E1; [left; apply Nat.ltb_lt; exact E1|]. destruct (Nat.ltb n2 n0) eqn:E2; [right; apply Nat.ltb_lt; exact E2|]. cbn [orb].
  apply Nat.ltb_ge in E1. apply Nat.ltb_ge in E2. split; [exact E1|]. split; [exact E2|]. cbn [map]. unfold mean. cbn [total fold_right length]. rewrite !INR_IZR_INZ. cbn [Z.of_nat Pos.of_succ_nat Pos.succ].
  rewrite (P n1 n2) by lia. destruct (Nat.ltb j n0) eqn:B1; destruct (Nat.ltb k n0) eqn:B2; rewrite ?(P n0 n2), ?(P n0 n1) by lia; cbn; field.
Qed.
Print Assumptions C74_any_shape.
Example C74_any_shape_sat : exists (net : network R) g n0 n1 n2 i j k, pointwise net g /\ (i < n0)%nat /\ (j < n1)%nat /\ (k < n2)%nat.
Proof. exists (fun _ _ f i j => 1 - f i j), (fun v => 1 - v), 3%nat, 4%nat, 5%nat, 1%nat, 2%nat, 3%nat. repeat split; lia. Qed.
(** A certain detection in the far corner of a 1 x 2 x 2 array is lost. *)
Theorem C74_any_shape_refuted : exists net g n0 n1 n2 x i j k l, pointwise net g /\ (i < n0)%nat /\ (j < n1)%nat /\ (k < n2)%nat /\
  predictions_any_shape net n0 n1 n2 x = Some l /\ g (x i j k) = 1 /\ np_round (mean (map (fun y => y i j k) l)) = 0%Z.
Proof.
  set (net := (fun _ _ f i j => f i j) : network R). assert (P : pointwise net (fun v => v)) by (intros n m f i j _ _; reflexivity).
  pose proof (C74_any_shape net (fun v => v) 1 2 2 (fun _ _ _ => 1) 0 1 1 P ltac:(lia) ltac:(lia) ltac:(lia)) as H.
  destruct (predictions_any_shape net 1 2 2 (fun _ _ _ => 1)) as [l|] eqn:E; [|lia]. destruct H as (_ & _ & H).
  exists net, (fun v => v), 1%nat, 2%nat, 2%nat, (fun _ _ _ => 1), 0%nat, 1%nat, 1%nat, l. repeat split; try lia; try assumption. rewrite H. cbn. apply np_round_low. lra.
Qed.
Print Assumptions C74_any_shape_refuted.
