(** C95: scores and loss of predicted segmentations. *)
From Coq Require Import List Arith Reals Lra Lia Bool.
From Verif Require Import RLib MetricModel.
Import ListNotations.
Local Open Scope R_scope.

(** * Specification *)
Definition unit_cells (l : list (R * R)) : Prop := forall c, In c l -> 0 <= fst c <= 1 /\ 0 <= snd c <= 1.
Definition binary (l : list (R * R)) : Prop := forall c, In c l -> (fst c = 0 \/ fst c = 1) /\ (snd c = 0 \/ snd c = 1).
Definition swapped (l : list (R * R)) : list (R * R) := map (fun c => (snd c, fst c)) l.
Definition one (v : R) : bool := if Req_EM_T v 1 then true else false.
Definition count (p : R * R -> bool) (l : list (R * R)) : R := INR (length (filter p l)).
(** Cells marked in both maps, in one of them, in the true map and in the predicted map. *)
Definition both l := count (fun c => one (fst c) && one (snd c)) l.
Definition either l := count (fun c => one (fst c) || one (snd c)) l.
Definition true_cells l := count (fun c => one (fst c)) l.
Definition predicted_cells l := count (fun c => one (snd c)) l.

(** * Sums *)
Lemma sum_cons : forall f c l, sum f (c :: l) = f c + sum f l. Proof. reflexivity. Qed.
Lemma sum_ext : forall f g l, (forall c, In c l -> f c = g c) -> sum f l = sum g l. Proof. intros. apply rsum_ext. assumption. Qed.
Lemma sum_plus : forall f g l, sum (fun c => f c + g c) l = sum f l + sum g l. Proof. intros. apply rsum_plus. Qed.
Lemma sum_nonneg : forall f l, (forall c, In c l -> 0 <= f c) -> 0 <= sum f l.
Proof. intros f l H. apply rsum_nonneg. intros x I. apply in_map_iff in I. destruct I as (c & <- & I). apply H, I. Qed.
Lemma sum_zero : forall f l, (forall c, In c l -> 0 <= f c) -> (sum f l = 0 <-> forall c, In c l -> f c = 0).
Proof.
  intros f l H. split; [|intro Z; apply rsum_zero, Z]. induction l as [|a l IH]; [intros _ c []|]. rewrite sum_cons. intros S c I. pose proof (H a (or_introl eq_refl)) as A. pose proof (sum_nonneg f l (fun c I => H c (or_intror I))) as B. destruct I as [<-|I]; [lra|]. apply IH; [intros d D; apply H; right; exact D|lra|exact I].
Qed.
Lemma sum_swap : forall f l, sum f (swapped l) = sum (fun c => f (snd c, fst c)) l. Proof. intros. unfold sum, swapped. rewrite map_map. reflexivity. Qed.
Lemma sum_count : forall f (p : R * R -> bool) l, (forall c, In c l -> f c = if p c then 1 else 0) -> sum f l = count p l.
Proof.
  intros f p l H. unfold count. induction l as [|a l IH]; [reflexivity|]. rewrite sum_cons, (H a (or_introl eq_refl)), IH by (intros c I; apply H; right; exact I). cbn [filter]. destruct (p a); [cbn [length]; rewrite S_INR; lra|lra].
Qed.
Lemma sum_const : forall c l, sum (fun _ => c) l = INR (length l) * c.
Proof. intros c l. induction l as [|a l IH]; [cbn; lra|]. cbn [length]. rewrite sum_cons, S_INR, IH. lra. Qed.
Lemma sum_pos : forall f l, l <> [] -> (forall c, In c l -> 0 < f c) -> 0 < sum f l.
Proof. intros f l N H. destruct l as [|a l]; [contradiction N; reflexivity|]. rewrite sum_cons. pose proof (H a (or_introl eq_refl)). pose proof (sum_nonneg f l (fun c I => Rlt_le _ _ (H c (or_intror I)))). lra. Qed.

(** * Intersection over union *)
Theorem C95_iou : forall l, unit_cells l -> 0 <= iou l <= 1 /\ iou (swapped l) = iou l /\ (iou l = 1 <-> forall c, In c l -> c = (0, 0) \/ c = (1, 1)) /\
  (iou l = 0 <-> (exists c, In c l /\ c <> (0, 0)) /\ forall c, In c l -> fst c = 0 \/ snd c = 0).
Proof.
  intros l U. assert (SW : iou (swapped l) = iou l). { unfold iou, intersection. rewrite !sum_swap. cbn [fst snd]. rewrite (sum_ext (fun c => Rabs (snd c * fst c)) (fun c => Rabs (fst c * snd c))) by (intros; f_equal; ring). rewrite (Rplus_comm (sum _ l) (sum _ l)). change (fun c : R * R => fst c) with (@fst R R). change (fun c : R * R => snd c) with (@snd R R). reflexivity. }
  assert (I1 : intersection l = sum (fun c => fst c * snd c) l) by (apply sum_ext; intros c C; apply Rabs_right; destruct (U c C); nra).
  assert (D1 : sum fst l + sum snd l - intersection l = sum (fun c => fst c + snd c - fst c * snd c) l). { rewrite I1. transitivity (sum (fun c => (fst c + snd c) + - 1 * (fst c * snd c)) l); [|apply sum_ext; intros; ring]. rewrite sum_plus, sum_plus. unfold sum at 6. rewrite (rsum_scale (fun c : R * R => fst c * snd c) (-1)). fold (sum (fun c => fst c * snd c) l). lra. }
  assert (D2 : sum (fun c => fst c + snd c - fst c * snd c) l - sum (fun c => fst c * snd c) l = sum (fun c => fst c * (1 - snd c) + snd c * (1 - fst c)) l). { unfold sum. rewrite <- rsum_minus. apply rsum_ext. intros. ring. }
  assert (NI : forall c, In c l -> 0 <= fst c * snd c) by (intros c C; destruct (U c C); nra). assert (NU : forall c, In c l -> 0 <= fst c + snd c - fst c * snd c) by (intros c C; destruct (U c C); nra). assert (ND : forall c, In c l -> 0 <= fst c * (1 - snd c) + snd c * (1 - fst c)) by (intros c C; destruct (U c C); nra).
  pose proof (sum_nonneg _ l NI) as S1. pose proof (sum_nonneg _ l NU) as S2. pose proof (sum_nonneg _ l ND) as S3. pose proof (sum_zero _ l NI) as Z1. pose proof (sum_zero _ l NU) as Z2. pose proof (sum_zero _ l ND) as Z3.
  assert (UZ : forall c, In c l -> fst c + snd c - fst c * snd c = 0 -> c = (0, 0)). { intros [t q] C E. destruct (U _ C) as [A B]. cbn [fst snd] in *. assert (t = 0) by nra. assert (q = 0) by nra. subst. reflexivity. }
  split; [|split; [exact SW|]].
  - unfold iou. rewrite D1. cbv zeta. destruct (Req_EM_T _ 0) as [E|E]; [lra|]. rewrite I1. set (u := sum (fun c => fst c + snd c - fst c * snd c) l) in *. set (i := sum (fun c => fst c * snd c) l) in *. assert (0 < u) by lra. split; [apply Rmult_le_pos; [lra|left; apply Rinv_0_lt_compat; lra]|]. apply Rmult_le_reg_r with u; [lra|]. unfold Rdiv. rewrite Rmult_assoc, Rinv_l by lra. lra.
  - unfold iou. rewrite D1, I1. cbv zeta. set (u := sum (fun c => fst c + snd c - fst c * snd c) l) in *. set (i := sum (fun c => fst c * snd c) l) in *. set (d := sum (fun c => fst c * (1 - snd c) + snd c * (1 - fst c)) l) in *. split.
    + transitivity (d = 0).
      * destruct (Req_EM_T u 0) as [E|E]; [split; [intros _; assert (i <= u) by lra; lra|reflexivity]|]. split; intro H; [apply (f_equal (fun x => x * u)) in H; unfold Rdiv in H; rewrite Rmult_assoc, Rinv_l in H by exact E; lra|]. assert (i = u) as -> by lra. field. exact E.
      * rewrite Z3. split; intros H c C; specialize (H c C).
        -- destruct (U c C) as [A B]. destruct c as [t q]. cbn [fst snd] in *. assert (X : t * (1 - q) = 0) by nra. assert (Y : q * (1 - t) = 0) by nra. apply Rmult_integral in X. destruct X as [X|X]; [left; subst t; f_equal; lra|right; assert (q = 1) by lra; subst q; f_equal; lra].
        -- destruct H as [-> | ->]; cbn [fst snd]; lra.
    + destruct (Req_EM_T u 0) as [E|E].
      * split; [intro; lra|]. intros [(c & C & N) _]. exfalso. apply N, UZ; [exact C|]. apply Z2; assumption.
      * assert (X : i / u = 0 <-> i = 0). { split; intro H; [apply (f_equal (fun x => x * u)) in H; unfold Rdiv in H; rewrite Rmult_assoc, Rinv_l in H by exact E; lra|rewrite H; unfold Rdiv; ring]. } rewrite X, Z1. split.
        -- intro H. split; [|intros c C; apply Rmult_integral, H, C]. destruct (Exists_dec (fun c : R * R => fst c + snd c - fst c * snd c <> 0) l (fun c => match Req_EM_T (fst c + snd c - fst c * snd c) 0 with left e => right (fun n => n e) | right n => left n end)) as [Q|Q].
           ++ apply Exists_exists in Q. destruct Q as (c & C & N). exists c. split; [exact C|]. intros ->. apply N. cbn. ring.
           ++ exfalso. apply E, Z2. intros c C. destruct (Req_EM_T (fst c + snd c - fst c * snd c) 0) as [F|F]; [exact F|]. exfalso. apply Q, Exists_exists. exists c. tauto.
        -- intros [_ H] c C. destruct (H c C) as [-> | ->]; ring.
Qed.
Print Assumptions C95_iou.
Example C95_iou_sat : exists (l : list (R * R)), unit_cells l.
Proof. exists [(1/2, 1); (0, 1/4)]. intros c [<-|[<-|[]]]; cbn; lra. Qed.
Lemma one_cases : forall v, v = 0 \/ v = 1 -> v = if one v then 1 else 0. Proof. intros v [-> | ->]; unfold one; destruct (Req_EM_T _ 1); lra. Qed.
(** On masks it is the documented ratio of counts, 1 when both are empty. *)
Theorem C95_iou_masks : forall l, binary l -> iou l = if Req_EM_T (either l) 0 then 1 else both l / either l.
Proof.
  intros l B. assert (I : intersection l = both l). { apply sum_count. intros c C. destruct (B c C) as [[-> | ->] [-> | ->]]; unfold one; destruct (Req_EM_T 0 1), (Req_EM_T 1 1); try lra; cbn [andb]; rewrite ?Rmult_0_l, ?Rmult_0_r, ?Rmult_1_l, ?Rabs_R0, ?Rabs_R1; lra. }
  assert (U : sum fst l + sum snd l - intersection l = either l). { assert (S : sum (fun c => fst c + snd c) l = either l + both l). { unfold either, both. rewrite <- (sum_count (fun c => if one (fst c) || one (snd c) then 1 else 0)), <- (sum_count (fun c => if one (fst c) && one (snd c) then 1 else 0)), <- sum_plus by reflexivity. apply sum_ext. intros c C. destruct (B c C) as [[-> | ->] [-> | ->]]; unfold one; destruct (Req_EM_T 0 1), (Req_EM_T 1 1); cbn [andb orb]; lra. }
    rewrite sum_plus in S. rewrite I. change (fun c : R * R => fst c) with (@fst R R) in S. change (fun c : R * R => snd c) with (@snd R R) in S. lra. }
  unfold iou. rewrite U, I. reflexivity.
Qed.
Print Assumptions C95_iou_masks.
Example C95_iou_masks_sat : exists (l : list (R * R)), binary l.
Proof. exists [(0, 1); (1, 1)]. intros c [<-|[<-|[]]]; cbn; tauto. Qed.
(** A perfect prediction of a graded map does not score 1. *)
Theorem C95_iou_graded_refuted : forall v, 0 < v < 1 -> iou [(v, v)] = v / (2 - v) /\ iou [(v, v)] < 1.
Proof.
  intros v V. assert (E : iou [(v, v)] = v / (2 - v)). { unfold iou, intersection. rewrite !sum_cons. unfold sum, rsum. cbn [map fold_right fst snd]. rewrite Rabs_right by nra. cbv zeta. destruct (Req_EM_T _ 0) as [Z|Z]; [nra|]. field. split; nra. }
  split; [exact E|]. rewrite E. apply Rmult_lt_reg_r with (2 - v); [lra|]. unfold Rdiv. rewrite Rmult_assoc, Rinv_l by lra. lra.
Qed.
Print Assumptions C95_iou_graded_refuted.
Example C95_iou_graded_refuted_sat : exists (v : R), 0 < v < 1.
Proof. exists (1/2). repeat split; first [lra | lia | reflexivity | discriminate | congruence | auto]. Qed.

(** * Dice coefficient *)
Theorem C95_dice : forall smooth l, 0 < smooth -> 0 < dice_coef smooth l <= 1 /\ dice_coef smooth (swapped l) = dice_coef smooth l /\ (dice_coef smooth l = 1 <-> forall c, In c l -> Rabs (fst c) = Rabs (snd c)).
Proof.
  intros s l S. assert (A : 0 <= intersection l) by (apply sum_nonneg; intros; apply Rabs_pos). assert (D : sum (fun c => fst c ^ 2) l + sum (fun c => snd c ^ 2) l - 2 * intersection l = sum (fun c => (Rabs (fst c) - Rabs (snd c)) ^ 2) l).
  { rewrite <- sum_plus. unfold intersection, sum. rewrite <- (rsum_scale (fun c : R * R => Rabs (fst c * snd c)) 2), <- rsum_minus. apply rsum_ext. intros c _. rewrite Rabs_mult. pose proof (pow2_abs (fst c)). pose proof (pow2_abs (snd c)). nra. }
  assert (N : forall c, In c l -> 0 <= (Rabs (fst c) - Rabs (snd c)) ^ 2) by (intros; apply pow2_ge_0). pose proof (sum_nonneg _ l N) as DN. pose proof (sum_zero _ l N) as DZ. unfold dice_coef. set (q := sum (fun c => fst c ^ 2) l + sum (fun c => snd c ^ 2) l) in *. set (d := sum (fun c => (Rabs (fst c) - Rabs (snd c)) ^ 2) l) in *. assert (Q : 0 < q + s) by lra. split; [|split].
  - split; [apply Rdiv_lt_0_compat; lra|]. apply Rmult_le_reg_r with (q + s); [exact Q|]. unfold Rdiv. rewrite Rmult_assoc, Rinv_l by lra. lra.
  - unfold intersection, q. rewrite !sum_swap. cbn [fst snd]. rewrite (Rplus_comm (sum (fun c => snd c ^ 2) l)). rewrite (sum_ext (fun c => Rabs (snd c * fst c)) (fun c => Rabs (fst c * snd c))) by (intros; f_equal; ring). reflexivity.
  - transitivity (d = 0).
    + split; intro H; [apply (f_equal (fun x => x * (q + s))) in H; unfold Rdiv in H; rewrite Rmult_assoc, Rinv_l in H by lra; lra|]. assert (2 * intersection l + s = q + s) as -> by lra. field. lra.
    + rewrite DZ. split; intros H c C; specialize (H c C); [|rewrite H; ring]. cbn [pow] in H. rewrite Rmult_1_r in H. apply Rmult_integral in H. lra.
Qed.
Print Assumptions C95_dice.
Theorem C95_dice_masks : forall smooth l, binary l -> dice_coef smooth l = (2 * both l + smooth) / (true_cells l + predicted_cells l + smooth).
Proof.
  intros s l B. unfold dice_coef. assert (I : intersection l = both l) by (apply sum_count; intros c C; destruct (B c C) as [[F|F] [G|G]]; rewrite ?F, ?G; unfold one; destruct (Req_EM_T 0 1), (Req_EM_T 1 1); cbn [andb]; rewrite ?Rmult_0_l, ?Rmult_0_r, ?Rmult_1_l, ?Rabs_R0, ?Rabs_R1; lra). assert (T : sum (fun c => fst c ^ 2) l = true_cells l) by (apply sum_count; intros c C; destruct (B c C) as [[F|F] [G|G]]; rewrite ?F, ?G; unfold one; destruct (Req_EM_T 0 1), (Req_EM_T 1 1); cbn [andb]; rewrite ?Rmult_0_l, ?Rmult_0_r, ?Rmult_1_l, ?Rabs_R0, ?Rabs_R1; lra). assert (Q : sum (fun c => snd c ^ 2) l = predicted_cells l) by (apply sum_count; intros c C; destruct (B c C) as [[F|F] [G|G]]; rewrite ?F, ?G; unfold one; destruct (Req_EM_T 0 1), (Req_EM_T 1 1); cbn [andb]; rewrite ?Rmult_0_l, ?Rmult_0_r, ?Rmult_1_l, ?Rabs_R0, ?Rabs_R1; lra). rewrite I, T, Q. reflexivity.
Qed.
Print Assumptions C95_dice_masks.
Example C95_dice_masks_sat : exists (l : list (R * R)), binary l.
Proof. exists [(0, 1); (1, 1)]. intros c [<-|[<-|[]]]; cbn; tauto. Qed.

(** * Precision and recall *)
Lemma clip_range : forall eps v, 0 < eps < 1 / 2 -> eps <= clip eps (1 - eps) v <= 1 - eps.
Proof. intros eps v E. unfold clip, Rmin, Rmax. destruct (Rle_dec v eps), (Rle_dec _ (1 - eps)); lra. Qed.
Lemma clip_id : forall eps v, eps <= v <= 1 - eps -> clip eps (1 - eps) v = v.
Proof. intros eps v E. unfold clip, Rmin, Rmax. destruct (Rle_dec v eps); [assert (v = eps) by lra; destruct (Rle_dec _ (1 - eps)); lra|]. destruct (Rle_dec _ (1 - eps)); lra. Qed.
Lemma clip_low : forall eps v, 0 < eps < 1 / 2 -> v <= eps -> clip eps (1 - eps) v = eps.
Proof. intros eps v E H. unfold clip, Rmin, Rmax. destruct (Rle_dec v eps); [|lra]. destruct (Rle_dec _ (1 - eps)); lra. Qed.
Lemma clip_high : forall eps v, 0 < eps < 1 / 2 -> 1 - eps <= v -> clip eps (1 - eps) v = 1 - eps.
Proof. intros eps v E H. unfold clip, Rmin, Rmax. destruct (Rle_dec v eps); destruct (Rle_dec _ (1 - eps)); lra. Qed.
Lemma precision_formula : forall eps l, precision eps l = sum (fun c => clip eps (1 - eps) (fst c) * clip eps (1 - eps) (snd c)) l / (sum (fun c => clip eps (1 - eps) (snd c)) l + eps).
Proof.
  intros eps l. unfold precision, clipped. cbv zeta. unfold sum. rewrite !map_map. cbn [fst snd]. rewrite <- rsum_plus. f_equal; [apply rsum_ext; intros; ring|]. f_equal. apply rsum_ext. intros. ring.
Qed.
(** Strictly between 0 and 1 (never perfect), recall being precision with the maps exchanged. *)
Theorem C95_precision : forall eps l, 0 < eps < 1 / 2 -> l <> [] -> 0 < precision eps l < 1 /\ 0 < recall eps l < 1 /\ recall eps l = precision eps (swapped l).
Proof.
  intros eps l E N. assert (P : forall l, l <> [] -> 0 < precision eps l < 1).
  { clear l N. intros l N. rewrite precision_formula. assert (A : 0 < sum (fun c => clip eps (1 - eps) (fst c) * clip eps (1 - eps) (snd c)) l) by (apply sum_pos; [exact N|]; intros c _; pose proof (clip_range eps (fst c) E); pose proof (clip_range eps (snd c) E); nra).
    assert (B : sum (fun c => clip eps (1 - eps) (fst c) * clip eps (1 - eps) (snd c)) l <= sum (fun c => clip eps (1 - eps) (snd c)) l) by (apply rsum_le; intros c _; pose proof (clip_range eps (fst c) E); pose proof (clip_range eps (snd c) E); nra).
    split; [apply Rdiv_lt_0_compat; lra|]. apply Rmult_lt_reg_r with (sum (fun c => clip eps (1 - eps) (snd c)) l + eps); [lra|]. unfold Rdiv. rewrite Rmult_assoc, Rinv_l by lra. lra. }
  assert (D : recall eps l = precision eps (swapped l)). { unfold recall, precision, clipped, swapped. cbv zeta. unfold sum. rewrite !map_map. cbn [fst snd]. f_equal; [apply rsum_ext; intros; ring|]. f_equal. f_equal; apply rsum_ext; intros; ring. }
  split; [apply P, N|]. split; [|exact D]. rewrite D. apply P. destruct l; [contradiction N; reflexivity|discriminate].
Qed.
Print Assumptions C95_precision.
Example C95_precision_sat : exists (eps : R) (l : list (R * R)), 0 < eps < 1 / 2 /\ l <> [].
Proof. exists (1/4), [(1, 0); (1, 1)]. split; [lra|discriminate]. Qed.
(** An empty prediction is not scored 0: its precision is the (clipped) true fraction times N/(N+1). *)
Theorem C95_empty_prediction_refuted : forall eps l, 0 < eps < 1 / 2 -> (forall c, In c l -> snd c <= eps) -> precision eps l = sum (fun c => clip eps (1 - eps) (fst c)) l / (INR (length l) + 1).
Proof.
  intros eps l E H. rewrite precision_formula. rewrite (sum_ext (fun c => clip eps (1 - eps) (snd c)) (fun _ => eps)) by (intros c C; apply clip_low; [exact E|apply H, C]). rewrite sum_const. rewrite (sum_ext (fun c => clip eps (1 - eps) (fst c) * clip eps (1 - eps) (snd c)) (fun c => clip eps (1 - eps) (fst c) * eps)) by (intros c C; rewrite (clip_low eps (snd c)); [reflexivity|exact E|apply H, C]).
  unfold sum at 1. rewrite (rsum_scale_r (fun c : R * R => clip eps (1 - eps) (fst c)) eps). fold (sum (fun c => clip eps (1 - eps) (fst c)) l). pose proof (pos_INR (length l)). field. split; nra.
Qed.
Print Assumptions C95_empty_prediction_refuted.
Example C95_empty_prediction_refuted_sat : exists (eps : R) (l : list (R * R)), 0 < eps < 1 / 2 /\ (forall c, In c l -> snd c <= eps).
Proof. exists (1/10), [(1, 0); (0, 1/20)]. split; [lra|]. intros c [<-|[<-|[]]]; cbn; lra. Qed.
(** A perfect mask of k cells out of n. *)
Theorem C95_perfect_mask : forall eps l, 0 < eps < 1 / 2 -> binary l -> (forall c, In c l -> fst c = snd c) -> let k := true_cells l in let n := INR (length l) in
  precision eps l = (k * (1 - eps) ^ 2 + (n - k) * eps ^ 2) / (k * (1 - eps) + (n - k) * eps + eps) /\ recall eps l = precision eps l.
Proof.
  intros eps l E B S k n. assert (V : forall c, In c l -> clip eps (1 - eps) (fst c) = (if one (fst c) then 1 else 0) * (1 - 2 * eps) + eps). { intros c C. destruct (B c C) as [[F|F] _]; rewrite F; unfold one; [rewrite clip_low by lra; destruct (Req_EM_T 0 1); lra|rewrite clip_high by lra; destruct (Req_EM_T 1 1); lra]. }
  assert (KK : sum (fun c => if one (fst c) then 1 else 0) l = k) by (apply sum_count; reflexivity). assert (PF : precision eps l = (k * (1 - eps) ^ 2 + (n - k) * eps ^ 2) / (k * (1 - eps) + (n - k) * eps + eps)).
  { rewrite precision_formula. f_equal.
    - transitivity (sum (fun c => (if one (fst c) then 1 else 0) * (1 - 2 * eps) + eps ^ 2) l); [apply sum_ext; intros c C; rewrite <- (S c C), (V c C); destruct (one (fst c)); ring|]. rewrite sum_plus, sum_const. unfold sum. rewrite (rsum_scale_r (fun c : R * R => if one (fst c) then 1 else 0) (1 - 2 * eps)). fold (sum (fun c => if one (fst c) then 1 else 0) l). rewrite KK. fold n. ring.
    - f_equal. transitivity (sum (fun c => (if one (fst c) then 1 else 0) * (1 - 2 * eps) + eps) l); [apply sum_ext; intros c C; rewrite <- (S c C); apply V, C|]. rewrite sum_plus, sum_const. unfold sum. rewrite (rsum_scale_r (fun c : R * R => if one (fst c) then 1 else 0) (1 - 2 * eps)). fold (sum (fun c => if one (fst c) then 1 else 0) l). rewrite KK. fold n. ring. }
  split; [exact PF|]. destruct l as [|a l]; [cbn; reflexivity|]. destruct (C95_precision eps (a :: l) E ltac:(discriminate)) as (_ & _ & ->). f_equal. unfold swapped. rewrite <- (map_id (a :: l)) at 2. apply map_ext_in. intros [t q] C. pose proof (S _ C) as T. cbn [fst snd] in *. rewrite T. reflexivity.
Qed.
Print Assumptions C95_perfect_mask.
Example C95_perfect_mask_sat : exists (eps : R) (l : list (R * R)), 0 < eps < 1 / 2 /\ binary l /\ (forall c, In c l -> fst c = snd c).
Proof. exists (1/10), [(1, 1); (0, 0)]. split; [lra|]. split; intros c [<-|[<-|[]]]; cbn; tauto. Qed.

(** * Coefficient of determination *)
Theorem C95_r2 : forall eps l, 0 < eps -> r2score eps l <= 1 /\ (r2score eps l = 1 <-> forall c, In c l -> fst c = snd c) /\ ((forall c, In c l -> snd c = mean fst l) -> 0 < r2score eps l).
Proof.
  intros eps l E. unfold r2score. set (m := mean fst l). assert (N : forall c, In c l -> 0 <= (fst c - snd c) ^ 2) by (intros; apply pow2_ge_0). pose proof (sum_nonneg _ l N) as S1. pose proof (sum_zero _ l N) as Z1. assert (S2 : 0 <= sum (fun c => (fst c - m) ^ 2) l) by (apply sum_nonneg; intros; apply pow2_ge_0).
  set (r := sum (fun c => (fst c - snd c) ^ 2) l) in *. set (t := sum (fun c => (fst c - m) ^ 2) l) in *. assert (D : 0 < t + eps) by lra. split; [|split].
  - assert (0 <= r / (t + eps)) by (apply Rmult_le_pos; [lra|left; apply Rinv_0_lt_compat, D]). lra.
  - transitivity (r = 0). { split; intro H; [|rewrite H; unfold Rdiv; lra]. assert (Q : r / (t + eps) = 0) by lra. apply (f_equal (fun x => x * (t + eps))) in Q. unfold Rdiv in Q. rewrite Rmult_assoc, Rinv_l in Q by lra. lra. } rewrite Z1. split; intros H c C; specialize (H c C); [|rewrite H; ring]. cbn [pow] in H. rewrite Rmult_1_r in H. apply Rmult_integral in H. lra.
  - intro H. assert (RT : r = t) by (apply sum_ext; intros c C; rewrite (H c C); reflexivity). rewrite RT. assert (Q : 1 - t / (t + eps) = eps / (t + eps)) by (field; lra). rewrite Q. apply Rdiv_lt_0_compat; lra.
Qed.
Print Assumptions C95_r2.
Example C95_r2_sat : exists (eps : R), 0 < eps.
Proof. exists (1/2). repeat split; first [lra | lia | reflexivity | discriminate | congruence | auto]. Qed.

(** * The loss *)
(** The balanced cross entropy of one cell. *)
Definition cross_entropy (beta t p : R) : R := - (beta * t * ln p + (1 - beta) * (1 - t) * ln (1 - p)).
Lemma ln_ratio : forall a b, 0 < a -> 0 < b -> ln (a / b) = ln a - ln b.
Proof. intros a b A B. unfold Rdiv. rewrite ln_mult, ln_Rinv; [lra|assumption..|apply Rinv_0_lt_compat, B]. Qed.
Lemma logit_nonneg : forall p, 0 < p < 1 -> (0 <= ln (p / (1 - p)) <-> 1 / 2 <= p).
Proof.
  intros p P. rewrite ln_ratio by lra. split; intro H.
  - destruct (Rlt_le_dec p (1 / 2)) as [L|L]; [|exact L]. assert (ln p < ln (1 - p)) by (apply ln_increasing; lra). lra.
  - assert (ln (1 - p) <= ln p) by (destruct (Req_EM_T p (1 / 2)) as [->|N]; [replace (1 - 1 / 2) with (1 / 2) by lra; lra|left; apply ln_increasing; lra]). lra.
Qed.
Lemma cell_loss : forall beta t p, 0 < p < 1 -> sigmoid_balanced beta t (ln (p / (1 - p))) = cross_entropy beta t p + (if Rlt_dec p (1 / 2) then t * (1 - 2 * beta) * ln ((1 - p) / p) else 0).
Proof.
  intros beta t p P. pose proof (logit_nonneg p P) as LN. unfold sigmoid_balanced, cross_entropy. destruct (Rle_dec 0 (ln (p / (1 - p)))) as [H|H].
  - apply LN in H. destruct (Rlt_dec p (1 / 2)); [lra|]. assert (EX : 1 + exp (- ln (p / (1 - p))) = / p). { rewrite <- ln_Rinv by (apply Rdiv_lt_0_compat; lra). rewrite exp_ln by (apply Rinv_0_lt_compat, Rdiv_lt_0_compat; lra). field. lra. } rewrite EX, ln_Rinv, ln_ratio by lra. ring.
  - assert (H' : p < 1 / 2) by (apply Rnot_le_lt; intro Q; apply H, LN, Q). destruct (Rlt_dec p (1 / 2)); [|lra]. assert (EX : 1 + exp (ln (p / (1 - p))) = / (1 - p)). { rewrite exp_ln by (apply Rdiv_lt_0_compat; lra). field. lra. } rewrite EX, ln_Rinv, !ln_ratio by lra. ring.
Qed.
(** The implemented loss exceeds or misses the balanced cross entropy on true cells predicted below one half: there the weight of the logit is 1-beta instead of beta. *)
Theorem C95_loss : forall eps l, 0 < eps < 1 / 2 -> balanced_cross_entropy eps l =
  mean (fun c => let p := clip eps (1 - eps) (snd c) in cross_entropy (beta_of eps l) (fst c) p + (if Rlt_dec p (1 / 2) then fst c * (1 - 2 * beta_of eps l) * ln ((1 - p) / p) else 0)) l.
Proof. intros eps l E. unfold balanced_cross_entropy, mean. f_equal. apply sum_ext. intros c _. cbv zeta. apply cell_loss. pose proof (clip_range eps (snd c) E). lra. Qed.
Print Assumptions C95_loss.
Theorem C95_loss_nonnegative : forall eps l, 0 < eps < 1 / 2 -> l <> [] -> unit_cells l -> 0 <= balanced_cross_entropy eps l /\ eps <= beta_of eps l <= 1.
Proof.
  intros eps l E N U. assert (P : 0 < INR (length l)) by (apply lt_0_INR; destruct l; [contradiction N; reflexivity|cbn; lia]). assert (B : eps <= beta_of eps l <= 1).
  { unfold beta_of. split; [apply Rmax_r|]. apply Rmax_lub; [|lra]. unfold mean. apply Rmult_le_reg_r with (INR (length l)); [exact P|]. unfold Rdiv. rewrite Rmult_assoc, Rinv_l by lra. rewrite Rmult_1_r, Rmult_1_l. replace (INR (length l)) with (INR (length l) * 1) by ring. rewrite <- sum_const. apply rsum_le. intros c C. destruct (U c C). lra. }
  split; [|exact B]. unfold balanced_cross_entropy. set (b := beta_of eps l) in *. clearbody b. unfold mean. apply Rmult_le_pos; [|left; apply Rinv_0_lt_compat, P]. apply sum_nonneg. intros c C. destruct (U c C) as [[T0 T1] _]. set (x := logit eps (snd c)). clearbody x. set (t := fst c) in *. clearbody t. unfold sigmoid_balanced. assert (L : forall y, 0 <= ln (1 + exp y)) by (intro y; rewrite <- ln_1; left; apply ln_increasing; [lra|pose proof (exp_pos y); lra]).
  assert (W : 0 <= (1 - b) * (1 - t) + b * t) by (assert (0 <= (1 - b) * (1 - t)) by (apply Rmult_le_pos; lra); assert (0 <= b * t) by (apply Rmult_le_pos; lra); lra). destruct (Rle_dec 0 x) as [H|H].
  - assert (0 <= x * (1 - t) * (1 - b)) by (apply Rmult_le_pos; [apply Rmult_le_pos|]; lra). assert (0 <= ln (1 + exp (- x)) * ((1 - b) * (1 - t) + b * t)) by (apply Rmult_le_pos; [apply L|exact W]). lra.
  - assert (0 <= (- x) * t * (1 - b)) by (apply Rmult_le_pos; [apply Rmult_le_pos|]; lra). assert (0 <= ln (1 + exp x) * ((1 - b) * (1 - t) + b * t)) by (apply Rmult_le_pos; [apply L|exact W]). lra.
Qed.
Print Assumptions C95_loss_nonnegative.
Example C95_loss_nonnegative_sat : exists (eps : R) (l : list (R * R)), 0 < eps < 1 / 2 /\ l <> [] /\ unit_cells l.
Proof. exists (1/10), [(1/2, 1); (0, 1/4)]. split; [lra|]. split; [discriminate|]. intros c [<-|[<-|[]]]; cbn; lra. Qed.
(** In mostly unmarked maps a worse prediction of a marked cell can have a smaller loss. *)
Theorem C95_loss_direction_refuted : forall eps r, 0 < eps <= 1 / 10 -> (forall c, In c r -> fst c = 0) -> (9 <= length r)%nat -> exists p, 0 < p < 1 / 2 /\ balanced_cross_entropy eps ((1, p) :: r) < balanced_cross_entropy eps ((1, 1 / 2) :: r).
Proof.
  intros eps r E Z L. set (p := / (1 + exp 2)). assert (E1 : 0 < exp 2) by apply exp_pos. assert (EN : exp (- 2) = / exp 2) by (rewrite <- exp_Ropp; f_equal; lra). assert (E9 : exp 2 <= 9) by (replace 2 with (1 + 1) by lra; rewrite exp_plus; pose proof exp_le_3; pose proof (exp_pos 1); nra). assert (E5 : 5 <= exp 2).
  { assert (H : forall x, 0 <= x -> 1 + x <= exp x) by (intros x [X| <-]; [left; apply exp_ineq1; lra|rewrite exp_0; lra]). assert (H4 : 3 / 2 <= exp (1 / 2)) by (specialize (H (1 / 2)); lra). replace 2 with (1 / 2 + 1 / 2 + (1 / 2 + 1 / 2)) by lra. rewrite !exp_plus. assert (9 / 4 <= exp (1 / 2) * exp (1 / 2)) by nra. nra. }
  assert (P : 1 / 10 <= p < 1 / 2). { unfold p. split; [apply Rmult_le_reg_r with (1 + exp 2); [lra|]; rewrite Rinv_l by lra; lra|]. apply Rmult_lt_reg_r with (1 + exp 2); [lra|]. rewrite Rinv_l by lra. lra. } exists p. split; [lra|].
  assert (LP : logit eps p = - 2). { unfold logit. cbv zeta. rewrite clip_id by lra. assert (Q : p / (1 - p) = exp (- 2)). { rewrite EN. unfold p. field. split; lra. } rewrite Q. apply ln_exp. }
  assert (LH : logit eps (1 / 2) = 0). { unfold logit. cbv zeta. rewrite clip_id by lra. replace (1 / 2 / (1 - 1 / 2)) with 1 by field. apply ln_1. }
  assert (BE : forall q, beta_of eps ((1, q) :: r) = beta_of eps ((1, 0) :: r)) by reflexivity. assert (BV : 9 / 10 <= beta_of eps ((1, 0) :: r) <= 1).
  { assert (S : sum (fun c => 1 - fst c) r = INR (length r)). { rewrite (sum_ext _ (fun _ => 1)) by (intros c C; rewrite (Z c C); lra). rewrite sum_const. ring. } assert (LL : 9 <= INR (length r)) by (replace 9 with (INR 9) by (cbn; lra); apply le_INR, L). assert (M : mean (fun c => 1 - fst c) ((1, 0) :: r) = INR (length r) / (INR (length r) + 1)). { unfold mean. rewrite sum_cons, S. cbn [fst]. cbn [length]. rewrite S_INR. f_equal. ring. }
    unfold beta_of. rewrite M. assert (Q : 9 / 10 <= INR (length r) / (INR (length r) + 1) <= 1). { split; apply Rmult_le_reg_r with (INR (length r) + 1); try lra; unfold Rdiv; rewrite (Rmult_assoc (INR (length r))), Rinv_l by lra; lra. } split; [apply Rle_trans with (2 := Rmax_l _ _); lra|apply Rmax_lub; lra]. }
  unfold balanced_cross_entropy. rewrite (BE p), (BE (1 / 2)). set (b := beta_of eps ((1, 0) :: r)) in *. clearbody b. unfold mean. cbn [length]. apply Rmult_lt_compat_r; [apply Rinv_0_lt_compat, lt_0_INR; lia|]. rewrite !sum_cons. apply Rplus_lt_compat_r. cbn [fst snd]. rewrite LP, LH. unfold sigmoid_balanced. destruct (Rle_dec 0 (- 2)); [lra|]. destruct (Rle_dec 0 0); [|lra].
  assert (L1 : ln (1 + exp (- 2)) <= 1 / 5). { assert (X : exp (- 2) <= 1 / 5) by (rewrite EN; apply Rmult_le_reg_r with (exp 2); [lra|]; rewrite Rinv_l by lra; lra). pose proof (exp_pos (- 2)). assert (Y : 1 + exp (-2) <= exp (exp (-2))) by (left; apply exp_ineq1; lra). apply Rle_trans with (exp (- 2)); [|exact X]. rewrite <- (ln_exp (exp (- 2))) at 2. destruct Y as [Y|Y]; [left; apply ln_increasing; [lra|exact Y]|rewrite <- Y; lra]. }
  assert (L2 : 1 / 2 <= ln (1 + exp (- 0))). { rewrite Ropp_0, exp_0. assert (X : exp (1 / 2) <= 2). { apply Rnot_lt_le. intro Q. assert (exp (1 / 2) * exp (1 / 2) = exp 1) by (rewrite <- exp_plus; f_equal; lra). pose proof exp_le_3. nra. } replace (1 + 1) with 2 by lra. rewrite <- (ln_exp (1 / 2)). destruct X as [X|X]; [left; apply ln_increasing; [apply exp_pos|exact X]|rewrite X; lra]. }
  set (u := ln (1 + exp (- 2))) in *. set (v := ln (1 + exp (- 0))) in *. clearbody u v. nra.
Qed.
Print Assumptions C95_loss_direction_refuted.
Example C95_loss_direction_refuted_sat : exists (eps : R) (r : list (R * R)), 0 < eps <= 1 / 10 /\ ((forall c, In c r -> fst c = 0)) /\ (9 <= length r)%nat.
Proof. exists (1/10), (repeat (0, 1) 9). split; [lra|]. split; [|cbn; lia]. intros c H. apply repeat_spec in H. subst c. reflexivity. Qed.

(** * A concrete case *)
Example C95_sat : let l := [(1, 1); (0, 1); (0, 0)] in unit_cells l /\ binary l /\ iou l = 1 / 2 /\ dice_coef 1 l = 3 / 4.
Proof.
  cbv zeta. assert (B : binary [(1, 1); (0, 1); (0, 0)]) by (intros c [<-|[<-|[<-|[]]]]; cbn [fst snd]; split; ((left; lra) || (right; lra))). assert (U : unit_cells [(1, 1); (0, 1); (0, 0)]) by (intros c [<-|[<-|[<-|[]]]]; cbn [fst snd]; lra).
  assert (O1 : one 1 = true) by (unfold one; destruct (Req_EM_T 1 1); [reflexivity|lra]). assert (O0 : one 0 = false) by (unfold one; destruct (Req_EM_T 0 1); [lra|reflexivity]). split; [exact U|]. split; [exact B|]. split.
  - rewrite C95_iou_masks by exact B. unfold either, both, count. cbn [filter fst snd]. rewrite O1, O0. cbn [orb andb length INR]. destruct (Req_EM_T (1 + 1) 0); lra.
  - rewrite C95_dice_masks by exact B. unfold true_cells, predicted_cells, both, count. cbn [filter fst snd]. rewrite O1, O0. cbn [orb andb length INR]. field.
Qed.
