From Coq Require Import List Arith ZArith QArith Qround Reals Lqa Lra Lia Bool.
From Verif Require Import RLib KGridModel FourierModel FourierSpec FourierProofs StatsProps ConvModel ConvSpec ConvProofs ConvProps PadModel PadProps SmoothModel.
Import ListNotations.
Local Open Scope R_scope.

(** * Normalisation *)
Lemma normalise_sum : forall s w, rsum (map w (indices s)) <> 0 -> rsum (map (normalise s w) (indices s)) = 1.
Proof. intros s w H. unfold normalise. rewrite (rsum_ext _ (fun b => w b * / rsum (map w (indices s)))) by (intros; reflexivity). rewrite rsum_scale_r. field. exact H. Qed.
Lemma rsum_pos_one : forall (w : list nat -> R) l b, In b l -> 0 < w b -> (forall c, In c l -> 0 <= w c) -> 0 < rsum (map w l).
Proof.
  induction l as [|a l IH]; intros b I P N; [destruct I|]. cbn [map]. rewrite rsum_cons.
  assert (0 <= rsum (map w l)) by (apply rsum_nonneg; intros v Hv; apply in_map_iff in Hv; destruct Hv as [c [<- Hc]]; apply N; right; exact Hc).
  assert (0 <= w a) by (apply N; left; reflexivity). destruct I as [->|I]; [lra|]. assert (0 < rsum (map w l)) by (apply (IH b I P); intros; apply N; right; assumption). lra.
Qed.
Lemma repeat_valid : forall n d k, (k < n)%nat -> valid (repeat n d) (repeat k d).
Proof. induction d; intros k H; cbn [repeat]; constructor; [exact H|apply IHd; exact H]. Qed.

(** * Gaussian kernels *)
Theorem C41_gauss_kernel : forall dims size sigma fwhm, (0 < size)%nat ->
  (forall b, 0 < gauss_kernel dims size sigma fwhm b) /\
  rsum (map (gauss_kernel dims size sigma fwhm) (indices (repeat size dims))) = 1.
Proof.
  intros dims size sigma fwhm N. unfold gauss_kernel.
  assert (T : 0 < rsum (map (gauss_weight size (gauss_sigma sigma fwhm)) (indices (repeat size dims)))).
  { apply (rsum_pos_one _ _ (repeat 0%nat dims)); [apply indices_valid, repeat_valid, N|apply exp_pos|intros; apply Rlt_le, exp_pos]. }
  split; [|apply normalise_sum; lra]. intro b. unfold normalise. apply Rdiv_lt_0_compat; [apply exp_pos|exact T].
Qed.
Print Assumptions C41_gauss_kernel.
Example C41_gauss_kernel_sat : exists (size : nat), (0 < size)%nat.
Proof. exists 5%nat. repeat split; first [lra | lia | reflexivity | discriminate | congruence | auto]. Qed.
(** The weight falls with the distance from the cell size//2. *)
Definition distance2 (size : nat) (b : list nat) : R := rsum (map (fun k => (INR k - INR (size / 2)) ^ 2) b).
Lemma radius_distance : forall size b, radius2 size b = distance2 size b.
Proof. intros size b. unfold radius2, distance2, offset. apply rsum_ext. intros k _. rewrite minus_IZR, <- !INR_IZR_INZ. ring. Qed.
Theorem C41_gauss_shape : forall dims size sigma b b', (0 < size)%nat -> sigma <> 0 ->
  (gauss_kernel dims size sigma None b' < gauss_kernel dims size sigma None b <-> distance2 size b < distance2 size b').
Proof.
  intros dims size sigma b b' N Z. unfold gauss_kernel, normalise.
  assert (T : 0 < rsum (map (gauss_weight size (gauss_sigma sigma None)) (indices (repeat size dims)))).
  { apply (rsum_pos_one _ _ (repeat 0%nat dims)); [apply indices_valid, repeat_valid, N|apply exp_pos|intros; apply Rlt_le, exp_pos]. }
  set (S0 := rsum _) in *. cbn [gauss_sigma] in *. unfold gauss_weight. rewrite !radius_distance.
  assert (D : 0 < 2 * sigma * sigma) by nra.
  set (u := distance2 size b). set (v := distance2 size b').
  assert (E : exp (- v / (2 * sigma * sigma)) / S0 < exp (- u / (2 * sigma * sigma)) / S0 <-> exp (- v / (2 * sigma * sigma)) < exp (- u / (2 * sigma * sigma))).
  { split; intro H.
    - apply Rmult_lt_reg_r with (/ S0); [apply Rinv_0_lt_compat; exact T|exact H].
    - unfold Rdiv at 1 3. apply Rmult_lt_compat_r; [apply Rinv_0_lt_compat; exact T|exact H]. }
  rewrite E. split; intro H.
  - apply exp_lt_inv in H. unfold Rdiv in H. apply Rmult_lt_reg_r in H; [lra|apply Rinv_0_lt_compat; exact D].
  - apply exp_increasing. unfold Rdiv. apply Rmult_lt_compat_r; [apply Rinv_0_lt_compat; exact D|lra].
Qed.
Example C41_gauss_shape_sat : exists (size : nat) (sigma : R), (0 < size)%nat /\ sigma <> 0.
Proof. exists 5%nat, 2. repeat split; first [lra | lia | reflexivity | discriminate | congruence | auto]. Qed.
(** [fwhm] is the full width at half maximum. *)
Theorem C41_gauss_fwhm : forall dims size sigma f b, (0 < size)%nat -> 0 < f -> length b = dims ->
  distance2 size b = (f / 2) ^ 2 -> gauss_kernel dims size sigma (Some f) b = gauss_kernel dims size sigma (Some f) (repeat (size / 2)%nat dims) / 2.
Proof.
  intros dims size sigma f b N F L D. unfold gauss_kernel, normalise. set (S0 := rsum _). unfold gauss_weight. rewrite !radius_distance, D.
  assert (distance2 size (repeat (size / 2)%nat dims) = 0) as ->.
  { unfold distance2. apply rsum_zero. intros k I. apply repeat_spec in I. subst k. ring. }
  cbn [gauss_sigma]. pose proof ln_lt_2. assert (L2 : 0 < ln 2) by lra. set (s := f / (2 * sqrt (2 * ln 2))).
  assert (SS : 2 * s * s = f * f / (4 * ln 2)).
  { unfold s. pose proof (sqrt_sqrt (2 * ln 2) ltac:(lra)) as Q. assert (0 < sqrt (2 * ln 2)) by (apply sqrt_lt_R0; lra).
    replace (2 * (f / (2 * sqrt (2 * ln 2))) * (f / (2 * sqrt (2 * ln 2)))) with (f * f / (2 * (sqrt (2 * ln 2) * sqrt (2 * ln 2)))) by (field; lra). rewrite Q. field. lra. }
  rewrite SS. replace (- (f / 2) ^ 2 / (f * f / (4 * ln 2))) with (- ln 2) by (field; lra).
  replace (- 0 / (f * f / (4 * ln 2))) with 0 by (field; lra). rewrite exp_Ropp, exp_0, exp_ln by lra.
  unfold Rdiv. ring.
Qed.
Print Assumptions C41_gauss_fwhm.
Example C41_gauss_fwhm_sat : distance2 5 [4; 2]%nat = (4 / 2) ^ 2.
Proof. unfold distance2. cbn [map]. change (5 / 2)%nat with 2%nat. cbn [rsum fold_right]. simpl. lra. Qed.

(** * Top-hat kernels: which cells they contain *)
Lemma half_floor : forall n z, Qfloor ((Z.of_nat n # 2) + inject_Z z) = (Z.of_nat (n / 2) + z)%Z.
Proof.
  intros n z. assert (E : ((Z.of_nat n # 2) + inject_Z z == (Z.of_nat n + 2 * z) # 2)%Q) by (unfold Qeq, Qplus, inject_Z; cbn [Qnum Qden]; change (2 * 1)%positive with 2%positive; lia).
  rewrite (Qfloor_comp _ _ E). cbn [Qfloor]. rewrite Nat2Z.inj_div. change (Z.pos 2) with 2%Z. change (Z.of_nat 2) with 2%Z. Z.div_mod_to_equations. lia.
Qed.
Lemma half_ceil : forall n z, Qceiling ((Z.of_nat n # 2) + inject_Z z) = (Z.of_nat ((n + 1) / 2) + z)%Z.
Proof.
  intros n z. unfold Qceiling. assert (E : (- ((Z.of_nat n # 2) + inject_Z z) == (- (Z.of_nat n + 2 * z)) # 2)%Q) by (unfold Qeq, Qplus, Qopp, inject_Z; cbn [Qnum Qden]; change (2 * 1)%positive with 2%positive; lia).
  rewrite (Qfloor_comp _ _ E). cbn [Qfloor]. rewrite Nat2Z.inj_div, Nat2Z.inj_add. change (Z.pos 2) with 2%Z. change (Z.of_nat 2) with 2%Z. change (Z.of_nat 1) with 1%Z. Z.div_mod_to_equations. lia.
Qed.
Lemma half_sign : forall n z, Qle_bool 0 ((Z.of_nat n # 2) + inject_Z z) = (0 <=? Z.of_nat n + 2 * z)%Z.
Proof. intros n z. unfold Qle_bool, Qplus, inject_Z. cbn [Qnum Qden]. change (2 * 1)%positive with 2%positive. destruct (Z.leb_spec (0 * 2) ((Z.of_nat n * 1 + z * 2) * 1)); destruct (Z.leb_spec 0 (Z.of_nat n + 2 * z)); try reflexivity; lia. Qed.
Lemma idx_low_eq : forall n w, idx_low n w = (let fl := Qfloor (w / 2) in if (2 * fl <=? Z.of_nat n)%Z then Z.of_nat (n / 2) - fl else Z.of_nat ((n + 1) / 2) - fl)%Z.
Proof.
  intros n w. unfold idx_low, truncate. cbv zeta. set (fl := Qfloor (w / 2)).
  assert (E : ((Z.of_nat n # 2) - inject_Z fl = (Z.of_nat n # 2) + inject_Z (- fl))%Q) by reflexivity. rewrite E, half_sign, half_floor, half_ceil.
  destruct (Z.leb_spec 0 (Z.of_nat n + 2 * - fl)); destruct (Z.leb_spec (2 * fl) (Z.of_nat n)); lia.
Qed.
Lemma idx_high_eq : forall n w, (0 <= w)%Q -> idx_high n w = (Z.of_nat (n / 2) + Qceiling (w / 2))%Z.
Proof.
  intros n w W. unfold idx_high, truncate. set (ce := Qceiling (w / 2)). assert (0 <= ce)%Z.
  { unfold ce. assert (P : (0 <= w / 2)%Q) by (apply Qle_shift_div_l; [reflexivity|Lqa.lra]). pose proof (Qle_ceiling (w / 2)). rewrite Zle_Qle. change (inject_Z 0) with 0%Q. Lqa.lra. }
  rewrite half_sign, half_floor, half_ceil. destruct (Z.leb_spec 0 (Z.of_nat n + 2 * ce)); lia.
Qed.
Lemma half_bounds : forall w, (0 < w)%Q -> (0 <= Qfloor (w / 2))%Z /\ (1 <= Qceiling (w / 2))%Z /\ (Qfloor (w / 2) <= Qceiling (w / 2))%Z.
Proof.
  intros w W. assert (P : (0 < w / 2)%Q) by (apply Qlt_shift_div_l; [reflexivity|Lqa.lra]). split; [|split].
  - change 0%Z with (Qfloor 0). apply Qfloor_resp_le. Lqa.lra.
  - pose proof (Qle_ceiling (w / 2)) as C. assert (0 < Qceiling (w / 2))%Z; [|lia]. rewrite Zlt_Qlt. change (inject_Z 0) with 0%Q. Lqa.lra.
  - rewrite Zle_Qle. pose proof (Qle_ceiling (w / 2)). pose proof (Qfloor_le (w / 2)). Lqa.lra.
Qed.

(** Up to about the size of the array the block is the one around the cell size//2 ... *)
Theorem C41_tophat_block : forall n w b, (0 < w)%Q -> (b < n)%nat -> (Qfloor (w / 2) <= (Z.of_nat n + 1) / 2)%Z ->
  (in_block n w b = true <-> (Z.of_nat (n / 2) - Qfloor (w / 2) <= Z.of_nat b < Z.of_nat (n / 2) + Qceiling (w / 2))%Z).
Proof.
  intros n w b W B F. destruct (half_bounds w W) as [F0 [C1 FC]]. unfold in_block. rewrite idx_low_eq, idx_high_eq by Lqa.lra. cbv zeta.
  set (fl := Qfloor (w / 2)) in *. set (ce := Qceiling (w / 2)) in *. rewrite andb_true_iff, Nat.leb_le, Nat.ltb_lt.
  rewrite !Nat2Z.inj_div, Nat2Z.inj_add. change (Z.of_nat 2) with 2%Z. change (Z.of_nat 1) with 1%Z.
  assert (Hh : slice_bound n (Z.of_nat n / 2 + ce) = Nat.min (Z.to_nat (Z.of_nat n / 2 + ce)) n).
  { unfold slice_bound. destruct (Z.ltb_spec (Z.of_nat n / 2 + ce) 0); [Z.div_mod_to_equations; lia|reflexivity]. }
  rewrite Hh. unfold slice_bound.
  destruct (Z.leb_spec (2 * fl) (Z.of_nat n)) as [L|L].
  - destruct (Z.ltb_spec (Z.of_nat n / 2 - fl) 0); Z.div_mod_to_equations; lia.
  - destruct (Z.ltb_spec ((Z.of_nat n + 1) / 2 - fl) 0); Z.div_mod_to_equations; lia.
Qed.
Print Assumptions C41_tophat_block.
Example C41_tophat_block_sat : exists (n : nat) (w : Q) (b : nat), (0 < w)%Q /\ (b < n)%nat /\ (Qfloor (w / 2) <= (Z.of_nat n + 1) / 2)%Z.
Proof. exists 8%nat, 3%Q, 5%nat. repeat split; try lia. vm_compute. discriminate. Qed.
(** ... but a wider top hat wraps its lower bound around and becomes a corner block. *)
Theorem C41_tophat_corner : forall n w b, (0 < w)%Q -> (b < n)%nat -> ((Z.of_nat n + 1) / 2 < Qfloor (w / 2))%Z ->
  (in_block n w b = true <-> (Z.of_nat n + (Z.of_nat n + 1) / 2 - Qfloor (w / 2) <= Z.of_nat b)%Z).
Proof.
  intros n w b W B F. destruct (half_bounds w W) as [F0 [C1 FC]]. unfold in_block. rewrite idx_low_eq, idx_high_eq by Lqa.lra. cbv zeta.
  set (fl := Qfloor (w / 2)) in *. set (ce := Qceiling (w / 2)) in *. rewrite andb_true_iff, Nat.leb_le, Nat.ltb_lt.
  rewrite !Nat2Z.inj_div, Nat2Z.inj_add. change (Z.of_nat 2) with 2%Z. change (Z.of_nat 1) with 1%Z.
  assert (Hh : slice_bound n (Z.of_nat n / 2 + ce) = Nat.min (Z.to_nat (Z.of_nat n / 2 + ce)) n).
  { unfold slice_bound. destruct (Z.ltb_spec (Z.of_nat n / 2 + ce) 0); [Z.div_mod_to_equations; lia|reflexivity]. }
  rewrite Hh. unfold slice_bound.
  destruct (Z.leb_spec (2 * fl) (Z.of_nat n)) as [L|L]; [Z.div_mod_to_equations; lia|].
  destruct (Z.ltb_spec ((Z.of_nat n + 1) / 2 - fl) 0); Z.div_mod_to_equations; lia.
Qed.
Example C41_tophat_corner_sat : in_block 4 (6 # 1) 0 = false /\ in_block 4 (6 # 1) 3 = true. Proof. split; reflexivity. Qed.

Lemma block_nonempty : forall n w, (0 < n)%nat -> (0 < w)%Q -> exists b, (b < n)%nat /\ in_block n w b = true.
Proof.
  intros n w N W. destruct (half_bounds w W) as [F0 [C1 FC]]. destruct (Z_le_gt_dec (Qfloor (w / 2)) ((Z.of_nat n + 1) / 2)) as [H|H].
  - exists (n / 2)%nat. assert (B : (n / 2 < n)%nat) by (destruct n as [|[|n]]; [lia|cbn; lia|apply Nat.div_lt; lia]). split; [exact B|]. apply C41_tophat_block; try assumption. lia.
  - exists (n - 1)%nat. split; [lia|]. apply C41_tophat_corner; try assumption; try lia; Z.div_mod_to_equations; lia.
Qed.
(** Every top hat of positive width is normalised, wide ones included; zero width gives NaN. *)
Theorem C41_tophat_kernel : forall dims n w, (0 < n)%nat -> (0 < w)%Q ->
  exists k, tophat_kernel dims n w = Some k /\ (forall b, 0 <= k b) /\ rsum (map k (indices (repeat n dims))) = 1 /\
  forall b, valid (repeat n dims) b -> (0 < k b <-> Forall (fun c => in_block n w c = true) b).
Proof.
  intros dims n w N W. destruct (block_nonempty n w N W) as [c [C I]]. unfold tophat_kernel.
  assert (V : In (repeat c dims) (indices (repeat n dims))) by (apply indices_valid, repeat_valid, C).
  assert (FR : forallb (in_block n w) (repeat c dims) = true) by (apply forallb_forall; intros x Hx; apply repeat_spec in Hx; subst x; exact I).
  destruct (forallb (fun b => negb (forallb (in_block n w) b)) (indices (repeat n dims))) eqn:E.
  { rewrite forallb_forall in E. specialize (E _ V). rewrite FR in E. discriminate. }
  exists (normalise (repeat n dims) (tophat_weight n w)). split; [reflexivity|].
  assert (T : 0 < rsum (map (tophat_weight n w) (indices (repeat n dims)))).
  { apply (rsum_pos_one _ _ (repeat c dims)); [exact V|unfold tophat_weight; rewrite FR; cbv iota; clear; lra|]. intros v _; unfold tophat_weight; destruct (forallb (in_block n w) v); lra. }
  split; [|split; [apply normalise_sum; lra|]].
  - intro b. unfold normalise, tophat_weight at 1. apply Rmult_le_pos; [destruct (forallb (in_block n w) b); lra|left; apply Rinv_0_lt_compat; exact T].
  - intros b Hb. unfold normalise, tophat_weight at 1. rewrite Forall_forall, <- forallb_forall. destruct (forallb (in_block n w) b); split; intro H; try discriminate; try reflexivity.
    + unfold Rdiv. rewrite Rmult_1_l. apply Rinv_0_lt_compat. exact T.
    + unfold Rdiv in H. rewrite Rmult_0_l in H. lra.
Qed.
Print Assumptions C41_tophat_kernel.
Example C41_tophat_kernel_sat : exists (n : nat) (w : Q), (0 < n)%nat /\ (0 < w)%Q.
Proof. exists 5%nat, 2%Q. repeat split; first [lra | lia | reflexivity | discriminate | congruence | auto]. Qed.
Theorem C41_tophat_zero_width : forall dims n w, (0 < dims)%nat -> (w == 0)%Q -> tophat_kernel dims n w = None.
Proof.
  intros dims n w D W. unfold tophat_kernel.
  assert (forallb (fun b => negb (forallb (in_block n w) b)) (indices (repeat n dims)) = true) as ->; [|reflexivity].
  apply forallb_forall. intros b Hb. apply indices_valid in Hb. destruct dims as [|d]; [lia|]. cbn [repeat] in Hb. inversion Hb as [|? c ? b' Hc]; subst. cbn [forallb].
  assert (in_block n w c = false) as ->; [|reflexivity].
  assert (F : Qfloor (w / 2) = 0%Z) by (rewrite (Qfloor_comp (w / 2) 0); [reflexivity|rewrite W; reflexivity]).
  assert (Cc : Qceiling (w / 2) = 0%Z) by (rewrite (Qceiling_comp (w / 2) 0); [reflexivity|rewrite W; reflexivity]).
  unfold in_block. rewrite idx_low_eq, idx_high_eq by Lqa.lra. cbv zeta. rewrite F, Cc. change (2 * 0)%Z with 0%Z. replace (0 <=? Z.of_nat n)%Z with true by (symmetry; apply Z.leb_le; lia).
  rewrite Z.sub_0_r, Z.add_0_r. apply andb_false_iff. destruct (Nat.leb_spec (slice_bound n (Z.of_nat (n / 2))) c); [right; apply Nat.ltb_ge; lia|left; reflexivity].
Qed.
Example C41_tophat_zero_width_sat : exists (dims : nat) (w : Q), (0 < dims)%nat /\ (w == 0)%Q.
Proof. exists 3%nat, 0%Q. repeat split; first [lra | lia | reflexivity | discriminate | congruence | auto]. Qed.
(** The spherical top hat always contains its centre, so it is normalised too. *)
Theorem C41_sphere_kernel : forall n w, (0 < n)%nat -> 0 <= w ->
  (forall b, 0 <= sphere_kernel n w b) /\ rsum (map (sphere_kernel n w) (indices (repeat n 3))) = 1 /\
  forall b, 0 < sphere_kernel n w b <-> sqrt (distance2 n b) <= w / 2.
Proof.
  intros n w N W. unfold sphere_kernel.
  assert (T : 0 < rsum (map (sphere_weight n w) (indices (repeat n 3)))).
  { apply (rsum_pos_one _ _ (repeat (n / 2)%nat 3)).
    - apply indices_valid, repeat_valid. destruct n as [|[|n]]; [lia|cbn; lia|apply Nat.div_lt; lia].
    - unfold sphere_weight. rewrite radius_distance. assert (distance2 n (repeat (n / 2)%nat 3) = 0) as -> by (unfold distance2; apply rsum_zero; intros k I; apply repeat_spec in I; subst k; ring).
      rewrite sqrt_0. destruct (Rle_dec 0 (0.5 * w)); lra.
    - intros; unfold sphere_weight; destruct (Rle_dec _ _); lra. }
  split; [|split; [apply normalise_sum; lra|]].
  - intro b. unfold normalise, sphere_weight at 1. apply Rmult_le_pos; [destruct (Rle_dec _ _); lra|left; apply Rinv_0_lt_compat; exact T].
  - intro b. unfold normalise, sphere_weight at 1. rewrite radius_distance. destruct (Rle_dec (sqrt (distance2 n b)) (0.5 * w)) as [D|D]; split; intro H.
    + lra.
    + unfold Rdiv. rewrite Rmult_1_l. apply Rinv_0_lt_compat. exact T.
    + unfold Rdiv in H. rewrite Rmult_0_l in H. lra.
    + exfalso. apply D. lra.
Qed.
Print Assumptions C41_sphere_kernel.
Example C41_sphere_kernel_sat : exists (n : nat) (w : R), (0 < n)%nat /\ 0 <= w.
Proof. exists 5%nat, 2. repeat split; first [lra | lia | reflexivity | discriminate | congruence | auto]. Qed.

(** * Smoothing a slice *)
Lemma fits_refl : forall n, fits [n; n] [n; n]. Proof. intro n. repeat constructor. Qed.
(** Gaussian smoothing of a square slice keeps the total and the range of the values. *)
Theorem C41_smooth_gauss : forall n x sigma fwhm lo hi, (0 < n)%nat -> (forall i, valid [n; n] i -> lo <= x i <= hi) ->
  exists out, smooth_gauss n n x sigma fwhm = Some ([n; n], out) /\
  (forall i, valid [n; n] i -> lo <= out i <= hi) /\ rsum (map out (indices [n; n])) = rsum (map x (indices [n; n])).
Proof.
  intros n x sigma fwhm lo hi N B. destruct (C41_gauss_kernel 2 n sigma fwhm N) as [P U]. cbn [repeat] in U.
  assert (Pn : positive [n; n]) by (repeat constructor; exact N).
  unfold smooth_gauss, smooth_with_kernel.
  destruct (C40_between [n; n] [n; n] x (gauss_kernel 2 n sigma fwhm) Circular lo hi (fits_refl n) Pn ltac:(discriminate) (fun k _ => Rlt_le _ _ (P k)) U B) as [out [E O]].
  destruct (C40_circular_total [n; n] [n; n] x (gauss_kernel 2 n sigma fwhm) Same (fits_refl n) Pn ltac:(discriminate)) as [out' [E' T]].
  exists out. split; [exact E|]. split; [exact O|]. rewrite E' in E. injection E as E. subst out'. rewrite T, U. ring.
Qed.
Print Assumptions C41_smooth_gauss.
Example C41_smooth_gauss_sat : exists (n : nat) (x : list nat -> R) (lo : R) (hi : R), (0 < n)%nat /\ (forall i, valid [n; n] i -> lo <= x i <= hi).
Proof. exists 3%nat, (fun i => INR (nth 0 i 0%nat)), 0, 2. split; [lia|]. intros i V. inversion V as [|a b l m A B]; subst. cbn [nth]. split; [apply pos_INR|]. replace 2 with (INR 2) by reflexivity. apply le_INR. lia. Qed.
(** A point source at q comes out with its peak at q for even sizes, but at q-1 (periodically,
    along both axes) for odd sizes: the cell i of the smoothed slice is the kernel, centred on
    its own peak, at the offset i + (n mod 2) - q. *)
Theorem C41_gauss_point_source : forall n sigma fwhm q i, (0 < n)%nat -> valid [n; n] q -> valid [n; n] i ->
  exists out, smooth_gauss n n (impulse q) sigma fwhm = Some ([n; n], out) /\
  out i = gauss_kernel 2 n sigma fwhm (periodic [n; n] (displaced i (half_up [n; n]) q)) /\
  (i = periodic [n; n] (displaced q [- (Z.of_nat n mod 2); - (Z.of_nat n mod 2)]%Z [0; 0]%nat) ->
   out i = gauss_kernel 2 n sigma fwhm [n / 2; n / 2]%nat).
Proof.
  intros n sigma fwhm q i N Hq Hi. set (k := gauss_kernel 2 n sigma fwhm). assert (Pn : positive [n; n]) by (repeat constructor; exact N).
  unfold smooth_gauss, smooth_with_kernel. fold k. destruct (C40_circular [n; n] [n; n] (impulse q) k Same (fits_refl n) Pn ltac:(discriminate)) as [out [E O]].
  exists out. split; [exact E|].
  assert (G : out i = k (periodic [n; n] (displaced i (half_up [n; n]) q))).
  { rewrite (O i Hi). unfold convolution, impulse.
    rewrite (rsum_ext _ (fun b => if list_eqb (periodic [n; n] (displaced i (half_up [n; n]) q)) b then k b else 0)).
    - apply (rsum_delta list_eqb k); [apply list_eqb_spec|apply indices_NoDup|]. apply indices_valid, periodic_valid; [|exact Pn].
      pose proof (valid_length _ _ Hi). pose proof (valid_length _ _ Hq). rewrite displaced_length; unfold half_up; rewrite ?map_length; cbn in *; lia.
    - intros b Hb. apply indices_valid in Hb.
      assert (list_eqb q (periodic [n; n] (displaced i (half_up [n; n]) b)) = list_eqb (periodic [n; n] (displaced i (half_up [n; n]) q)) b) as ->.
      { inversion Hq as [|? q0 ? q' Hq0 Hq']; subst. inversion Hq' as [|? q1 ? q'' Hq1 Hq'']; subst. inversion Hq''; subst.
        inversion Hb as [|? b0 ? b' Hb0 Hb']; subst. inversion Hb' as [|? b1 ? b'' Hb1 Hb'']; subst. inversion Hb''; subst.
        inversion Hi as [|? i0 ? i' Hi0 Hi']; subst. inversion Hi' as [|? i1 ? i'' Hi1 Hi'']; subst. inversion Hi''; subst.
        unfold half_up. cbn [map displaced periodic list_eqb]. set (h := ((Z.of_nat n + 1) / 2)%Z).
        assert (AX : forall a u v, (u < n)%nat -> (v < n)%nat -> (u =? Z.to_nat ((Z.of_nat a + h - Z.of_nat v) mod Z.of_nat n))%nat = (Z.to_nat ((Z.of_nat a + h - Z.of_nat u) mod Z.of_nat n) =? v)%nat).
        { intros a u v Hu Hv. destruct (Nat.eqb_spec u (Z.to_nat ((Z.of_nat a + h - Z.of_nat v) mod Z.of_nat n))) as [E1|E1]; symmetry; [apply Nat.eqb_eq|apply Nat.eqb_neq].
          - apply Nat2Z.inj. rewrite Z2Nat.id by (apply Z.mod_pos_bound; lia). rewrite E1, Z2Nat.id by (apply Z.mod_pos_bound; lia). rewrite Zminus_mod_idemp_r.
            replace (Z.of_nat a + h - (Z.of_nat a + h - Z.of_nat v))%Z with (Z.of_nat v) by ring. apply Z.mod_small. lia.
          - intro F. apply E1. apply Nat2Z.inj. rewrite Z2Nat.id by (apply Z.mod_pos_bound; lia). rewrite <- F, Z2Nat.id by (apply Z.mod_pos_bound; lia). rewrite Zminus_mod_idemp_r.
            replace (Z.of_nat a + h - (Z.of_nat a + h - Z.of_nat u))%Z with (Z.of_nat u) by ring. symmetry. apply Z.mod_small. lia. }
        rewrite !AX by assumption. reflexivity. }
      destruct (list_eqb _ b); ring. }
  split; [exact G|]. intro Ei. rewrite G. f_equal.
  inversion Hq as [|? q0 ? q' Hq0 Hq']; subst. inversion Hq' as [|? q1 ? q'' Hq1 Hq'']; subst. inversion Hq''; subst.
  unfold half_up. cbn [map displaced periodic].
  assert (AX : forall u, (u < n)%nat -> Z.to_nat ((Z.of_nat (Z.to_nat ((Z.of_nat u + - (Z.of_nat n mod 2) - Z.of_nat 0) mod Z.of_nat n)) + (Z.of_nat n + 1) / 2 - Z.of_nat u) mod Z.of_nat n) = (n / 2)%nat).
  { intros u Hu. rewrite Z2Nat.id by (apply Z.mod_pos_bound; lia).
    replace ((Z.of_nat u + - (Z.of_nat n mod 2) - Z.of_nat 0) mod Z.of_nat n + (Z.of_nat n + 1) / 2 - Z.of_nat u)%Z with ((Z.of_nat u + - (Z.of_nat n mod 2) - Z.of_nat 0) mod Z.of_nat n + ((Z.of_nat n + 1) / 2 - Z.of_nat u))%Z by ring.
    rewrite Zplus_mod_idemp_l. assert ((Z.of_nat u + - (Z.of_nat n mod 2) - Z.of_nat 0 + ((Z.of_nat n + 1) / 2 - Z.of_nat u)) = Z.of_nat n / 2)%Z as -> by (change (Z.of_nat 0) with 0%Z; clear; Z.div_mod_to_equations; lia).
    rewrite Z.mod_small by (split; [apply Z.div_pos; lia|apply Z.div_lt_upper_bound; lia]). apply Nat2Z.inj. rewrite Z2Nat.id by (apply Z.div_pos; lia). rewrite Nat2Z.inj_div. reflexivity. }
  rewrite !AX by assumption. reflexivity.
Qed.
Print Assumptions C41_gauss_point_source.
Example C41_gauss_point_source_sat : exists (n : nat) (q : list nat) (i : list nat), (0 < n)%nat /\ valid [n; n] q /\ valid [n; n] i.
Proof. exists 5%nat, [2; 3]%nat, [4; 1]%nat. repeat constructor; lia. Qed.

(** * Top-hat smoothing *)
(** Widths that fit: at most n/2 cells below the centre and (n+1)/2 from it on. *)
Definition below (w : Q) : nat := Z.to_nat (Qfloor (w / 2)).
Definition above (w : Q) : nat := Z.to_nat (Qceiling (w / 2)).
Definition cells (w : Q) : nat := below w + above w.
Definition width_fits (n : nat) (w : Q) : Prop := (0 < w)%Q /\ (below w <= n / 2)%nat /\ (above w <= (n + 1) / 2)%nat.

Lemma sum2 : forall n m (f : list nat -> R), rsum (map f (indices [n; m])) = rsum (map (fun a => rsum (map (fun b => f [a; b]) (seq 0 m))) (seq 0 n)).
Proof. intros n m f. rewrite rsum_indices_cons. apply rsum_ext. intros a _. rewrite rsum_indices_cons. apply rsum_ext. intros b _. cbn. lra. Qed.
Lemma block_sum : forall n lo k (p : nat -> bool) (g : nat -> R), (lo + k <= n)%nat -> (forall b, (b < n)%nat -> p b = true <-> (lo <= b < lo + k)%nat) ->
  rsum (map (fun b => if p b then g b else 0) (seq 0 n)) = rsum (map (fun t => g (lo + t)%nat) (seq 0 k)).
Proof.
  intros n lo k p g L H. replace n with (lo + (k + (n - lo - k)))%nat by lia. rewrite !seq_app, !map_app, !rsum_app. cbn [Nat.add].
  rewrite (rsum_zero _ (seq 0 lo)), (rsum_zero _ (seq (lo + k) (n - lo - k))).
  - rewrite (rsum_ext _ g (seq lo k)).
    + assert (E : seq lo k = map (fun t => (lo + t)%nat) (seq 0 k)).
      { clear. revert lo. induction k; intro lo; [reflexivity|]. cbn [seq map]. rewrite Nat.add_0_r. f_equal. rewrite IHk, <- seq_shift, map_map. apply map_ext. intro. lia. }
      rewrite E, map_map. lra.
    + intros b I. apply in_seq in I. replace (p b) with true; [reflexivity|]. symmetry. apply H; lia.
  - intros b I. apply in_seq in I. destruct (p b) eqn:E; [|reflexivity]. apply H in E; lia.
  - intros b I. apply in_seq in I. destruct (p b) eqn:E; [|reflexivity]. apply H in E; lia.
Qed.
Lemma block_fits : forall n w b, width_fits n w -> (b < n)%nat -> (in_block n w b = true <-> (n / 2 - below w <= b < n / 2 - below w + cells w)%nat).
Proof.
  intros n w b [W [B A]] Hb. destruct (half_bounds w W) as [F0 [C1 FC]]. rewrite C41_tophat_block; [|exact W|exact Hb|].
  - unfold cells, below, above in *. rewrite Nat2Z.inj_div. change (Z.of_nat 2) with 2%Z. assert (Z.of_nat (n / 2) = Z.of_nat n / 2)%Z by (rewrite Nat2Z.inj_div; reflexivity). lia.
  - unfold below in B. assert (Z.of_nat (n / 2) = Z.of_nat n / 2)%Z by (rewrite Nat2Z.inj_div; reflexivity). clear -B H F0. Z.div_mod_to_equations. lia.
Qed.
Lemma cells_pos : forall n w, width_fits n w -> (0 < cells w)%nat.
Proof. intros n w [W _]. destruct (half_bounds w W) as [_ [C1 _]]. unfold cells, above. lia. Qed.
Lemma cells_le : forall n w, width_fits n w -> (n / 2 - below w + cells w <= n)%nat.
Proof. intros n w [W [B A]]. unfold cells. assert (n / 2 + (n + 1) / 2 = n)%nat; [|lia]. apply Nat2Z.inj. rewrite Nat2Z.inj_add, !Nat2Z.inj_div, Nat2Z.inj_add. change (Z.of_nat 2) with 2%Z. change (Z.of_nat 1) with 1%Z. clear. Z.div_mod_to_equations. lia. Qed.

Lemma tophat_convolution : forall n w (g : list nat -> R), (0 < n)%nat -> width_fits n w ->
  exists k, tophat_kernel 2 n w = Some k /\
  rsum (map (fun b => k b * g b) (indices [n; n])) =
  rsum (map (fun t => rsum (map (fun u => g [n / 2 - below w + t; n / 2 - below w + u]%nat) (seq 0 (cells w)))) (seq 0 (cells w))) / (INR (cells w) * INR (cells w)).
Proof.
  intros n w g N WF. pose proof WF as [W _]. destruct (C41_tophat_kernel 2 n w N W) as [k [E _]]. exists k. split; [exact E|].
  unfold tophat_kernel in E. destruct (forallb _ (indices (repeat n 2))) in E; [discriminate|]. injection E as <-. cbn [repeat]. set (K := cells w). set (lo := (n / 2 - below w)%nat).
  assert (G : forall h : list nat -> R, rsum (map (fun b => tophat_weight n w b * h b) (indices [n; n])) = rsum (map (fun t => rsum (map (fun u => h [lo + t; lo + u]%nat) (seq 0 K))) (seq 0 K))).
  { intro h. rewrite sum2. rewrite (rsum_ext _ (fun a => if in_block n w a then rsum (map (fun u => h [a; lo + u]%nat) (seq 0 K)) else 0)).
    - apply (block_sum n lo K (in_block n w) (fun a => rsum (map (fun u => h [a; lo + u]%nat) (seq 0 K)))); [apply cells_le; exact WF|intros b Hb; apply block_fits; assumption].
    - intros a Ha. unfold tophat_weight. cbn [forallb]. destruct (in_block n w a).
      + rewrite (rsum_ext _ (fun b => if in_block n w b then h [a; b] else 0)) by (intros b _; rewrite andb_true_r; cbn [andb]; destruct (in_block n w b); ring).
        apply (block_sum n lo K (in_block n w) (fun b => h [a; b])); [apply cells_le; exact WF|intros b Hb; apply block_fits; assumption].
      + apply rsum_zero. intros b _. cbn [andb]. ring. }
  unfold normalise. assert (T : rsum (map (tophat_weight n w) (indices [n; n])) = INR K * INR K).
  { rewrite (rsum_ext _ (fun b => tophat_weight n w b * 1)) by (intros; ring). rewrite (G (fun _ => 1)). rewrite !rsum_const, !seq_length. ring. }
  rewrite T. rewrite (rsum_ext _ (fun b => tophat_weight n w b * g b * / (INR K * INR K))) by (intros; unfold Rdiv; ring). rewrite rsum_scale_r, G. reflexivity.
Qed.

(** A slice with an odd number of cells comes out as the mean over a square window of the
    periodic slice, centred on the NEXT cell in both directions: cells i+2-above .. i+1+below. *)
Theorem C41_smooth_tophat_odd : forall n x w, Nat.odd n = true -> width_fits n w ->
  exists out, smooth_tophat n x w = Some ([n; n], out) /\ forall i j, (i < n)%nat -> (j < n)%nat ->
  out [i; j] = rsum (map (fun t => rsum (map (fun u => x (periodic [n; n]
     [Z.of_nat i + 1 + Z.of_nat (below w) - Z.of_nat t; Z.of_nat j + 1 + Z.of_nat (below w) - Z.of_nat u]%Z)) (seq 0 (cells w)))) (seq 0 (cells w))) / (INR (cells w) * INR (cells w)).
Proof.
  intros n x w O WF. assert (N : (0 < n)%nat) by (destruct n; [discriminate|lia]). unfold smooth_tophat. rewrite <- Nat.negb_odd, O. cbn [negb]. unfold smooth_odd.
  destruct (tophat_convolution n w (fun _ => 0) N WF) as [k [E _]]. rewrite E.
  destruct (C40_circular [n; n] [n; n] x k Same (fits_refl n) ltac:(repeat constructor; exact N) ltac:(discriminate)) as [out [F Q]]. unfold smooth_with_kernel. rewrite F. exists out. split; [reflexivity|].
  intros i j Hi Hj. rewrite Q by (repeat constructor; assumption). unfold convolution.
  destruct (tophat_convolution n w (fun b => x (periodic [n; n] (displaced [i; j] (half_up [n; n]) b))) N WF) as [k' [E' C]]. rewrite E in E'. injection E' as E'. subst k'. rewrite C. f_equal.
  apply rsum_ext. intros t Ht. apply in_seq in Ht. apply rsum_ext. intros u Hu. apply in_seq in Hu. f_equal. unfold half_up. cbn [map displaced]. f_equal.
  apply Nat.odd_spec in O. destruct O as [m M]. assert (n / 2 = m)%nat as H2 by (subst n; rewrite Nat.add_comm, Nat.mul_comm, Nat.div_add by lia; reflexivity).
  assert ((Z.of_nat n + 1) / 2 = Z.of_nat m + 1)%Z as H3 by (subst n; replace (Z.of_nat (2 * m + 1) + 1)%Z with ((Z.of_nat m + 1) * 2)%Z by lia; apply Z.div_mul; lia).
  rewrite H2, H3. destruct WF as [_ [B _]]. f_equal; [lia|f_equal; lia].
Qed.
Print Assumptions C41_smooth_tophat_odd.
Example C41_smooth_tophat_odd_sat : exists (n : nat) (w : Q), Nat.odd n = true /\ width_fits n w.
Proof. exists 9%nat, 3%Q. split; [reflexivity|]. split; [reflexivity|]. split; vm_compute; lia. Qed.
Lemma width_fits_succ : forall n w, Nat.even n = true -> width_fits n w -> width_fits (n + 1) w.
Proof. intros n w E [W [B A]]. split; [exact W|]. split; [eapply Nat.le_trans; [exact B|apply Nat.div_le_mono; lia]|eapply Nat.le_trans; [exact A|apply Nat.div_le_mono; lia]]. Qed.
(** Even sizes go through a slice with one more (repeated) row and column. *)
Theorem C41_smooth_tophat_even : forall n x w, (0 < n)%nat -> Nat.even n = true -> width_fits n w ->
  exists out, smooth_tophat n x w = Some ([n; n], out) /\ forall i j, (i < n)%nat -> (j < n)%nat ->
  out [i; j] = rsum (map (fun t => rsum (map (fun u =>
     let cell k v := (Z.to_nat ((Z.of_nat k + 1 + Z.of_nat (below w) - Z.of_nat v) mod (Z.of_nat n + 1)) mod n)%nat in x [cell i t; cell j u])
     (seq 0 (cells w)))) (seq 0 (cells w))) / (INR (cells w) * INR (cells w)).
Proof.
  intros n x w N E WF. destruct (C42_padded_slice 0 n n (as_fun2 x) (n + 1) N ltac:(auto) ltac:(lia)) as [p [EP P]].
  assert (O : Nat.odd (n + 1) = true) by (rewrite Nat.add_1_r, Nat.odd_succ; exact E).
  destruct (C41_smooth_tophat_odd (n + 1) (as_array p) w O (width_fits_succ n w E WF)) as [out [Eo Fo]].
  unfold smooth_tophat at 1. rewrite E, EP. unfold smooth_tophat in Eo. rewrite <- Nat.negb_odd, O in Eo. cbn [negb] in Eo. rewrite Eo. exists out. split; [reflexivity|].
  intros i j Hi Hj. rewrite Fo by lia. f_equal. apply rsum_ext. intros t _. apply rsum_ext. intros u _. cbn [periodic]. unfold as_array. cbn [nth].
  assert (B : forall z, (Z.to_nat (z mod Z.of_nat (n + 1)) < n + 1)%nat) by (intro z; pose proof (Z.mod_pos_bound z (Z.of_nat (n + 1)) ltac:(lia)); lia).
  rewrite P by apply B. unfold as_fun2. replace (Z.of_nat (n + 1)) with (Z.of_nat n + 1)%Z by lia. reflexivity.
Qed.
Print Assumptions C41_smooth_tophat_even.
Example C41_smooth_tophat_even_sat : exists (n : nat) (w : Q), (0 < n)%nat /\ Nat.even n = true /\ width_fits n w.
Proof. exists 8%nat, 3%Q. split; [lia|]. split; [reflexivity|]. split; [reflexivity|]. split; vm_compute; lia. Qed.
Lemma width_one_fits : forall n, (0 < n)%nat -> width_fits n 1 /\ below 1 = 0%nat /\ cells 1 = 1%nat.
Proof. intros n N. unfold width_fits. change (below 1) with 0%nat. change (above 1) with 1%nat. change (cells 1) with 1%nat. repeat split; try lia. apply Nat.div_le_lower_bound; lia. Qed.
(** So a top hat one cell wide, which should do nothing, moves the slice by one cell along
    both axes, whatever the size. [resample_slice] uses it when it does not coarsen. *)
Theorem C41_width_one_shifts : forall n x, (0 < n)%nat ->
  exists out, smooth_tophat n x 1 = Some ([n; n], out) /\ forall i j, (i < n)%nat -> (j < n)%nat -> out [i; j] = x [(i + 1) mod n; (j + 1) mod n]%nat.
Proof.
  intros n x N. destruct (width_one_fits n N) as [WF [B C]]. destruct (Nat.even n) eqn:E.
  - destruct (C41_smooth_tophat_even n x 1 N E WF) as [out [Eo Fo]]. exists out. split; [exact Eo|]. intros i j Hi Hj. rewrite Fo by assumption. rewrite B, C. cbn [seq map rsum fold_right]. change (INR 1) with 1.
    assert (AX : forall k, (k < n)%nat -> (Z.to_nat ((Z.of_nat k + 1 + Z.of_nat 0 - Z.of_nat 0) mod (Z.of_nat n + 1)) mod n = (k + 1) mod n)%nat).
    { intros k Hk. f_equal. change (Z.of_nat 0) with 0%Z. rewrite Z.mod_small by lia. lia. }
    cbv zeta. rewrite !AX by assumption. field.
  - assert (O : Nat.odd n = true) by (unfold Nat.odd; rewrite E; reflexivity).
    destruct (C41_smooth_tophat_odd n x 1 O WF) as [out [Eo Fo]]. exists out. split; [exact Eo|]. intros i j Hi Hj. rewrite Fo by assumption. rewrite B, C. cbn [seq map rsum fold_right periodic]. change (INR 1) with 1.
    assert (AX : forall k, (k < n)%nat -> (Z.to_nat ((Z.of_nat k + 1 + Z.of_nat 0 - Z.of_nat 0) mod Z.of_nat n) = (k + 1) mod n)%nat).
    { intros k Hk. change (Z.of_nat 0) with 0%Z. apply Nat2Z.inj. rewrite Z2Nat.id by (apply Z.mod_pos_bound; lia). rewrite Nat2Z.inj_mod. f_equal. lia. }
    rewrite !AX by assumption. field.
Qed.
Print Assumptions C41_width_one_shifts.
Example C41_width_one_shifts_sat : exists (n : nat), (0 < n)%nat.
Proof. exists 5%nat. repeat split; first [lra | lia | reflexivity | discriminate | congruence | auto]. Qed.
Example C41_width_fits_sat : width_fits 8 (3 # 1) /\ cells (3 # 1) = 3%nat /\ cells (7 # 2) = 3%nat /\ cells (9 # 2) = 5%nat.
Proof. unfold width_fits. repeat split; cbn; lia. Qed.

(** * [smooth_coeval_tophat] also smooths across one sky axis *)
Theorem C41_coeval_tophat : forall n cube w nu, (0 < n)%nat -> width_fits n w ->
  exists out, smooth_coeval_tophat n cube w nu = Some out /\ forall i a b, (i < n)%nat -> (a < n)%nat -> (b < n)%nat ->
  let mean (f : nat -> nat -> R) a b := rsum (map (fun t => rsum (map (fun u =>
      let cell k v := Z.to_nat ((Z.of_nat k + (Z.of_nat n + 1) / 2 - Z.of_nat (n / 2 - below w + v)) mod Z.of_nat n) in f (cell a t) (cell b u))
      (seq 0 (cells w)))) (seq 0 (cells w))) / (INR (cells w) * INR (cells w)) in
  if Nat.eqb nu 0 then out a i b = mean (fun a' b' => cube a' i b') a b else out i a b = mean (fun a' b' => cube i a' b') a b.
Proof.
  intros n cube w nu N WF. destruct (tophat_convolution n w (fun _ => 0) N WF) as [k [E _]]. unfold smooth_coeval_tophat. rewrite E.
  assert (G : forall f a b, (a < n)%nat -> (b < n)%nat -> match smooth_with_kernel [n; n] [n; n] (as_array f) k with Some (_, o) => o [a; b] | None => 0 end =
     rsum (map (fun t => rsum (map (fun u => let cell k v := Z.to_nat ((Z.of_nat k + (Z.of_nat n + 1) / 2 - Z.of_nat (n / 2 - below w + v)) mod Z.of_nat n) in f (cell a t) (cell b u))
      (seq 0 (cells w)))) (seq 0 (cells w))) / (INR (cells w) * INR (cells w))).
  { intros f a b Ha Hb. unfold smooth_with_kernel. destruct (C40_circular [n; n] [n; n] (as_array f) k Same (fits_refl n) ltac:(repeat constructor; exact N) ltac:(discriminate)) as [out [F Q]]. rewrite F.
    rewrite Q by (repeat constructor; assumption). unfold convolution. destruct (tophat_convolution n w (fun c => as_array f (periodic [n; n] (displaced [a; b] (half_up [n; n]) c))) N WF) as [k' [E' C]].
    rewrite E in E'. injection E' as E'. subst k'. rewrite C. reflexivity. }
  destruct (Nat.eqb nu 0) eqn:U; eexists; (split; [reflexivity|]); intros i a b Hi Ha Hb; cbv zeta; apply G; assumption.
Qed.
Print Assumptions C41_coeval_tophat.
Example C41_coeval_tophat_sat : exists (n : nat) (w : Q), (0 < n)%nat /\ width_fits n w.
Proof. exists 8%nat, 3%Q. split; [lia|]. split; [reflexivity|]. split; vm_compute; lia. Qed.
(** So a cube that does not change along the line of sight (axis 2), and is already free of
    frequency structure, is still smoothed: along axis 1. *)
Corollary C41_coeval_tophat_smooths_the_sky : forall n (f : nat -> nat -> R) w, (0 < n)%nat -> width_fits n w ->
  exists out, smooth_coeval_tophat n (fun i j _ => f i j) w 2 = Some out /\ forall i a b, (i < n)%nat -> (a < n)%nat -> (b < n)%nat ->
  out i a b = rsum (map (fun t => f i (Z.to_nat ((Z.of_nat a + (Z.of_nat n + 1) / 2 - Z.of_nat (n / 2 - below w + t)) mod Z.of_nat n))) (seq 0 (cells w))) / INR (cells w).
Proof.
  intros n f w N WF. destruct (C41_coeval_tophat n (fun i j _ => f i j) w 2 N WF) as [out [E O]]. exists out. split; [exact E|]. intros i a b Hi Ha Hb.
  specialize (O i a b Hi Ha Hb). cbv zeta in O. cbn [Nat.eqb] in O. rewrite O. pose proof (lt_0_INR _ (cells_pos n w WF)) as C.
  rewrite (rsum_ext _ (fun t => f i (Z.to_nat ((Z.of_nat a + (Z.of_nat n + 1) / 2 - Z.of_nat (n / 2 - below w + t)) mod Z.of_nat n)) * INR (cells w))) by (intros t _; rewrite rsum_const, seq_length; ring).
  rewrite rsum_scale_r. field. lra.
Qed.
