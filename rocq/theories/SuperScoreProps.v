(** C96: scores and estimates from superpixels. *)
From Coq Require Import List Arith ZArith Bool Lia Reals Lra Sorting.Permutation Sorting.Sorted.
From Verif Require Import RLib StatsModel SuperpixelModel SuperpixelSpec SuperpixelProps SuperScoreModel.
Import ListNotations.
Local Open Scope R_scope.

(** * Specification *)
Definition superpixels (cells : list (Z * Z)) : list Z := unique (map fst cells).
Definition regions (cells : list (Z * Z)) : list Z := unique (map snd cells).
(** Every superpixel lies in one region. *)
Definition refines (cells : list (Z * Z)) : Prop := forall c c', In c cells -> In c' cells -> fst c = fst c' -> snd c = snd c'.

(** * Sums over a partition *)
Lemma ind_sum : forall (T : list Z) z v, NoDup T -> In z T -> rsum (map (fun i => if Z.eqb z i then v else 0) T) = v.
Proof.
  induction T as [|t T IH]; intros z v N I; [destruct I|]. inversion N as [|? ? N1 N2]; subst. unfold rsum in *. cbn [map fold_right]. destruct (Z.eqb_spec z t) as [->|D].
  - assert (Q : fold_right Rplus 0 (map (fun i => if Z.eqb t i then v else 0) T) = 0); [|rewrite Q; lra]. apply (rsum_zero (fun i => if Z.eqb t i then v else 0) T). intros x X. destruct (Z.eqb_spec t x) as [->|]; [contradiction|reflexivity].
  - rewrite IH; [lra|exact N2|destruct I as [I|I]; [symmetry in I; contradiction|exact I]].
Qed.
Lemma count_sum : forall {A} (p : A -> bool) l, INR (length (filter p l)) = rsum (map (fun c => if p c then 1 else 0) l).
Proof. intros A p l. unfold rsum. induction l as [|a l IH]; [reflexivity|]. cbn [filter map fold_right]. destruct (p a); [cbn [length]; rewrite S_INR|]; rewrite IH; lra. Qed.
Lemma size_total : forall cells, rsum (map (size_of cells) (superpixels cells)) = INR (length cells).
Proof.
  intro cells. unfold size_of. rewrite (rsum_ext _ (fun j => rsum (map (fun c => if Z.eqb (fst c) j then 1 else 0) cells))) by (intros; apply count_sum). rewrite rsum_swap. rewrite (rsum_ext _ (fun _ => 1)); [rewrite rsum_const; lra|]. intros c C. apply ind_sum; [apply sorted_nodup, unique_sorted|]. apply unique_in, in_map, C.
Qed.
Lemma overlap_total : forall cells j, rsum (map (fun i => overlap cells i j) (regions cells)) = size_of cells j.
Proof.
  intros cells j. unfold overlap, size_of. rewrite count_sum. rewrite (rsum_ext _ (fun i => rsum (map (fun c => if Z.eqb (snd c) i && Z.eqb (fst c) j then 1 else 0) cells))) by (intros; apply (count_sum (fun c : Z * Z => Z.eqb (snd c) x && Z.eqb (fst c) j))). rewrite rsum_swap. apply rsum_ext. intros c C. destruct (Z.eqb (fst c) j).
  - rewrite (rsum_ext _ (fun i => if Z.eqb (snd c) i then 1 else 0)) by (intros; rewrite andb_true_r; reflexivity). apply ind_sum; [apply sorted_nodup, unique_sorted|apply unique_in, in_map, C].
  - apply rsum_zero. intros. rewrite andb_false_r. reflexivity.
Qed.
Lemma size_pos : forall cells j, In j (superpixels cells) -> 0 < size_of cells j.
Proof.
  intros cells j I. apply unique_in, in_map_iff in I. destruct I as (c & E & C). unfold size_of. apply lt_0_INR. destruct (filter (fun c => Z.eqb (fst c) j) cells) eqn:F; [|cbn; lia]. exfalso. assert (X : In c (filter (fun c => Z.eqb (fst c) j) cells)) by (apply filter_In; split; [exact C|apply Z.eqb_eq, E]). rewrite F in X. destruct X.
Qed.
Lemma overlap_nonneg : forall cells i j, 0 <= overlap cells i j. Proof. intros. apply pos_INR. Qed.
(** Regions leaking into a superpixel. *)
Definition hits (cells : list (Z * Z)) (b : R) (j : Z) : R := rsum (map (fun i => if Rlt_dec (b * size_of cells j) (overlap cells i j) then 1 else 0) (regions cells)).
Lemma error_hits : forall cells b, cells <> [] -> under_segmentation_error cells b = rsum (map (fun j => size_of cells j * (hits cells b j - 1)) (superpixels cells)) / INR (length cells).
Proof.
  intros cells b N. unfold under_segmentation_error. f_equal. rewrite <- (size_total cells) at 1. unfold leaking. rewrite rsum_swap. fold (superpixels cells). fold (regions cells). rewrite <- rsum_minus. apply rsum_ext. intros j _. unfold hits. rewrite Rmult_minus_distr_l, Rmult_1_r. f_equal. rewrite <- rsum_scale. apply rsum_ext. intros i _. destruct (Rlt_dec _ _); lra.
Qed.
Lemma length_pos : forall {A} (l : list A), l <> [] -> 0 < INR (length l).
Proof. intros A l N. apply lt_0_INR. destruct l; [contradiction N; reflexivity|cbn; lia]. Qed.
Lemma many : forall (T : list Z) (o : Z -> R) t, (forall i, 0 <= o i) -> 0 <= t -> let c := rsum (map (fun i => if Rlt_dec t (o i) then 1 else 0) T) in c * t <= rsum (map o T) /\ (0 < c -> c * t < rsum (map o T)) /\ (c = 0 \/ 1 <= c) /\ (c < 2 -> c <= 1) /\ (c = 0 <-> forall i, In i T -> o i <= t) /\ 0 <= c <= INR (length T).
Proof.
  intros T o t O P. cbv zeta. assert (K : exists k : nat, rsum (map (fun i => if Rlt_dec t (o i) then 1 else 0) T) = INR k). { exists (length (filter (fun i => if Rlt_dec t (o i) then true else false) T)). rewrite count_sum. apply rsum_ext. intros i _. destruct (Rlt_dec t (o i)); reflexivity. }
  assert (A : rsum (map (fun i => if Rlt_dec t (o i) then 1 else 0) T) * t <= rsum (map o T) /\ (0 < rsum (map (fun i => if Rlt_dec t (o i) then 1 else 0) T) -> rsum (map (fun i => if Rlt_dec t (o i) then 1 else 0) T) * t < rsum (map o T)) /\ (rsum (map (fun i => if Rlt_dec t (o i) then 1 else 0) T) = 0 <-> forall i, In i T -> o i <= t) /\ 0 <= rsum (map (fun i => if Rlt_dec t (o i) then 1 else 0) T) <= INR (length T)).
  { clear K. induction T as [|i T IH]; [cbn; split; [lra|split; [lra|split; [split; [intros _ ? []|reflexivity]|lra]]]|]. cbn [length]. rewrite S_INR. unfold rsum in *. cbn [map fold_right]. set (c := fold_right Rplus 0 (map (fun i => if Rlt_dec t (o i) then 1 else 0) T)) in *. set (s := fold_right Rplus 0 (map o T)) in *. clearbody c s. destruct IH as (I1 & I2 & I3 & I4). specialize (O i). destruct (Rlt_dec t (o i)) as [L|L].
    - split; [nra|]. split; [intros _; nra|]. split; [|lra]. split; [intro; lra|intro H; specialize (H i (or_introl eq_refl)); lra].
    - split; [lra|]. split; [intro Q; assert (0 < c) as Q' by lra; specialize (I2 Q'); lra|]. split; [|lra]. split; [intros Z k [<-|Kk]; [lra|apply I3; [lra|exact Kk]]|intro H; assert (c = 0) by (apply I3; intros k Kk; apply H; right; exact Kk); lra]. }
  destruct A as (A1 & A2 & A3 & A4). destruct K as (k & K). rewrite K in *. split; [exact A1|]. split; [exact A2|]. split; [destruct k; [left; reflexivity|right; apply (le_INR 1); lia]|]. split; [|split; [exact A3|exact A4]].
  intro Q. apply (INR_lt k 2) in Q. apply (le_INR k 1). lia.
Qed.

(** * The under-segmentation error *)
Lemma hits_facts : forall cells b j, 0 <= b -> In j (superpixels cells) -> let c := hits cells b j in (0 < c -> c * b < 1) /\ (c = 0 \/ 1 <= c) /\ (c < 2 -> c <= 1) /\ (c = 0 <-> forall i, In i (regions cells) -> overlap cells i j <= b * size_of cells j) /\ 0 <= c <= INR (length (regions cells)).
Proof.
  intros cells b j B J. cbv zeta. pose proof (size_pos cells j J) as S. destruct (many (regions cells) (fun i => overlap cells i j) (b * size_of cells j) (fun i => overlap_nonneg cells i j) ltac:(apply Rmult_le_pos; lra)) as (_ & M2 & M3 & M4 & M5 & M6). fold (hits cells b j) in *. rewrite overlap_total in M2. split; [|tauto]. intro P. specialize (M2 P). apply Rmult_lt_reg_r with (size_of cells j); [exact S|]. lra.
Qed.
Lemma error_le : forall cells b m, cells <> [] -> (forall j, In j (superpixels cells) -> hits cells b j - 1 <= m) -> under_segmentation_error cells b <= m.
Proof.
  intros cells b m N H. rewrite error_hits by exact N. pose proof (length_pos cells N) as P. apply Rmult_le_reg_r with (INR (length cells)); [exact P|]. unfold Rdiv. rewrite Rmult_assoc, Rinv_l, Rmult_1_r by lra. rewrite <- (size_total cells), (Rmult_comm m), <- rsum_scale_r. apply rsum_le. intros j J. apply Rmult_le_compat_l; [left; apply size_pos, J|apply H, J].
Qed.
Lemma error_ge : forall cells b m, cells <> [] -> (forall j, In j (superpixels cells) -> m <= hits cells b j - 1) -> m <= under_segmentation_error cells b.
Proof.
  intros cells b m N H. rewrite error_hits by exact N. pose proof (length_pos cells N) as P. apply Rmult_le_reg_r with (INR (length cells)); [exact P|]. unfold Rdiv. rewrite Rmult_assoc, Rinv_l, Rmult_1_r by lra. rewrite <- (size_total cells), (Rmult_comm m), <- rsum_scale_r. apply rsum_le. intros j J. apply Rmult_le_compat_l; [left; apply size_pos, J|apply H, J].
Qed.
(** Bounds for every tolerance: the documented error may be negative. *)
Theorem C96_error_bounds : forall cells b, cells <> [] -> 0 <= b -> let U := under_segmentation_error cells b in let k := INR (length (regions cells)) in
  -1 <= U <= k - 1 /\ (0 < b -> U < 1 / b - 1 \/ U = -1) /\ (1 / 2 <= b -> U <= 0) /\ (1 <= b -> U = -1) /\ (b * k < 1 -> 0 <= U).
Proof.
  intros cells b N B. cbv zeta. split; [|split; [|split; [|split]]].
  - split; [apply error_ge|apply error_le]; try exact N; intros j J; destruct (hits_facts cells b j B J) as (_ & _ & _ & _ & H); lra.
  - intro P. assert (IB : 0 < / b) by (apply Rinv_0_lt_compat, P). assert (F : forall j, In j (superpixels cells) -> hits cells b j < / b). { intros j J. destruct (hits_facts cells b j B J) as (H1 & H2 & _ & _ & _). destruct (Rlt_le_dec 0 (hits cells b j)) as [Q|Q]; [|lra]. specialize (H1 Q). apply Rmult_lt_reg_r with b; [exact P|]. rewrite Rinv_l by lra. exact H1. }
    left. rewrite error_hits by exact N. pose proof (length_pos cells N) as PN. apply Rmult_lt_reg_r with (INR (length cells)); [exact PN|]. unfold Rdiv. rewrite Rmult_assoc, Rinv_l, Rmult_1_r, Rmult_1_l by lra. rewrite <- (size_total cells), (Rmult_comm (/ b - 1)), <- rsum_scale_r.
    assert (NE : superpixels cells <> []). { destruct cells as [|c cells]; [contradiction N; reflexivity|]. intro Q. assert (X : In (fst c) (superpixels (c :: cells))) by (apply unique_in; left; reflexivity). rewrite Q in X. destruct X. }
    assert (ST : forall l, l <> [] -> (forall j, In j l -> In j (superpixels cells)) -> rsum (map (fun j => size_of cells j * (hits cells b j - 1)) l) < rsum (map (fun x => size_of cells x * (/ b - 1)) l)).
    { intro l. induction l as [|j l IH]; intros NL HL; [contradiction NL; reflexivity|]. pose proof (size_pos cells j (HL j (or_introl eq_refl))) as SP. pose proof (F j (HL j (or_introl eq_refl))) as FJ. assert (X : size_of cells j * (hits cells b j - 1) < size_of cells j * (/ b - 1)) by (apply Rmult_lt_compat_l; lra). destruct l as [|j' l]; [unfold rsum; cbn [map fold_right]; lra|]. specialize (IH ltac:(discriminate) (fun k K => HL k (or_intror K))). unfold rsum in *. cbn [map fold_right] in *. lra. }
    apply ST; [exact NE|trivial].
  - intro H. apply error_le; [exact N|]. intros j J. destruct (hits_facts cells b j B J) as (H1 & H2 & H3 & _ & H5). assert (hits cells b j < 2) by (destruct (Rlt_le_dec 0 (hits cells b j)) as [Q|Q]; [specialize (H1 Q); nra|lra]). specialize (H3 H0). lra.
  - intro H. assert (Z : forall j, In j (superpixels cells) -> hits cells b j = 0). { intros j J. destruct (hits_facts cells b j B J) as (H1 & [H2|H2] & _); [exact H2|]. assert (0 < hits cells b j) by lra. specialize (H1 H0). nra. }
    apply Rle_antisym; [apply error_le|apply error_ge]; try exact N; intros j J; rewrite (Z j J); lra.
  - intro H. apply error_ge; [exact N|]. intros j J. destruct (hits_facts cells b j B J) as (_ & [H2|H2] & _ & H4 & _); [|lra]. exfalso. pose proof (proj1 H4 H2) as A. pose proof (size_pos cells j J) as S. assert (X : size_of cells j <= INR (length (regions cells)) * (b * size_of cells j)). { rewrite <- (overlap_total cells j) at 1. rewrite <- (rsum_const (b * size_of cells j) (regions cells)). apply rsum_le. exact A. } nra.
Qed.
Print Assumptions C96_error_bounds.
Example C96_error_bounds_sat : exists (cells : list (Z * Z)) (b : R), cells <> [] /\ 0 <= b.
Proof. exists [(1, 2); (3, 5)]%Z, 2. split; [discriminate|lra]. Qed.
(** Superpixels inside the regions have error zero, for any tolerance below 1. From one half on, zero means that every superpixel has a region exceeding the tolerance. *)
Theorem C96_error_zero : forall cells b, cells <> [] -> 0 <= b -> (refines cells -> b < 1 -> under_segmentation_error cells b = 0) /\
  (1 / 2 <= b -> (under_segmentation_error cells b = 0 <-> forall j, In j (superpixels cells) -> exists i, In i (regions cells) /\ b * size_of cells j < overlap cells i j)).
Proof.
  intros cells b N B. split.
  - intros RF B1. assert (H : forall j, In j (superpixels cells) -> hits cells b j = 1). { intros j J. pose proof (size_pos cells j J) as S. pose proof J as J'. apply unique_in, in_map_iff in J'. destruct J' as (c & E & C).
      assert (O : forall i, overlap cells i j = if Z.eqb (snd c) i then size_of cells j else 0). { intro i. unfold overlap, size_of. destruct (Z.eqb_spec (snd c) i) as [EI|NI].
        - f_equal. f_equal. apply filter_ext_in. intros d D. destruct (Z.eqb_spec (fst d) j) as [ED|ND]; [|apply andb_false_r]. rewrite andb_true_r. apply Z.eqb_eq. rewrite <- EI. symmetry. apply RF; [exact C|exact D|congruence].
        - destruct (filter _ cells) as [|d r] eqn:F; [reflexivity|]. exfalso. assert (X : In d (filter (fun c => Z.eqb (snd c) i && Z.eqb (fst c) j) cells)) by (rewrite F; left; reflexivity). apply filter_In in X. destruct X as [D X]. apply andb_true_iff in X. destruct X as [X1 X2]. apply Z.eqb_eq in X1, X2. apply NI. rewrite <- X1. apply RF; [exact C|exact D|congruence]. }
      unfold hits. rewrite (rsum_ext _ (fun i => if Z.eqb (snd c) i then 1 else 0)); [apply ind_sum; [apply sorted_nodup, unique_sorted|apply unique_in, in_map, C]|]. intros i _. rewrite O. destruct (Z.eqb (snd c) i); destruct (Rlt_dec _ _); try reflexivity; exfalso; nra. }
    apply Rle_antisym; [apply error_le|apply error_ge]; try exact N; intros j J; rewrite (H j J); lra.
  - intro B2. assert (LE : forall j, In j (superpixels cells) -> 0 <= - (hits cells b j - 1)). { intros j J. destruct (hits_facts cells b j B J) as (H1 & H2 & H3 & _ & H5). assert (L : hits cells b j < 2) by (destruct (Rlt_le_dec 0 (hits cells b j)) as [Q|Q]; [specialize (H1 Q); nra|lra]). specialize (H3 L). lra. }
    assert (ONE : forall j, In j (superpixels cells) -> (hits cells b j = 1 <-> exists i, In i (regions cells) /\ b * size_of cells j < overlap cells i j)). { intros j J. destruct (hits_facts cells b j B J) as (_ & H2 & _ & H4 & _). specialize (LE j J). split; intro H.
      - destruct (Exists_dec (fun i => b * size_of cells j < overlap cells i j) (regions cells) (fun i => Rlt_dec _ _)) as [X|X]; [apply Exists_exists in X; exact X|]. exfalso. assert (hits cells b j = 0) by (apply H4; intros i I; apply Rnot_lt_le; intro Q; apply X, Exists_exists; exists i; tauto). lra.
      - destruct H2 as [H2|H2]; [|lra]. exfalso. destruct H as (i & I & Q). pose proof (proj1 H4 H2 i I). lra. }
    rewrite error_hits by exact N. pose proof (length_pos cells N) as P. transitivity (rsum (map (fun j => size_of cells j * (hits cells b j - 1)) (superpixels cells)) = 0). { split; intro H; [apply (f_equal (fun x => x * INR (length cells))) in H; unfold Rdiv in H; rewrite Rmult_assoc, Rinv_l in H by lra; lra|rewrite H; unfold Rdiv; ring]. }
    transitivity (forall j, In j (superpixels cells) -> hits cells b j = 1).
    + assert (G : forall l, (forall j, In j l -> In j (superpixels cells)) -> rsum (map (fun j => size_of cells j * (hits cells b j - 1)) l) <= 0 /\ (rsum (map (fun j => size_of cells j * (hits cells b j - 1)) l) = 0 <-> forall j, In j l -> hits cells b j = 1)).
      { intro l. induction l as [|j l IH]; intro HL; [cbn; split; [lra|split; [intros _ ? []|reflexivity]]|]. destruct (IH (fun k K => HL k (or_intror K))) as [I1 I2]. pose proof (size_pos cells j (HL j (or_introl eq_refl))) as SP. pose proof (LE j (HL j (or_introl eq_refl))) as L. unfold rsum in *. cbn [map fold_right]. assert (X : size_of cells j * (hits cells b j - 1) <= 0) by nra. split; [lra|]. split.
        - intros H k [<-|K]; [assert (Z : size_of cells j * (hits cells b j - 1) = 0) by lra; apply Rmult_integral in Z; lra|apply I2; [lra|exact K]].
        - intro H. rewrite (H j (or_introl eq_refl)). assert (fold_right Rplus 0 (map (fun j => size_of cells j * (hits cells b j - 1)) l) = 0) by (apply I2; intros k K; apply H; right; exact K). lra. }
      apply G. trivial.
    + split; intros H j J; specialize (H j J); apply (ONE j J), H.
Qed.
Print Assumptions C96_error_zero.
Example C96_error_zero_sat : exists (cells : list (Z * Z)) (b : R), cells <> [] /\ 0 <= b.
Proof. exists [(1, 2); (3, 5)]%Z, 2. split; [discriminate|lra]. Qed.

(** * Pooling means and standard deviations *)
Definition sq (g : list R) : R := rsum (map (fun x => (x - mean g) ^ 2) g).
Definition sample_std (g : list R) : R := sqrt (sq g / (INR (length g) - 1)).
Definition np_std (g : list R) : R := sqrt (sq g / INR (length g)).
Definition row_of (std : list R -> R) (g : list R) : row := (mean g, std g, INR (length g)).
Lemma sq_nonneg : forall g, 0 <= sq g.
Proof. intro g. apply rsum_nonneg. intros x X. apply in_map_iff in X. destruct X as (y & <- & _). apply pow2_ge_0. Qed.
Lemma mean_len : forall g, g <> [] -> mean g * INR (length g) = rsum g.
Proof. intros g N. unfold mean. pose proof (length_pos g N). field. lra. Qed.
Lemma around : forall g m, g <> [] -> rsum (map (fun x => (x - m) ^ 2) g) = sq g + INR (length g) * (mean g - m) ^ 2.
Proof.
  intros g m N. unfold sq. set (a := mean g). transitivity (rsum (map (fun x => (x - a) ^ 2 + ((2 * (a - m)) * x + ((a - m) ^ 2 - 2 * (a - m) * a))) g)); [apply rsum_ext; intros; ring|]. rewrite rsum_plus, rsum_plus, rsum_scale, rsum_const, map_id. rewrite <- (mean_len g N). fold a. ring.
Qed.
Lemma concat_sum : forall {A} (f : A -> R) (gs : list (list A)), rsum (map f (concat gs)) = rsum (map (fun g => rsum (map f g)) gs).
Proof. intros A f gs. induction gs as [|g gs IH]; [reflexivity|]. cbn [concat]. rewrite map_app, rsum_app, IH. reflexivity. Qed.
Lemma concat_len : forall (gs : list (list R)), INR (length (concat gs)) = rsum (map (fun g => INR (length g)) gs).
Proof. induction gs as [|g gs IH]; [reflexivity|]. cbn [concat]. rewrite app_length, plus_INR, IH. reflexivity. Qed.
Lemma pooled_mean : forall std gs, (forall g, In g gs -> g <> []) -> combined_mean (map (row_of std) gs) = mean (concat gs).
Proof.
  intros std gs H. unfold combined_mean. change (mean (concat gs)) with (rsum (concat gs) / INR (length (concat gs))). rewrite !map_map. unfold r_mean, r_n, row_of. cbn [fst snd]. rewrite concat_len. f_equal. rewrite <- (map_id (concat gs)), concat_sum. apply rsum_ext. intros g G. rewrite map_id. apply mean_len, H, G.
Qed.
Lemma pooled_sq : forall gs, (forall g, In g gs -> g <> []) -> sq (concat gs) = rsum (map (fun g => sq g + INR (length g) * (mean g - mean (concat gs)) ^ 2) gs).
Proof. intros gs H. unfold sq at 1. rewrite concat_sum. apply rsum_ext. intros g G. apply around, H, G. Qed.
(** With sample deviations the pooled values are those of all pixels together. *)
Theorem C96_pooled : forall gs, (forall g, In g gs -> (2 <= length g)%nat) -> get_combined_mean_std (map (row_of sample_std) gs) = (mean (concat gs), sample_std (concat gs)).
Proof.
  intros gs H. assert (N : forall g, In g gs -> g <> []) by (intros g G Q; specialize (H g G); rewrite Q in H; cbn in H; lia). unfold get_combined_mean_std. rewrite pooled_mean by exact N. apply f_equal. change (sample_std (concat gs)) with (sqrt (sq (concat gs) / (INR (length (concat gs)) - 1))). apply f_equal. unfold combined_var. rewrite pooled_mean by exact N. rewrite !map_map. unfold r_mean, r_n, r_sigma, row_of. cbn [fst snd]. rewrite concat_len. f_equal. rewrite pooled_sq by exact N. apply rsum_ext. intros g G. f_equal. unfold sample_std. specialize (H g G). apply le_INR in H. cbn [INR] in H.
  rewrite pow2_sqrt; [field; lra|]. apply Rmult_le_pos; [apply sq_nonneg|left; apply Rinv_0_lt_compat; lra].
Qed.
Print Assumptions C96_pooled.
Example C96_pooled_sat : exists gs : list (list R), forall g, In g gs -> (2 <= length g)%nat.
Proof. exists [[1; 2]; [3; 4; 5]]. intros g [<-|[<-|[]]]; cbn; lia. Qed.
(** With the deviations of get_superpixel_sigmas (np.std) the variance falls short by the mean squared deviation of each superpixel over N-1. *)
Theorem C96_pooled_std_refuted : forall gs, (forall g, In g gs -> g <> []) -> (2 <= length (concat gs))%nat ->
  combined_var (map (row_of np_std) gs) = (sq (concat gs) - rsum (map (fun g => np_std g ^ 2) gs)) / (INR (length (concat gs)) - 1) /\
  snd (get_combined_mean_std (map (row_of np_std) gs)) <= sample_std (concat gs).
Proof.
  intros gs N L. assert (E : combined_var (map (row_of np_std) gs) = (sq (concat gs) - rsum (map (fun g => np_std g ^ 2) gs)) / (INR (length (concat gs)) - 1)).
  { unfold combined_var. rewrite pooled_mean by exact N. rewrite !map_map. unfold r_mean, r_n, r_sigma, row_of. cbn [fst snd]. rewrite concat_len. f_equal. rewrite pooled_sq by exact N. rewrite <- rsum_minus. apply rsum_ext. intros g G. pose proof (length_pos g (N g G)) as P. unfold np_std. rewrite pow2_sqrt; [field; lra|]. apply Rmult_le_pos; [apply sq_nonneg|left; apply Rinv_0_lt_compat; lra]. }
  split; [exact E|]. cbn [get_combined_mean_std snd]. rewrite E. unfold sample_std. apply sqrt_le_1_alt. apply le_INR in L. cbn [INR] in L. apply Rmult_le_compat_r; [left; apply Rinv_0_lt_compat; lra|]. assert (0 <= rsum (map (fun g => np_std g ^ 2) gs)) by (apply rsum_nonneg; intros x X; apply in_map_iff in X; destruct X as (g & <- & _); apply pow2_ge_0). lra.
Qed.
Print Assumptions C96_pooled_std_refuted.
Example C96_pooled_std_refuted_sat : exists gs : list (list R), (forall g, In g gs -> g <> []) /\ (2 <= length (concat gs))%nat.
Proof. exists [[1]; [3; 4; 5]]. split; [intros g [<-|[<-|[]]]; discriminate|cbn; lia]. Qed.

(** * The mean of the dark superpixels *)
Lemma selected : forall r t, 0 <= r_sigma r -> t <= 0 -> (snr_below t r = true <-> r_mean r < t * r_sigma r).
Proof.
  intros r t S T. unfold snr_below. destruct (Req_EM_T (r_sigma r) 0) as [E|E]; [rewrite E, Rmult_0_r; destruct (Rlt_dec _ _); split; intro; (tauto || discriminate || reflexivity)|]. assert (P : 0 < r_sigma r) by lra. assert (X : r_mean r / r_sigma r < t <-> r_mean r < t * r_sigma r). { split; intro H; [apply (Rmult_lt_compat_r (r_sigma r)) in H; [unfold Rdiv in H; rewrite Rmult_assoc, Rinv_l in H by lra; lra|exact P]|apply Rmult_lt_reg_r with (r_sigma r); [exact P|]; unfold Rdiv; rewrite Rmult_assoc, Rinv_l by lra; lra]. }
  destruct (Rlt_dec _ _); split; intro; try tauto; discriminate.
Qed.
Definition threshold_of (thres : R) : R := - Rabs thres.
(** It pools exactly the superpixels with mean below -|threshold| times sigma, in any order, and returns minus their pooled mean; two zeros if there are none. *)
Theorem C96_mean_estimate : forall m s n order thres rows, combine (combine m s) n = rows -> Permutation (order rows) rows -> (forall r, In r rows -> 0 <= r_sigma r /\ 0 < r_n r) ->
  let dark := filter (fun r => if Rlt_dec (r_mean r) (threshold_of thres * r_sigma r) then true else false) rows in
  mean_estimate (Some m) (Some s) (Some n) order thres = Some (match dark with [] => (0, 0) | _ => (- combined_mean dark, sqrt (combined_var dark)) end) /\ (dark <> [] -> combined_mean dark < 0).
Proof.
  intros m s n order thres rows E PE H dark. unfold mean_estimate, get_superpixel_SNRs. rewrite E. assert (T : (if Rle_dec thres 0 then thres else - thres) = threshold_of thres) by (unfold threshold_of; destruct (Rle_dec thres 0); [rewrite Rabs_left1 by lra; lra|rewrite Rabs_right by lra; lra]). rewrite T. assert (TN : threshold_of thres <= 0) by (unfold threshold_of; pose proof (Rabs_pos thres); lra).
  assert (F : Permutation (filter (snr_below (threshold_of thres)) (order rows)) dark). { rewrite (filter_perm _ _ _ PE). unfold dark. rewrite (filter_ext_in (snr_below (threshold_of thres)) (fun r => if Rlt_dec (r_mean r) (threshold_of thres * r_sigma r) then true else false)); [apply Permutation_refl|]. intros r I. pose proof (selected r (threshold_of thres) (proj1 (H r I)) TN) as X. destruct (Rlt_dec _ _) as [Y|Y]; [apply X, Y|]. destruct (snr_below (threshold_of thres) r); [exfalso; apply Y, X; reflexivity|reflexivity]. }
  assert (DN : forall r, In r dark -> r_mean r < 0 /\ 0 < r_n r). { intros r I. apply filter_In in I. destruct I as [I J]. destruct (Rlt_dec _ _) as [Y|]; [|discriminate]. destruct (H r I). split; [nra|assumption]. }
  set (flip := fun r : row => (Rabs (r_mean r), r_sigma r, r_n r)). assert (PF : Permutation (map flip (filter (snr_below (threshold_of thres)) (order rows))) (map flip dark)) by (apply Permutation_map, F). fold flip.
  assert (CM : forall a b : list row, Permutation a b -> combined_mean a = combined_mean b) by (intros a b P; unfold combined_mean; f_equal; apply rsum_perm, Permutation_map, P). assert (CV : forall a b : list row, Permutation a b -> combined_var a = combined_var b) by (intros a b P; unfold combined_var; rewrite (CM a b P); f_equal; [|f_equal]; apply rsum_perm, Permutation_map, P).
  assert (FM : combined_mean (map flip dark) = - combined_mean dark). { unfold combined_mean. rewrite !map_map. change (fun x : row => r_n (flip x)) with r_n. rewrite (rsum_ext (fun x => r_mean (flip x) * r_n (flip x)) (fun x => -1 * (r_mean x * r_n x))) by (intros r I; destruct (DN r I); change (r_mean (flip r)) with (Rabs (r_mean r)); change (r_n (flip r)) with (r_n r); rewrite Rabs_left by assumption; ring). rewrite rsum_scale. unfold Rdiv. ring. }
  assert (FV : combined_var (map flip dark) = combined_var dark). { unfold combined_var. rewrite FM, !map_map. change (fun x : row => r_n (flip x)) with r_n. apply (f_equal (fun u => u / (rsum (map r_n dark) - 1))). apply rsum_ext. intros r I. change (r_mean (flip r)) with (Rabs (r_mean r)). change (r_n (flip r)) with (r_n r). change (r_sigma (flip r)) with (r_sigma r). destruct (DN r I). rewrite Rabs_left by assumption. ring. }
  split.
  - destruct (map flip (filter (snr_below (threshold_of thres)) (order rows))) as [|a q] eqn:M.
    + apply Permutation_nil in PF. destruct dark; [reflexivity|discriminate].
    + unfold get_combined_mean_std. rewrite (CM _ _ PF), (CV _ _ PF), FM, FV. destruct dark; [apply Permutation_sym, Permutation_nil in PF; discriminate|reflexivity].
  - intro ND. unfold combined_mean. assert (P1 : forall l, l <> [] -> (forall r, In r l -> r_mean r < 0 /\ 0 < r_n r) -> rsum (map (fun r => r_mean r * r_n r) l) < 0 /\ 0 < rsum (map r_n l)).
    { clear. intro l. induction l as [|a l IH]; intros N H; [contradiction N; reflexivity|]. destruct (H a (or_introl eq_refl)) as [A1 A2]. assert (a1 : r_mean a * r_n a < 0) by nra. destruct l as [|b l]; [unfold rsum; cbn [map fold_right]; lra|]. destruct (IH ltac:(discriminate) (fun r I => H r (or_intror I))) as [I1 I2]. unfold rsum in *. cbn [map fold_right] in *. lra. }
    destruct (P1 dark ND DN) as [Q1 Q2]. apply Ropp_lt_cancel. rewrite Ropp_0. unfold Rdiv. rewrite <- Ropp_mult_distr_l_reverse. apply Rmult_lt_0_compat; [lra|apply Rinv_0_lt_compat, Q2].
Qed.
Print Assumptions C96_mean_estimate.
Example C96_mean_estimate_sat : exists (m : list R) (s : list R) (n : list R) (order : list (R * R * R) -> list (R * R * R)) (rows : list (R * R * R)), combine (combine m s) n = rows /\ Permutation (order rows) rows /\ (forall r, In r rows -> 0 <= r_sigma r /\ 0 < r_n r).
Proof. eexists [-3; 1], [1; 1], [2; 2], (fun l => l), _. split; [reflexivity|]. split; [apply Permutation_refl|]. intros r [<-|[<-|[]]]; cbn; lra. Qed.
(** Any of the three arrays missing (the default), or asking for the pixels, raises. *)
Theorem C96_defaults_refuted : (forall s n order t, mean_estimate None s n order t = None) /\ (forall m n order t, mean_estimate m None n order t = None) /\ (forall m s order t, mean_estimate m s None order t = None) /\ (forall m s n order, get_superpixel_SNRs m s n true order = None).
Proof. repeat split; intros; unfold mean_estimate, get_superpixel_SNRs; repeat match goal with x : option _ |- _ => destruct x end; reflexivity. Qed.
Print Assumptions C96_defaults_refuted.

(** * Counts, labels and ionised fractions *)
Theorem C96_counts : forall labels k, contiguous labels k -> length (n_pixels labels) = k /\ forall i, (i < k)%nat -> nth i (n_pixels labels) 0%nat = count_occ Z.eq_dec labels (Z.of_nat i).
Proof.
  intros labels k C. unfold n_pixels, counts. rewrite (contiguous_unique labels k C), map_map. split; [rewrite map_length, seq_length; reflexivity|]. intros i I. rewrite (nth_indep _ 0%nat (count_occ Z.eq_dec labels (Z.of_nat 0))) by (rewrite map_length, seq_length; exact I). rewrite (map_nth (fun x => count_occ Z.eq_dec labels (Z.of_nat x))), seq_nth by exact I. reflexivity.
Qed.
Theorem C96_see_label : forall out_map z p, (p < length out_map)%nat -> length (see_label out_map z) = length out_map /\ (nth p (see_label out_map z) 0 = 1 <-> nth p out_map 0%Z = z) /\ (nth p (see_label out_map z) 0 = 0 <-> nth p out_map 0%Z <> z).
Proof.
  intros m z p H. unfold see_label. split; [apply map_length|]. rewrite (nth_indep _ 0 ((fun x => if Z.eqb x z then 1 else 0) 0%Z)) by (rewrite map_length; exact H). rewrite (map_nth (fun x => if Z.eqb x z then 1 else 0)). destruct (Z.eqb_spec (nth p m 0%Z) z); split; split; intro; try assumption; try reflexivity; try contradiction; lra.
Qed.
(** The mass estimate inverts the mean brightness temperature 27 sqrt((1+z)/10) (1-x), the volume estimate is the fraction of ionised cells. *)
Theorem C96_fractions : (forall x z, -1 < z -> xfrac_mass_estimate (27 * sqrt ((1 + z) / 10) * (1 - x)) z = x) /\ (forall b, b <> [] -> 0 <= xfrac_volume_estimate b <= 1 /\ xfrac_volume_estimate b * INR (length b) = INR (length (filter (fun v => v) b)) /\ xfrac_volume_estimate b + xfrac_volume_estimate (map negb b) = 1).
Proof.
  split.
  - intros x z Z. unfold xfrac_mass_estimate. assert (0 < sqrt ((1 + z) / 10)) by (apply sqrt_lt_R0, Rdiv_lt_0_compat; lra). field. lra.
  - intros b N. unfold xfrac_volume_estimate, mean. rewrite map_map, !map_length. pose proof (length_pos b N) as P. assert (S : rsum (map (fun v : bool => if v then 1 else 0) b) + rsum (map (fun x => if negb x then 1 else 0) b) = INR (length b)). { rewrite <- rsum_plus. rewrite (rsum_ext _ (fun _ => 1)) by (intros [|] _; cbn; lra). rewrite rsum_const. lra. }
    assert (NN : forall f : bool -> bool, 0 <= rsum (map (fun v => if f v then 1 else 0) b)) by (intro f; apply rsum_nonneg; intros y Y; apply in_map_iff in Y; destruct Y as (v & <- & _); destruct (f v); lra). pose proof (NN (fun v => v)) as N1. pose proof (NN negb) as N2. cbv beta in N1. set (s := rsum (map (fun v : bool => if v then 1 else 0) b)) in *. set (t := rsum (map (fun x => if negb x then 1 else 0) b)) in *. set (n := INR (length b)) in *. split.
    + split; [apply Rmult_le_pos; [exact N1|left; apply Rinv_0_lt_compat, P]|]. apply Rmult_le_reg_r with n; [exact P|]. unfold Rdiv. rewrite Rmult_assoc, Rinv_l by lra. lra.
    + split; [unfold Rdiv; rewrite Rmult_assoc, Rinv_l, Rmult_1_r by lra; unfold s; symmetry; apply (count_sum (fun v : bool => v))|]. replace (s / n + t / n) with ((s + t) / n) by (field; lra). rewrite S. field. lra.
Qed.
Print Assumptions C96_counts.
Example C96_counts_sat : exists (labels : list Z) (k : nat), contiguous labels k.
Proof. exists [0; 1; 1; 0]%Z, 2%nat. intro z. cbn. lia. Qed.
Print Assumptions C96_see_label.
Example C96_see_label_sat : exists (out_map : list Z) (p : nat), (p < length out_map)%nat.
Proof. exists [1; 2; 3]%Z, 1%nat. cbn; lia. Qed.
Print Assumptions C96_fractions.

(** * The threshold from the histogram *)
Definition largest_first (l : list R) (i : nat) : Prop := (i < length l)%nat /\ (forall j, (j < length l)%nat -> nth j l 0 <= nth i l 0) /\ (forall j, (j < i)%nat -> nth j l 0 < nth i l 0).
Lemma argmax_from_spec : forall l pre best at_, (at_ < length pre)%nat -> nth at_ pre 0 = best -> (forall j, (j < length pre)%nat -> nth j pre 0 <= best) -> (forall j, (j < at_)%nat -> nth j pre 0 < best) -> largest_first (pre ++ l) (argmax_from l best at_ (length pre)).
Proof.
  induction l as [|v l IH]; intros pre best at_ A B C D; cbn [argmax_from].
  - rewrite app_nil_r. split; [exact A|]. rewrite B. split; assumption.
  - replace (pre ++ v :: l) with ((pre ++ [v]) ++ l) by (rewrite <- app_assoc; reflexivity). replace (S (length pre)) with (length (pre ++ [v])) by (rewrite app_length; cbn; lia). assert (NP : forall j, (j < length pre)%nat -> nth j (pre ++ [v]) 0 = nth j pre 0) by (intros; apply app_nth1; assumption). assert (NV : nth (length pre) (pre ++ [v]) 0 = v) by (rewrite app_nth2, Nat.sub_diag by lia; reflexivity). destruct (Rlt_dec best v) as [L|L].
    + apply IH; [rewrite app_length; cbn; lia|exact NV| |].
      * intros j J. rewrite app_length in J. cbn in J. destruct (Nat.eq_dec j (length pre)) as [->|Q]; [rewrite NV; lra|]. rewrite NP by lia. specialize (C j ltac:(lia)). lra.
      * intros j J. rewrite NP by lia. specialize (C j J). lra.
    + apply IH; [rewrite app_length; cbn; lia|rewrite NP by exact A; exact B| |].
      * intros j J. rewrite app_length in J. cbn in J. destruct (Nat.eq_dec j (length pre)) as [->|Q]; [rewrite NV; lra|]. rewrite NP by lia. apply C. lia.
      * intros j J. rewrite NP by lia. apply D, J.
Qed.
Lemma argmax_spec : forall l, match argmax l with None => l = [] | Some i => largest_first l i end.
Proof. intros [|v l]; [reflexivity|]. cbn [argmax]. apply (argmax_from_spec l [v] v 0); cbn; try lia; try reflexivity. intros j J. assert (j = 0%nat) as -> by lia. lra. Qed.
(** If a threshold is returned it is the centre of a bin strictly before the fullest one; the call raises exactly when the fullest bin is the first one and is the only peak. *)
Theorem C96_threshold : forall h edges eq, h <> [] -> length edges = S (length h) -> (forall i j, (i < j < length edges)%nat -> nth i edges 0 < nth j edges 0) ->
  exists mode, largest_first h mode /\
  (forall t, histogram_threshold h edges eq = Threshold t -> exists k, (k < mode)%nat /\ t = (nth k edges 0 + nth (S k) edges 0) / 2 /\ nth 0 edges 0 < t < nth mode edges 0) /\
  (histogram_threshold h edges eq = Error <-> mode = 0%nat /\ length (extrema (0 :: h)) = 1%nat).
Proof.
  intros h edges eq N L A. unfold histogram_threshold. pose proof (argmax_spec h) as M. destruct (argmax h) as [mode|]; [|contradiction]. exists mode. split; [exact M|]. set (peaks := if (mode =? 0)%nat then extrema (0 :: h) else extrema h). set (d2 := map _ (seq 0 mode)). assert (LD : length d2 = mode) by (unfold d2; rewrite map_length, seq_length; reflexivity). pose proof (argmax_spec d2) as MD. split.
  - intros t H. destruct (length peaks =? 1)%nat; [|destruct eq; discriminate]. destruct (argmax d2) as [k|]; [|discriminate]. destruct MD as (K & _). rewrite LD in K. exists k. split; [exact K|]. assert (T : t = nth k edges 0 / 2 + nth (k + 1) edges 0 / 2) by congruence. rewrite T. replace (k + 1)%nat with (S k) by lia. split; [lra|]. destruct M as (M1 & _). assert (nth k edges 0 < nth (S k) edges 0) by (apply A; lia). assert (nth 0 edges 0 <= nth k edges 0) by (destruct k; [lra|left; apply A; lia]). assert (nth (S k) edges 0 <= nth mode edges 0) by (destruct (Nat.eq_dec (S k) mode) as [->|Q]; [lra|left; apply A; lia]). lra.
  - destruct (length peaks =? 1)%nat eqn:P1.
    + apply Nat.eqb_eq in P1. destruct (argmax d2) as [k|] eqn:AD.
      * split; [discriminate|]. intros [Z _]. exfalso. destruct MD as (K & _). lia.
      * split; [intros _|reflexivity]. assert (Z : mode = 0%nat) by (rewrite <- LD, MD; reflexivity). split; [exact Z|]. unfold peaks in P1. rewrite Z in P1. exact P1.
    + apply Nat.eqb_neq in P1. split; [destruct eq; discriminate|]. intros [Z Q]. exfalso. apply P1. unfold peaks. rewrite Z. exact Q.
Qed.
Print Assumptions C96_threshold.
Example C96_threshold_sat : exists (h : list R) (edges : list R), h <> [] /\ length edges = S (length h) /\ (forall i j, (i < j < length edges)%nat -> nth i edges 0 < nth j edges 0).
Proof. exists [1; 5; 2], [0; 1; 2; 3]. split; [discriminate|]. split; [reflexivity|]. intros i j H; cbn in H; destruct i as [|[|[|i]]], j as [|[|[|[|j]]]]; try lia; cbn; lra. Qed.
(** A strictly falling histogram always raises. *)
Theorem C96_falling_refuted : forall a b r edges eq, (forall j, (j < length (b :: r))%nat -> nth j (b :: r) 0 < nth j (a :: b :: r) 0) -> 0 < a -> length edges = S (length (a :: b :: r)) -> (forall i j, (i < j < length edges)%nat -> nth i edges 0 < nth j edges 0) -> histogram_threshold (a :: b :: r) edges eq = Error.
Proof.
  intros a b r edges eq F P L A. destruct (C96_threshold (a :: b :: r) edges eq ltac:(discriminate) L A) as (mode & M & _ & E). apply E. set (h := a :: b :: r) in *. assert (Z : mode = 0%nat). { destruct mode as [|mode]; [reflexivity|]. exfalso. destruct M as (M1 & M2 & M3). specialize (M3 mode ltac:(lia)). specialize (F mode). change (nth mode (b :: r) 0) with (nth (S mode) h 0) in F. unfold h in M1. cbn [length] in M1, F. specialize (F ltac:(lia)). lra. }
  split; [exact Z|]. assert (X : extrema (0 :: h) = [1%nat]).
  { unfold extrema. cbn [length]. replace (S (length h)) with (2 + length r + 1)%nat by (unfold h; cbn [length]; lia). rewrite <- Nat.add_assoc, seq_app, filter_app. assert (F1 : filter (fun i => (1 <=? i)%nat && (S i <? 2 + (length r + 1))%nat && gt (0 :: h) i (i - 1) && gt (0 :: h) i (S i)) (seq 0 2) = [1%nat]).
    { cbn [seq filter]. unfold gt, h. cbn [nth Nat.sub Nat.leb]. replace (2 <? 2 + (length r + 1))%nat with true by (symmetry; apply Nat.ltb_lt; lia). pose proof (F 0%nat ltac:(cbn; lia)) as F0. unfold h in F0. cbn [nth] in F0. cbn [andb]. destruct (Rlt_dec 0 a); [|lra]. destruct (Rlt_dec b a); [|lra]. reflexivity. }
    rewrite F1. assert (F2 : filter (fun i => (1 <=? i)%nat && (S i <? 2 + (length r + 1))%nat && gt (0 :: h) i (i - 1) && gt (0 :: h) i (S i)) (seq (0 + 2) (length r + 1)) = []); [|rewrite F2; reflexivity].
    assert (G : forall i, In i (seq (0 + 2) (length r + 1)) -> gt (0 :: h) i (i - 1) = false). { intros i I. apply in_seq in I. unfold gt. destruct i as [|[|i]]; try lia. specialize (F i ltac:(cbn; lia)). destruct (Rlt_dec _ _) as [Q|]; [|reflexivity]. exfalso. change (nth i h 0 < nth i (b :: r) 0) in Q. lra. }
    revert G. generalize (seq (0 + 2) (length r + 1)). intros l G. induction l as [|i l IH]; [reflexivity|]. cbn [filter]. rewrite (G i (or_introl eq_refl)), andb_false_r. cbn [andb]. apply IH. intros k K. apply G. right. exact K. }
  rewrite X. reflexivity.
Qed.
Print Assumptions C96_falling_refuted.
Example C96_falling_refuted_sat : exists (a : R) (b : R) (r : list R) (edges : list R), ((forall j, (j < length (b :: r))%nat -> nth j (b :: r) 0 < nth j (a :: b :: r) 0)) /\ 0 < a /\ length edges = S (length (a :: b :: r)) /\ (forall i j, (i < j < length edges)%nat -> nth i edges 0 < nth j edges 0).
Proof. exists 5, 3, [1], [0; 1; 2; 3]. split; [intros [|[|j]] H; cbn in H; try lia; cbn; lra|]. split; [lra|]. split; [reflexivity|]. intros i j H; cbn in H; destruct i as [|[|[|i]]], j as [|[|[|[|j]]]]; try lia; cbn; lra. Qed.

(** The bin chosen is the one furthest from the chord between the first bin and the fullest one; with several peaks the answer is zeros for equal means and Otsu's threshold otherwise. *)
Definition off_chord (h edges : list R) (mode i : nat) : R := Rabs ((nth i h 0 - nth 0 h 0) - (nth mode h 0 - nth 0 h 0) / (nth mode edges 0 - nth 0 edges 0) * (nth i edges 0 - nth 0 edges 0)).
Theorem C96_knee : forall h edges eq mode, largest_first h mode -> (forall t, histogram_threshold h edges eq = Threshold t -> exists k, (k < mode)%nat /\ t = (nth k edges 0 + nth (S k) edges 0) / 2 /\ (forall i, (i < mode)%nat -> off_chord h edges mode i <= off_chord h edges mode k) /\ (forall i, (i < k)%nat -> off_chord h edges mode i < off_chord h edges mode k)) /\
  (histogram_threshold h edges eq = Zeros -> eq = true /\ length (extrema h) <> 1%nat \/ eq = true /\ mode = 0%nat) /\ (histogram_threshold h edges eq = Otsu -> eq = false).
Proof.
  intros h edges eq mode M. unfold histogram_threshold. pose proof (argmax_spec h) as A. destruct (argmax h) as [m|]; [|subst h; destruct M as (M & _); cbn in M; lia]. assert (EM : m = mode).
  { destruct M as (M1 & M2 & M3), A as (A1 & A2 & A3). destruct (Nat.lt_trichotomy m mode) as [Q|[Q|Q]]; [specialize (M3 m Q); specialize (A2 mode M1); lra|exact Q|specialize (A3 mode Q); specialize (M2 m A1); lra]. } subst m. clear A. cbv zeta.
  set (peaks := if (mode =? 0)%nat then extrema (0 :: h) else extrema h). set (d2 := map _ (seq 0 mode)). assert (LD : length d2 = mode) by (unfold d2; rewrite map_length, seq_length; reflexivity). pose proof (argmax_spec d2) as MD. assert (ND : forall i, (i < mode)%nat -> nth i d2 0 = off_chord h edges mode i). { intros i I. unfold d2. rewrite (nth_indep _ 0 (off_chord h edges mode 0)) by (rewrite map_length, seq_length; exact I). change (nth i (map (off_chord h edges mode) (seq 0 mode)) (off_chord h edges mode 0) = off_chord h edges mode i). rewrite map_nth, seq_nth by exact I. reflexivity. }
  destruct (length peaks =? 1)%nat eqn:P1.
  - destruct (argmax d2) as [k|]; [|split; [|split]; intros; discriminate]. split; [|split; intros; discriminate]. intros t H. destruct MD as (K & K2 & K3). rewrite LD in *. exists k. split; [exact K|]. assert (T : t = nth k edges 0 / 2 + nth (k + 1) edges 0 / 2) by congruence. split; [rewrite T; replace (k + 1)%nat with (S k) by lia; lra|]. split; intros i I; [specialize (K2 i I); rewrite !ND in K2 by lia; exact K2|specialize (K3 i I); rewrite !ND in K3 by lia; exact K3].
  - apply Nat.eqb_neq in P1. split; [intros t H; destruct eq; discriminate|]. destruct eq; split; intro H; try discriminate; try reflexivity. unfold peaks in P1. destruct (Nat.eqb_spec mode 0); [right; split; [reflexivity|assumption]|left; split; [reflexivity|exact P1]].
Qed.
Print Assumptions C96_knee.
Example C96_knee_sat : exists (h : list R) (mode : nat), largest_first h mode.
Proof. exists [1; 5; 2], 1%nat. split; [cbn; lia|]. split; intros [|[|[|j]]] H; cbn in H; try lia; cbn; lra. Qed.

(** * A concrete case *)
Example C96_sat : let cells := [(0, 5); (0, 5); (1, 7); (1, 7)]%Z in refines cells /\ under_segmentation_error cells (1 / 4) = 0 /\ under_segmentation_error cells 1 = -1.
Proof.
  cbv zeta. assert (RF : refines [(0, 5); (0, 5); (1, 7); (1, 7)]%Z) by (intros c c' [<-|[<-|[<-|[<-|[]]]]] [<-|[<-|[<-|[<-|[]]]]] E; cbn in *; (reflexivity || discriminate)). split; [exact RF|]. split; [apply (proj1 (C96_error_zero [(0, 5); (0, 5); (1, 7); (1, 7)]%Z (1 / 4) ltac:(discriminate) ltac:(lra))); [exact RF|lra]|]. apply (C96_error_bounds [(0, 5); (0, 5); (1, 7); (1, 7)]%Z 1); [discriminate|lra|lra].
Qed.
Example C96_sat_estimate : mean_estimate (Some [-3; 1]) (Some [1; 1]) (Some [2; 2]) (fun l => l) 2 = Some (3, 1) /\ histogram_threshold [1; 5; 2] [0; 1; 2; 3] false = Threshold (1 / 2).
Proof.
  split.
  - destruct (C96_mean_estimate [-3; 1] [1; 1] [2; 2] (fun l => l) 2 [(-3, 1, 2); (1, 1, 2)] eq_refl (Permutation_refl _)) as [E _]; [intros r [<-|[<-|[]]]; cbn; lra|]. etransitivity; [exact E|]. cbn [filter]. unfold threshold_of. rewrite Rabs_right by lra. unfold r_mean, r_sigma. cbn [fst snd]. destruct (Rlt_dec (-3) (- (2) * 1)); [|lra]. destruct (Rlt_dec 1 (- (2) * 1)); [lra|]. unfold combined_var, combined_mean, rsum, r_n, r_mean, r_sigma. cbn [map fold_right fst snd]. apply f_equal. replace (((2 - 1) * 1 ^ 2 + 2 * (-3 - (-3 * 2 + 0) / (2 + 0)) ^ 2 + 0) / (2 + 0 - 1)) with 1 by field. rewrite sqrt_1. f_equal. field.
  - unfold histogram_threshold. cbn [argmax argmax_from]. destruct (Rlt_dec 1 5); [|lra]. destruct (Rlt_dec 5 2); [lra|]. cbn [Nat.eqb]. unfold extrema, gt. cbn [length seq filter nth Nat.sub]. destruct (Rlt_dec 1 5); [|lra]. destruct (Rlt_dec 2 5); [|lra]. cbn. f_equal. lra.
Qed.
