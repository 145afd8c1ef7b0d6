(** C50: which cells the threshold methods mark as region of interest. *)
From Coq Require Import List Arith ZArith QArith Bool Lia Lqa Permutation Sorting.Sorted SetoidList.
From Verif Require Import QLib RegionModel.
Import ListNotations.
Local Open Scope nat_scope.

Definition marked (out : list bool) (i : nat) : Prop := nth i out false = true.

Lemma nth_map_bool : forall {A} (f : A -> bool) l i d, i < length l -> nth i (map f l) false = f (nth i l d).
Proof. intros A f l i d H. rewrite (nth_indep _ false (f d)) by (rewrite map_length; exact H). apply map_nth. Qed.

(** * Fixed threshold *)
Theorem C50_fixed : forall data threshold upper_lim, length (fixed_threshold data threshold upper_lim) = length data /\
  forall i, i < length data -> (marked (fixed_threshold data threshold upper_lim) i <->
    if upper_lim then (nth i data 0 <= threshold)%Q else (threshold <= nth i data 0)%Q).
Proof.
  intros data t u. split; [apply map_length|]. intros i H. unfold marked, fixed_threshold. rewrite (nth_map_bool _ data i 0%Q H).
  destruct u; apply Qle_bool_iff.
Qed.
Print Assumptions C50_fixed.
(** Every cell is in one of the two classes; in both iff it has the threshold value. *)
Theorem C50_fixed_partition : forall data threshold i, i < length data ->
  (marked (fixed_threshold data threshold true) i \/ marked (fixed_threshold data threshold false) i) /\
  (marked (fixed_threshold data threshold true) i /\ marked (fixed_threshold data threshold false) i <-> (nth i data 0 == threshold)%Q).
Proof.
  intros data t i H. rewrite !(proj2 (C50_fixed data t _) i H). split; [destruct (Qlt_le_dec t (nth i data 0%Q)); [right|left]; lra|split; [intros [A B]; lra|intro E; lra]].
Qed.
Print Assumptions C50_fixed_partition.
Example C50_fixed_partition_sat : exists (data : list Q) (i : nat), i < length data.
Proof. exists [1; 2; 3]%Q, 1%nat. cbn; lia. Qed.
Theorem C50_fixed_monotone : forall data t t' i, i < length data -> (t <= t')%Q ->
  (marked (fixed_threshold data t true) i -> marked (fixed_threshold data t' true) i) /\
  (marked (fixed_threshold data t' false) i -> marked (fixed_threshold data t false) i).
Proof. intros data t t' i H L. rewrite !(proj2 (C50_fixed data _ _) i H). split; intro; lra. Qed.
Print Assumptions C50_fixed_monotone.
Example C50_fixed_monotone_sat : exists (data : list Q) (t : Q) (t' : Q) (i : nat), i < length data /\ (t <= t')%Q.
Proof. exists [1; 2; 3]%Q, 1%Q, 2%Q, 1%nat. split; [cbn; lia|]. discriminate. Qed.
(** Negating data and threshold swaps the limits. *)
Theorem C50_fixed_negate : forall data t i, i < length data ->
  (marked (fixed_threshold (map Qopp data) (- t) true) i <-> marked (fixed_threshold data t false) i).
Proof.
  intros data t i H. rewrite (proj2 (C50_fixed data t false) i H), (proj2 (C50_fixed (map Qopp data) (- t)%Q true) i) by (rewrite map_length; exact H).
  rewrite (nth_indep _ 0%Q (Qopp 0%Q)) by (rewrite map_length; exact H). rewrite map_nth. split; intro; lra.
Qed.
Print Assumptions C50_fixed_negate.
Example C50_fixed_negate_sat : exists (data : list Q) (i : nat), i < length data.
Proof. exists [1; 2; 3]%Q, 1%nat. cbn; lia. Qed.
Example C50_fixed_sat : fixed_threshold [1; 2; 3]%Q 2%Q true = [true; true; false] /\ fixed_threshold [1; 2; 3]%Q 2%Q false = [false; true; true].
Proof. split; reflexivity. Qed.

(** * Triangle thresholds of slices *)
(** At least half of the values lie on either side of a median. *)
Definition count (f : Q -> bool) (l : list Q) : nat := length (filter f l).

Lemma insert_perm : forall x l, Permutation (x :: l) (insert x l).
Proof.
  induction l as [|y r IH]; [reflexivity|]. cbn [insert]. destruct (Qle_bool x y); [reflexivity|]. rewrite perm_swap. apply perm_skip. exact IH.
Qed.
Lemma sort_perm : forall l, Permutation l (sort l).
Proof. induction l as [|x r IH]; [reflexivity|]. cbn [sort fold_right]. rewrite <- insert_perm. apply perm_skip. exact IH. Qed.
Lemma insert_sorted : forall x l, StronglySorted Qle l -> StronglySorted Qle (insert x l).
Proof.
  induction l as [|y r IH]; intro H; [repeat constructor|]. cbn [insert]. inversion_clear H as [|? ? HS HF]. destruct (Qle_bool x y) eqn:E.
  - apply Qle_bool_iff in E. constructor; [constructor; assumption|]. constructor; [exact E|]. eapply Forall_impl; [|exact HF]. cbn. intros; lra.
  - apply Qle_bool_false in E. constructor; [apply IH; exact HS|]. rewrite <- insert_perm. constructor; [lra|exact HF].
Qed.
Lemma sort_sorted : forall l, StronglySorted Qle (sort l).
Proof. induction l as [|x r IH]; [constructor|]. apply insert_sorted. exact IH. Qed.
Lemma sorted_nth : forall l i j, StronglySorted Qle l -> i <= j < length l -> (nth i l 0 <= nth j l 0)%Q.
Proof.
  induction l as [|x r IH]; intros i j H B; cbn [length] in B; [lia|]. inversion_clear H as [|? ? HS HF]. destruct i, j; cbn [nth]; try lra; try lia.
  - rewrite Forall_forall in HF. apply HF. apply nth_In. lia.
  - apply IH; [exact HS|lia].
Qed.
Lemma count_perm : forall f l l', Permutation l l' -> count f l = count f l'.
Proof.
  unfold count. induction 1; cbn [filter]; try (destruct (f x)); try (destruct (f y)); cbn [length]; lia.
Qed.
Lemma count_prefix : forall f l k, k <= length l -> (forall i, i < k -> f (nth i l 0%Q) = true) -> k <= count f l.
Proof.
  unfold count. induction l as [|x r IH]; intros k L H; cbn [length] in L; [lia|]. destruct k; [lia|]. cbn [filter]. pose proof (H 0 ltac:(lia)) as H0; cbn [nth] in H0; rewrite H0. cbn [length].
  apply le_n_S, IH; [lia|]. intros i Hi. exact (H (S i) ltac:(lia)).
Qed.
Lemma count_suffix : forall f l k, k <= length l -> (forall i, k <= i < length l -> f (nth i l 0%Q) = true) -> length l - k <= count f l.
Proof.
  unfold count. induction l as [|x r IH]; intros k L H; cbn [length] in *; [lia|]. cbn [filter]. destruct k as [|k].
  - pose proof (H 0 ltac:(lia)) as H0; cbn [nth] in H0; rewrite H0. cbn [length]. specialize (IH 0 ltac:(lia)). assert (length r - 0 <= length (filter f r)); [|lia]. apply IH. intros i Hi. exact (H (S i) ltac:(lia)).
  - assert (length r - k <= length (filter f r)). { apply IH; [lia|]. intros i Hi. exact (H (S i) ltac:(lia)). } destruct (f x); cbn [length]; lia.
Qed.
Lemma sort_length : forall l, length (sort l) = length l.
Proof. intro l. symmetry. apply Permutation_length, sort_perm. Qed.
Lemma median_sides : forall l, l <> [] ->
  length l <= 2 * count (fun x => Qle_bool x (median l)) l /\ length l <= 2 * count (fun x => Qle_bool (median l) x) l /\
  (exists a b, In a l /\ In b l /\ (a <= median l <= b)%Q).
Proof.
  intros l N. assert (P : 0 < length l) by (destruct l; [congruence|cbn; lia]). pose proof (sort_sorted l) as S1. pose proof (sort_length l) as S2.
  assert (In_s : forall i, i < length l -> In (nth i (sort l) 0%Q) l) by (intros i Hi; eapply Permutation_in; [symmetry; apply sort_perm|apply nth_In; lia]).
  rewrite !(count_perm _ _ _ (sort_perm l)).
  assert (G : exists a b, a <= b /\ b < length l /\ length l <= 2 * (a + 1) /\ length l <= 2 * (length l - b) /\ (nth a (sort l) 0 <= median l <= nth b (sort l) 0)%Q).
  { unfold median. destruct (Nat.even (length l)) eqn:E.
    - apply Nat.even_spec in E. destruct E as [m E]. assert (length l / 2 = m) as -> by (rewrite E; symmetry; apply Nat.div_unique with 0; lia).
      exists (m - 1), m. pose proof (sorted_nth (sort l) (m - 1) m S1 ltac:(lia)) as B. repeat split; try lia; [apply Qle_shift_div_l|apply Qle_shift_div_r]; lra.
    - assert (O : Nat.odd (length l) = true) by (rewrite <- Nat.negb_even, E; reflexivity). apply Nat.odd_spec in O. destruct O as [m O]. assert (length l / 2 = m) as -> by (rewrite O; symmetry; apply Nat.div_unique with 1; lia).
      exists m, m. repeat split; try lia; apply Qle_refl. }
  destruct G as [a [b [AB [B [C1 [C2 [D1 D2]]]]]]]. set (m := median l) in *. split; [|split].
  - assert (a + 1 <= count (fun x => Qle_bool x m) (sort l)); [|lia]. apply count_prefix; [lia|]. intros i Hi. apply Qle_bool_iff. pose proof (sorted_nth (sort l) i a S1 ltac:(lia)). lra.
  - assert (length (sort l) - b <= count (fun x => Qle_bool m x) (sort l)); [|lia]. apply count_suffix; [lia|]. intros i Hi. apply Qle_bool_iff. pose proof (sorted_nth (sort l) b i S1 ltac:(lia)). lra.
  - exists (nth a (sort l) 0%Q), (nth b (sort l) 0%Q). split; [apply In_s; lia|]. split; [apply In_s; lia|]. split; assumption.
Qed.

(** The threshold of [bubbles_from_triangle2D] separates the slices' own thresholds: at least half
    of them are not above and at least half not below; the region lies between the regions of two
    of the slices' thresholds. *)
Theorem C50_triangle2D : forall tri c upper_lim loc_axis, slices c loc_axis <> [] ->
  exists t, triangle2D tri c upper_lim loc_axis = fixed_threshold (cells c) t upper_lim /\
  let ts := map tri (slices c loc_axis) in
  length ts <= 2 * count (fun x => Qle_bool x t) ts /\ length ts <= 2 * count (fun x => Qle_bool t x) ts /\
  exists a b, In a ts /\ In b ts /\ forall i, i < length (cells c) ->
    (marked (fixed_threshold (cells c) a true) i -> marked (fixed_threshold (cells c) t true) i) /\
    (marked (fixed_threshold (cells c) t true) i -> marked (fixed_threshold (cells c) b true) i).
Proof.
  intros tri c u ax N. exists (median (map tri (slices c ax))). split; [reflexivity|]. intro ts.
  destruct (median_sides ts) as [A [B [a [b [Ia [Ib [L1 L2]]]]]]]; [unfold ts; intro E; apply map_eq_nil in E; contradiction|].
  split; [exact A|]. split; [exact B|]. exists a, b. split; [exact Ia|]. split; [exact Ib|]. intros i Hi. fold ts. split; apply C50_fixed_monotone; assumption.
Qed.
Print Assumptions C50_triangle2D.

Lemma in_grid2 : forall a b f v, In v (grid2 a b f) <-> exists i j, i < a /\ j < b /\ v = f i j.
Proof.
  intros a b f v. unfold grid2. rewrite in_flat_map. split.
  - intros [i [Hi H]]. apply in_map_iff in H. destruct H as [j [E Hj]]. apply in_seq in Hi, Hj. exists i, j. repeat split; [lia|lia|congruence].
  - intros [i [j [Hi [Hj E]]]]. exists i. split; [apply in_seq; lia|]. apply in_map_iff. exists j. split; [congruence|apply in_seq; lia].
Qed.
(** The slices are those across axis [loc_axis] modulo three for -3..2; every other value of
    [loc_axis] silently means the last axis. *)
Theorem C50_slices : forall c, 
  let across (get : nat -> nat -> nat -> Q) n a b ls := length ls = n /\ forall s, s < n -> length (nth s ls []) = a * b /\ forall v, In v (nth s ls []) <-> exists p q, p < a /\ q < b /\ v = get s p q in
  (forall ax, ax = 0%Z \/ ax = (-3)%Z -> across (fun s p q => cell c s p q) (n0 c) (n1 c) (n2 c) (slices c ax)) /\
  (forall ax, ax = 1%Z \/ ax = (-2)%Z -> across (fun s p q => cell c p s q) (n1 c) (n0 c) (n2 c) (slices c ax)) /\
  (forall ax, ~ In ax [0; -3; 1; -2]%Z -> across (fun s p q => cell c p q s) (n2 c) (n0 c) (n1 c) (slices c ax)).
Proof.
  intros c across.
  assert (LG : forall a b f, length (grid2 a b f) = a * b).
  { intros a b f. unfold grid2. generalize 0 at 2. induction a as [|a IH]; intro z; [reflexivity|]. cbn [seq flat_map]. rewrite app_length, map_length, seq_length, IH. lia. }
  assert (G : forall n a b f, across (fun s p q => f s p q) n a b (map (fun s => grid2 a b (f s)) (seq 0 n))).
  { intros n a b f. split; [rewrite map_length, seq_length; reflexivity|]. intros s Hs.
    rewrite (nth_indep _ [] (grid2 a b (f 0))) by (rewrite map_length, seq_length; exact Hs). rewrite (map_nth (fun s => grid2 a b (f s))), seq_nth by exact Hs. split; [apply LG|]. intro v. apply in_grid2. }
  split; [|split]; intros ax H; unfold slices.
  - destruct H as [H|H]; subst ax; cbn [Z.eqb orb Pos.eqb]; apply (G (n0 c) (n1 c) (n2 c) (fun s p q => cell c s p q)).
  - destruct H as [H|H]; subst ax; cbn [Z.eqb orb Pos.eqb]; apply (G (n1 c) (n0 c) (n2 c) (fun s p q => cell c p s q)).
  - cbn [In] in H. rewrite !(proj2 (Z.eqb_neq ax _)) by (intro; apply H; auto). cbn [orb]. apply (G (n2 c) (n0 c) (n1 c) (fun s p q => cell c p q s)).
Qed.
Print Assumptions C50_slices.
Example C50_triangle2D_sat :
  let c := {| n0 := 1; n1 := 1; n2 := 3; cell := fun i j k => inject_Z (Z.of_nat k) |} in
  slices c 2 = [[0]; [1]; [2]]%Q /\ triangle2D (fun l => nth 0 l 0%Q) c true 2 = [true; true; false] /\ slices c 7 = slices c 2.
Proof. vm_compute. repeat split. Qed.

(** One threshold for the whole cube: a cell is marked iff it is on the chosen side of what the triangle method makes of all cells. A change of units in which
    the triangle method follows leaves the region alone, and a cube of one slice gives the same region by slices. *)
Theorem C50_triangle3D : forall tri data upper_lim, length (triangle3D tri data upper_lim) = length data /\
  (forall i, i < length data -> (marked (triangle3D tri data upper_lim) i <-> if upper_lim then (nth i data 0 <= tri data)%Q else (tri data <= nth i data 0)%Q)) /\
  (forall f, (forall a b, (a <= b <-> f a <= f b)%Q) -> (tri (map f data) == f (tri data))%Q -> triangle3D tri (map f data) upper_lim = triangle3D tri data upper_lim).
Proof.
  intros tri data u. destruct (C50_fixed data (tri data) u) as [A B]. split; [exact A|]. split; [exact B|]. intros f M T. unfold triangle3D, fixed_threshold. rewrite map_map. apply map_ext. intro v.
  destruct u; apply Bool.eq_iff_eq_true; rewrite !Qle_bool_iff, T, <- M; reflexivity.
Qed.
Print Assumptions C50_triangle3D.
Example C50_triangle3D_sat : let tri := fun l => ((nth 0 l 0 + nth 1 l 0) / 2)%Q in let f := fun x => (2 * x + 3)%Q in let data := [1; 5; 2; 4]%Q in
  (forall a b, (a <= b <-> f a <= f b)%Q) /\ (tri (map f data) == f (tri data))%Q /\ triangle3D tri data true = [true; false; true; false].
Proof. split; [intros a b; split; intro; lra|]. split; [vm_compute; reflexivity|]. vm_compute. reflexivity. Qed.
Theorem C50_triangle_one_slice : forall tri c upper_lim, n2 c = 1 -> triangle2D tri c upper_lim 2 = triangle3D tri (cells c) upper_lim.
Proof.
  intros tri c u N. unfold triangle2D, triangle3D. f_equal. unfold slices. cbn [Z.eqb orb]. rewrite N. cbn [seq map]. unfold median. cbn. f_equal. unfold cells, grid2. rewrite N.
  apply flat_map_ext. intro i. generalize (seq 0 (n1 c)). intro l. induction l as [|j l IH]; [reflexivity|]. cbn. rewrite IH. reflexivity.
Qed.
Print Assumptions C50_triangle_one_slice.
Example C50_triangle_one_slice_sat : let c := {| n0 := 2; n1 := 2; n2 := 1; cell := fun i j k => inject_Z (Z.of_nat (i + 3 * j)) |} in n2 c = 1 /\ triangle3D (fun l => nth 1 l 0%Q) (cells c) true = [true; true; true; false].
Proof. split; vm_compute; reflexivity. Qed.

(** * K-means *)
Lemma fold_qmax : forall r x, (x <= fold_left qmax r x)%Q /\ (forall y, In y r -> (y <= fold_left qmax r x)%Q) /\ (fold_left qmax r x = x \/ In (fold_left qmax r x) r).
Proof.
  induction r as [|y r IH]; intro x; cbn [fold_left]; [split; [lra|split; [intros ? []|left; reflexivity]]|].
  destruct (IH (qmax x y)) as [A [B C]]. unfold qmax in *. destruct (Qle_bool x y) eqn:E.
  - apply Qle_bool_iff in E. split; [lra|]. split; [intros z [Z|Z]; [subst; exact A|apply B; exact Z]|]. right. cbn [In]. destruct C as [C|C]; [left; symmetry; exact C|right; exact C].
  - apply Qle_bool_false in E. split; [exact A|]. split; [intros z [Z|Z]; [subst; lra|apply B; exact Z]|]. cbn [In]. destruct C as [C|C]; [left; exact C|right; right; exact C].
Qed.
Lemma maximum_spec : forall l, l <> [] -> exists m, maximum l = Some m /\ In m l /\ forall x, In x l -> (x <= m)%Q.
Proof.
  intros [|x r] N; [congruence|]. exists (fold_left qmax r x). split; [reflexivity|]. destruct (fold_qmax r x) as [A [B C]]. split; [cbn [In]; destruct C as [C|C]; [left; symmetry; exact C|right; exact C]|]. intros y [Y|Y]; [subst; exact A|apply B; exact Y].
Qed.
Lemma in_with_label : forall data labels l v, length data = length labels -> (In v (with_label data labels l) <-> exists i, i < length data /\ nth i labels 0 = l /\ nth i data 0%Q = v).
Proof.
  intros data labels l v L. unfold with_label. rewrite in_map_iff. split.
  - intros [[a b] [E H]]. cbn in E. subst a. apply filter_In in H. destruct H as [H B]. cbn in B. apply Nat.eqb_eq in B. subst b.
    destruct (In_nth _ _ (0%Q, 0) H) as [i [Hi Ei]]. rewrite combine_length, L, Nat.min_id in Hi. rewrite combine_nth in Ei by exact L. injection Ei as E1 E2. exists i. split; [lia|]. split; assumption.
  - intros [i [Hi [E1 E2]]]. exists (v, l). split; [reflexivity|]. apply filter_In. split; [|cbn; apply Nat.eqb_refl]. rewrite <- E1, <- E2. rewrite <- combine_nth by exact L. apply nth_In. rewrite combine_length, L, Nat.min_id. lia.
Qed.
Lemma with_label_nonempty : forall data labels l i, length data = length labels -> i < length data -> nth i labels 0 = l -> with_label data labels l <> [].
Proof. intros data labels l i L Hi E N. assert (H : In (nth i data 0%Q) (with_label data labels l)) by (apply in_with_label; [exact L|exists i; auto]). rewrite N in H. exact H. Qed.

(** A single-valued cube is one region, whatever the arguments. *)
Theorem C50_kmeans_single : forall fit data upper_lim n_clusters, (forall x y, In x data -> In y data -> (x == y)%Q) ->
  exists out, kmeans fit data upper_lim n_clusters = Some out /\ length out = length data /\ forall i, i < length data -> marked out i.
Proof.
  intros fit data u n H. unfold kmeans. assert (length (distinct data) < 2).
  { destruct data as [|x r]; [cbn; lia|]. assert (G : forall l, (forall y, In y l -> In y (x :: r)) -> length (distinct l) < 2); [|apply G; auto].
    induction l as [|a l IH]; intro I; cbn [distinct]; [cbn; lia|]. destruct l as [|b l]; [cbn; lia|]. replace (existsb (Qeq_bool a) (b :: l)) with true; [apply IH; intros; apply I; right; assumption|].
    symmetry. cbn [existsb]. replace (Qeq_bool a b) with true; [reflexivity|]. symmetry. apply Qeq_bool_iff. apply H; apply I; cbn; auto. }
  replace (length (distinct data) <? 2) with true by (symmetry; apply Nat.ltb_lt; assumption).
  eexists. split; [reflexivity|]. split; [apply map_length|]. intros i Hi. unfold marked. rewrite (nth_map_bool _ data i 0%Q Hi). reflexivity.
Qed.
Print Assumptions C50_kmeans_single.
Example C50_kmeans_single_sat : exists (data : list Q), (forall x y, In x data -> In y data -> (x == y)%Q).
Proof. exists [3; 3; 3]%Q. intros x y H K. cbn in H, K. repeat (destruct H as [<-|H]; [repeat (destruct K as [<-|K]; [reflexivity|]); destruct K|]). destruct H. Qed.

Lemma distinct_in : forall l x, In x (distinct l) -> In x l.
Proof. induction l as [|a l IH]; intros x H; [exact H|]. cbn [distinct] in H. destruct (existsb (Qeq_bool a) l); [right; apply IH; exact H|destruct H as [H|H]; [left; exact H|right; apply IH; exact H]]. Qed.
Lemma distinct_covers : forall l x, In x l -> exists y, In y (distinct l) /\ (x == y)%Q.
Proof.
  induction l as [|a l IH]; intros x H; [destruct H|]. cbn [distinct]. destruct (existsb (Qeq_bool a) l) eqn:E.
  - apply existsb_exists in E. destruct E as [b [Ib Eb]]. apply Qeq_bool_iff in Eb. destruct H as [H|H]; [subst; destruct (IH b Ib) as [y [Iy Ey]]; exists y; split; [exact Iy|rewrite Eb; exact Ey]|apply IH; exact H].
  - destruct H as [H|H]; [subst; exists x; split; [left; reflexivity|reflexivity]|]. destruct (IH x H) as [y [Iy Ey]]. exists y. split; [right; exact Iy|exact Ey].
Qed.
Lemma distinct_distinct : forall l, NoDupA Qeq (distinct l).
Proof.
  induction l as [|a l IH]; [constructor|]. cbn [distinct]. destruct (existsb (Qeq_bool a) l) eqn:E; [exact IH|]. constructor; [|exact IH].
  intro H. apply InA_alt in H. destruct H as [y [Ey Iy]]. assert (existsb (Qeq_bool a) l = true) by (apply existsb_exists; exists y; split; [apply distinct_in; exact Iy|apply Qeq_bool_iff; exact Ey]). congruence.
Qed.
Lemma distinct_two : forall l a b, (a < b)%Q -> In a l -> In b l -> (forall x, In x l -> (x == a)%Q \/ (x == b)%Q) -> length (distinct l) = 2.
Proof.
  intros l a b L Ia Ib H. destruct (distinct_covers l a Ia) as [a' [Ia' Ea]]. destruct (distinct_covers l b Ib) as [b' [Ib' Eb]]. pose proof (distinct_distinct l) as D.
  assert (G : forall x, In x (distinct l) -> (x == a)%Q \/ (x == b)%Q) by (intros; apply H, distinct_in; assumption).
  destruct (distinct l) as [|x [|y [|z r]]]; [destruct Ia'| |reflexivity|].
  - cbn in Ia', Ib'. destruct Ia' as [Ia'|[]], Ib' as [Ib'|[]]. subst. lra.
  - exfalso. inversion_clear D as [|? ? D1 D']. inversion_clear D' as [|? ? D2 _].
    assert (X1 : ~ (x == y)%Q) by (intro E; apply D1; left; exact E). assert (X2 : ~ (x == z)%Q) by (intro E; apply D1; right; left; exact E). assert (X3 : ~ (y == z)%Q) by (intro E; apply D2; left; exact E).
    destruct (G x ltac:(cbn; auto)), (G y ltac:(cbn; auto)), (G z ltac:(cbn; auto)); lra.
Qed.

(** Labels as two-means gives them: two classes, neither empty, equal cells in the same class. *)
Definition two_classes (data : list Q) (labels : list nat) : Prop :=
  length labels = length data /\ (forall i, i < length data -> nth i labels 0 < 2) /\
  (exists i, i < length data /\ nth i labels 0 = 0) /\ (exists i, i < length data /\ nth i labels 0 = 1) /\
  (forall i j, i < length data -> j < length data -> (nth i data 0 == nth j data 0)%Q -> nth i labels 0 = nth j labels 0).

Lemma kmeans_two_labels : forall data labels u, two_classes data labels -> exists m0 m1,
  threshold_kmeans data labels u = Some (map (fun v => if u then Qle_bool v (m0 / 2 + m1 / 2) else Qltb (m0 / 2 + m1 / 2) v) data, (m0 / 2 + m1 / 2)%Q) /\
  In m0 (with_label data labels 0) /\ (forall x, In x (with_label data labels 0) -> (x <= m0)%Q) /\
  In m1 (with_label data labels 1) /\ (forall x, In x (with_label data labels 1) -> (x <= m1)%Q).
Proof.
  intros data labels u [L [_ [[i [Hi Ei]] [[j [Hj Ej]] _]]]]. symmetry in L.
  destruct (maximum_spec _ (with_label_nonempty data labels 0 i L Hi Ei)) as [m0 [E0 [I0 M0]]].
  destruct (maximum_spec _ (with_label_nonempty data labels 1 j L Hj Ej)) as [m1 [E1 [I1 M1]]].
  exists m0, m1. unfold threshold_kmeans. rewrite E0, E1. repeat split; assumption.
Qed.

(** A cube with two values: exactly the cells with the low (high) value are marked, whichever of
    the labels stands for which value and whatever [n_clusters]. *)
Theorem C50_kmeans_two_values : forall fit data upper_lim n_clusters a b, (a < b)%Q -> In a data -> In b data ->
  (forall x, In x data -> (x == a)%Q \/ (x == b)%Q) -> two_classes data (fst (fit 2)) ->
  exists out, kmeans fit data upper_lim n_clusters = Some out /\ length out = length data /\
  forall i, i < length data -> (marked out i <-> (nth i data 0 == if upper_lim then a else b)%Q).
Proof.
  intros fit data u n a b L Ia Ib H T. unfold kmeans. rewrite (distinct_two data a b L Ia Ib H). cbn [Nat.ltb Nat.leb Nat.eqb].
  destruct (kmeans_two_labels data _ u T) as [m0 [m1 [E [I0 [M0 [I1 M1]]]]]]. rewrite E. cbn [option_map fst].
  eexists. split; [reflexivity|]. split; [apply map_length|]. intros i Hi. unfold marked. rewrite (nth_map_bool _ data i 0%Q Hi).
  destruct T as [LT [T1 [_ [_ T4]]]]. symmetry in LT. apply in_with_label in I0, I1; try exact LT. destruct I0 as [i0 [B0 [F0 G0]]], I1 as [i1 [B1 [F1 G1]]].
  assert (V0 : (m0 == a)%Q \/ (m0 == b)%Q) by (apply H; rewrite <- G0; apply nth_In; exact B0).
  assert (V1 : (m1 == a)%Q \/ (m1 == b)%Q) by (apply H; rewrite <- G1; apply nth_In; exact B1).
  assert (NE : ~ (m0 == m1)%Q) by (intro EQ; rewrite <- G0, <- G1 in EQ; apply T4 in EQ; [congruence|assumption|assumption]).
  assert (TT : (m0 / 2 + m1 / 2 == (a + b) / 2)%Q). { destruct V0 as [V0|V0], V1 as [V1|V1]; rewrite V0, V1 in *; try (exfalso; apply NE; reflexivity); field. }
  destruct (H (nth i data 0%Q) (nth_In _ _ Hi)) as [V|V]; destruct u; [rewrite Qle_bool_iff|rewrite Qltb_true|rewrite Qle_bool_iff|rewrite Qltb_true]; rewrite TT, V; setoid_replace ((a + b) / 2)%Q with ((a + b) * (1 # 2))%Q by field; split; intro; try lra.
Qed.
Print Assumptions C50_kmeans_two_values.
Example C50_kmeans_two_values_sat : let fit := fun k : nat => ([1; 0; 1], [5; 2]%Q) in two_classes [2; 5; 2]%Q (fst (fit 2)) /\ kmeans fit [2; 5; 2]%Q true 3 = Some [true; false; true].
Proof.
  split; [|reflexivity]. split; [reflexivity|]. cbn [fst length]. split; [intros [|[|[|i]]] H; cbn; lia|]. split; [exists 1; cbn; split; [lia|reflexivity]|]. split; [exists 0; cbn; split; [lia|reflexivity]|].
  intros [|[|[|i]]] [|[|[|j]]] Hi Hj E; cbn in *; try reflexivity; try lia; lra.
Qed.

(** With many values the cut is half way between the largest cells of the two classes: all of the
    lower class is below it, and the region is the lower class iff no cell of the higher class is
    at or below that cut. *)
Theorem C50_kmeans_two_clusters : forall data labels low, two_classes data labels -> low < 2 ->
  (forall i j, i < length data -> j < length data -> nth i labels 0 = low -> nth j labels 0 <> low -> (nth i data 0 < nth j data 0)%Q) ->
  exists out t mlow mhigh, threshold_kmeans data labels true = Some (out, t) /\ (t == (mlow + mhigh) / 2)%Q /\
    In mlow data /\ In mhigh data /\
    (forall i, i < length data -> nth i labels 0 = low -> (nth i data 0 <= mlow)%Q /\ marked out i) /\
    (forall i, i < length data -> nth i labels 0 <> low -> (nth i data 0 <= mhigh)%Q) /\
    ((forall i, i < length data -> (marked out i <-> nth i labels 0 = low)) <->
     (forall i, i < length data -> nth i labels 0 <> low -> ((mlow + mhigh) / 2 < nth i data 0)%Q)).
Proof.
  intros data labels low T Lw SEP. destruct (kmeans_two_labels data labels true T) as [m0 [m1 [E [I0 [M0 [I1 M1]]]]]]. destruct T as [LT [T1 _]]. symmetry in LT.
  assert (G : forall mlow mhigh, In mlow (with_label data labels low) -> (forall x, In x (with_label data labels low) -> (x <= mlow)%Q) ->
    In mhigh (with_label data labels (1 - low)) -> (forall x, In x (with_label data labels (1 - low)) -> (x <= mhigh)%Q) -> (m0 / 2 + m1 / 2 == (mlow + mhigh) / 2)%Q ->
    exists out t mlow mhigh, threshold_kmeans data labels true = Some (out, t) /\ (t == (mlow + mhigh) / 2)%Q /\
    In mlow data /\ In mhigh data /\
    (forall i, i < length data -> nth i labels 0 = low -> (nth i data 0 <= mlow)%Q /\ marked out i) /\
    (forall i, i < length data -> nth i labels 0 <> low -> (nth i data 0 <= mhigh)%Q) /\
    ((forall i, i < length data -> (marked out i <-> nth i labels 0 = low)) <->
     (forall i, i < length data -> nth i labels 0 <> low -> ((mlow + mhigh) / 2 < nth i data 0)%Q))).
  { intros ml mh Il Ml Ih Mh TT. eexists. exists (m0 / 2 + m1 / 2)%Q, ml, mh. split; [exact E|]. split; [exact TT|].
    apply in_with_label in Il, Ih; try exact LT. destruct Il as [il [Bl [Fl Gl]]], Ih as [ih [Bh [Fh Gh]]].
    split; [rewrite <- Gl; apply nth_In; exact Bl|]. split; [rewrite <- Gh; apply nth_In; exact Bh|].
    assert (LH : (ml < mh)%Q) by (rewrite <- Gl, <- Gh; apply SEP; try assumption; lia).
    assert (MK : forall i, i < length data -> (marked (map (fun v => Qle_bool v (m0 / 2 + m1 / 2)) data) i <-> (nth i data 0 <= (ml + mh) / 2)%Q)) by (intros i Hi; unfold marked; rewrite (nth_map_bool _ data i 0%Q Hi), Qle_bool_iff, TT; reflexivity).
    assert (LO : forall i, i < length data -> nth i labels 0 = low -> (nth i data 0 <= ml)%Q) by (intros i Hi El; apply Ml, in_with_label; [exact LT|exists i; auto]).
    assert (H2 : ((ml + mh) / 2 == (ml + mh) * (1 # 2))%Q) by field.
    split; [intros i Hi El; split; [apply LO; assumption|apply MK; [exact Hi|specialize (LO i Hi El); rewrite H2; lra]]|].
    split; [intros i Hi El; apply Mh, in_with_label; [exact LT|]; exists i; specialize (T1 i Hi); repeat split; [exact Hi|lia]|].
    split.
    - intros A i Hi El. apply Qnot_le_lt. intro C. apply El, A; [exact Hi|]. apply MK; assumption.
    - intros A i Hi. rewrite (MK i Hi). split.
      + intro C. destruct (Nat.eq_dec (nth i labels 0) low) as [D|D]; [exact D|]. specialize (A i Hi D). lra.
      + intro D. specialize (LO i Hi D). rewrite H2. lra. }
  destruct low as [|[|low]]; [apply (G m0 m1)|apply (G m1 m0)|lia]; try assumption; field.
Qed.
Print Assumptions C50_kmeans_two_clusters.
Example C50_kmeans_two_clusters_sat : exists (data : list Q) (labels : list nat) (low : nat), two_classes data labels /\ low < 2 /\ (forall i j, i < length data -> j < length data -> nth i labels 0 = low -> nth j labels 0 <> low -> (nth i data 0 < nth j data 0)%Q).
Proof. exists [1; 9; 2]%Q, [1; 0; 1], 1. split; [|split; [lia|intros [|[|[|i]]] [|[|[|j]]] A B; cbn in A, B; try lia; cbn; intros; try lia; reflexivity]].
  split; [reflexivity|]. split; [intros [|[|[|i]]] A; cbn in A; try lia; cbn; lia|]. split; [exists 1; cbn; lia|]. split; [exists 0; cbn; lia|]. intros [|[|[|i]]] [|[|[|j]]] A B; cbn in A, B; try lia; cbn; intro E; try reflexivity; discriminate. Qed.

(** K-means that has converged: every cell is labelled with a nearest centre. *)
Definition nearest_centre (data : list Q) (labels : list nat) (centres : list Q) : Prop :=
  length labels = length data /\ forall i, i < length data -> nth i labels 0 < length centres /\
  forall j, j < length centres -> ((nth i data 0 - nth (nth i labels 0%nat) centres 0) ^ 2 <= (nth i data 0 - nth j centres 0) ^ 2)%Q.
Definition class_mean (data : list Q) (labels : list nat) (l : nat) : Q :=
  (qsum (with_label data labels l) / inject_Z (Z.of_nat (length (with_label data labels l))))%Q.
(** Refuted: "with two clusters the region is one of the clusters". Converged two-means on
    0, 0, 0, 5, 5, 5, 11 has the class {5, 11}; the cut is 5.5 and the fives are marked. *)
Theorem C50_kmeans_two_clusters_refuted : exists data labels, two_classes data labels /\
  nearest_centre data labels [class_mean data labels 0; class_mean data labels 1] /\
  (class_mean data labels 0 < class_mean data labels 1)%Q /\
  exists out t i, threshold_kmeans data labels true = Some (out, t) /\ i < length data /\ nth i labels 0 = 1 /\ marked out i.
Proof.
  exists [0; 0; 0; 5; 5; 5; 11]%Q, [0; 0; 0; 1; 1; 1; 1]. split; [|split; [|split; [reflexivity|]]].
  - split; [reflexivity|]. split; [intros i Hi; do 7 (destruct i; [cbn; lia|]); cbn in Hi; lia|]. split; [exists 0; cbn; split; [lia|reflexivity]|]. split; [exists 3; cbn; split; [lia|reflexivity]|].
    intros i j Hi Hj. do 7 (destruct i; [do 7 (destruct j; [vm_compute; intro E; try reflexivity; discriminate|]); cbn in Hj; lia|]). cbn in Hi. lia.
  - split; [reflexivity|]. intros i Hi. split; [do 7 (destruct i; [cbn; lia|]); cbn in Hi; lia|]. intros j Hj. do 7 (destruct i; [destruct j as [|[|j]]; [vm_compute; discriminate|vm_compute; discriminate|cbn in Hj; lia]|]). cbn in Hi. lia.
  - eexists. eexists. exists 3. split; [reflexivity|]. split; [cbn; lia|]. split; reflexivity.
Qed.
Print Assumptions C50_kmeans_two_clusters_refuted.

Lemma arg_best_spec : forall (flip : bool) l i best v (L : list Q),
  let better := if flip then (fun a b => Qltb b a) else (fun a b => Qltb a b) in
  let le := if flip then (fun a b => (b <= a)%Q) else (fun a b => (a <= b)%Q) in
  (forall k, k < length l -> nth (i + k) L 0%Q = nth k l 0%Q) -> nth best L 0%Q = v -> best < i -> i + length l = length L ->
  (forall k, k < i -> le v (nth k L 0%Q)) ->
  let r := arg_best better l i best v in r < length L /\ forall k, k < length L -> le (nth r L 0%Q) (nth k L 0%Q).
Proof.
  intros flip. induction l as [|x l IH]; intros i best v L better le N B Bi LL H; cbn [arg_best length] in *.
  - split; [lia|]. intros k Hk. rewrite B. apply H. lia.
  - assert (X : nth i L 0%Q = x) by (specialize (N 0 ltac:(lia)); rewrite Nat.add_0_r in N; exact N).
    assert (N' : forall k, k < length l -> nth (S i + k) L 0%Q = nth k l 0%Q) by (intros k Hk; specialize (N (S k) ltac:(lia)); cbn [nth] in N; rewrite <- N; f_equal; lia).
    destruct (better x v) eqn:E.
    + apply (IH (S i) i x L); [exact N'|exact X|lia|lia|]. intros k Hk. destruct (Nat.eq_dec k i) as [D|D]; [subst k; rewrite X; destruct flip; unfold le; lra|]. specialize (H k ltac:(lia)). destruct flip; unfold le, better in *; apply Qltb_true in E; lra.
    + apply (IH (S i) best v L); [exact N'|exact B|lia|lia|]. intros k Hk. destruct (Nat.eq_dec k i) as [D|D]; [subst k; rewrite X; destruct flip; unfold le, better in *; apply Qltb_false in E; lra|]. apply H. lia.
Qed.
Lemma argmin_spec : forall l, l <> [] -> argmin l < length l /\ forall k, k < length l -> (nth (argmin l) l 0 <= nth k l 0)%Q.
Proof.
  intros [|x r] N; [congruence|]. unfold argmin. apply (arg_best_spec false r 1 0 x (x :: r)); try reflexivity; try lia.
  intros k Hk. destruct k; [cbn; lra|lia].
Qed.
Lemma argmax_spec : forall l, l <> [] -> argmax l < length l /\ forall k, k < length l -> (nth k l 0 <= nth (argmax l) l 0)%Q.
Proof.
  intros [|x r] N; [congruence|]. unfold argmax. apply (arg_best_spec true r 1 0 x (x :: r)); try reflexivity; try lia.
  intros k Hk. destruct k; [cbn; lra|lia].
Qed.

(** Three clusters: a cell is marked if it is nearer to the lowest centre than to all others and
    not marked if nearer to another one, so the region is all cells below a cut (above, for lower
    limits). *)
Theorem C50_kmeans_three_clusters : forall data labels centres upper_lim, nearest_centre data labels centres -> centres <> [] ->
  (forall j k, j < k < length centres -> ~ (nth j centres 0 == nth k centres 0)%Q) ->
  let out := threshold_kmeans_3cluster labels centres upper_lim in
  exists m, m < length centres /\
  (forall j, j < length centres -> if upper_lim then (nth m centres 0 <= nth j centres 0)%Q else (nth j centres 0 <= nth m centres 0)%Q) /\
  length out = length data /\
  (forall i, i < length data -> (marked out i <-> nth i labels 0 = m)) /\
  (forall i j, i < length data -> j < length data -> marked out i ->
    (if upper_lim then nth j data 0 < nth i data 0 else nth i data 0 < nth j data 0)%Q -> marked out j) /\
  forall i, i < length data ->
    ((forall j, j < length centres -> j <> m -> if upper_lim then (nth i data 0 < (nth m centres 0 + nth j centres 0) / 2)%Q else ((nth m centres 0 + nth j centres 0) / 2 < nth i data 0)%Q) -> marked out i) /\
    ((exists j, j < length centres /\ j <> m /\ if upper_lim then ((nth m centres 0 + nth j centres 0) / 2 < nth i data 0)%Q else (nth i data 0 < (nth m centres 0 + nth j centres 0) / 2)%Q) -> ~ marked out i).
Proof.
  intros data labels centres u [L NC] NE DC out. set (m := if u then argmin centres else argmax centres).
  assert (Mm : m < length centres /\ forall j, j < length centres -> if u then (nth m centres 0 <= nth j centres 0)%Q else (nth j centres 0 <= nth m centres 0)%Q).
  { unfold m. destruct u; [apply argmin_spec|apply argmax_spec]; exact NE. }
  destruct Mm as [Bm Mm]. exists m. split; [exact Bm|]. split; [exact Mm|].
  assert (DM : forall j, j < length centres -> j <> m -> if u then (nth m centres 0 < nth j centres 0)%Q else (nth j centres 0 < nth m centres 0)%Q).
  { intros j Bj Nj. specialize (Mm j Bj). assert (~ (nth m centres 0 == nth j centres 0)%Q). { destruct (Nat.lt_total m j) as [D|[D|D]]; [apply DC; lia|lia|intro E; apply (DC j m ltac:(lia)); symmetry; exact E]. } destruct u; lra. }
  split; [unfold out, threshold_kmeans_3cluster; rewrite map_length; exact L|].
  assert (MK : forall i, i < length data -> (marked out i <-> nth i labels 0 = m)).
  { intros i Hi. unfold marked, out, threshold_kmeans_3cluster. fold m. rewrite (nth_map_bool _ labels i 0) by lia. apply Nat.eqb_eq. }
  split; [exact MK|].
  assert (A1 : forall i, i < length data -> nth i labels 0 = m -> forall j, j < length centres -> j <> m -> if u then (nth i data 0 * 2 <= nth m centres 0 + nth j centres 0)%Q else (nth m centres 0 + nth j centres 0 <= nth i data 0 * 2)%Q).
  { intros i Hi El j Bj Nj. destruct (NC i Hi) as [_ N]. specialize (N j Bj). rewrite El in N. specialize (DM j Bj Nj). destruct u; nra. }
  assert (A2 : forall i, i < length data -> (forall j, j < length centres -> j <> m -> if u then (nth i data 0 * 2 < nth m centres 0 + nth j centres 0)%Q else (nth m centres 0 + nth j centres 0 < nth i data 0 * 2)%Q) -> nth i labels 0 = m).
  { intros i Hi H. destruct (Nat.eq_dec (nth i labels 0) m) as [D|D]; [exact D|]. destruct (NC i Hi) as [B N]. specialize (N m Bm). specialize (H _ B D). specialize (DM _ B D). destruct u; exfalso; nra. }
  assert (HF : forall a b, ((a + b) / 2 == (a + b) * (1 # 2))%Q) by (intros; field).
  split.
  - intros i j Hi Hj K LT. apply MK; [exact Hj|]. apply MK in K; [|exact Hi]. apply A2; [exact Hj|]. intros k Bk Nk. specialize (A1 i Hi K k Bk Nk). destruct u; lra.
  - intros i Hi. split.
    + intro H. apply MK; [exact Hi|]. apply A2; [exact Hi|]. intros j Bj Nj. specialize (H j Bj Nj). destruct u; rewrite HF in H; lra.
    + intros [j [Bj [Nj H]]] K. apply MK in K; [|exact Hi]. specialize (A1 i Hi K j Bj Nj). destruct u; rewrite HF in H; lra.
Qed.
Print Assumptions C50_kmeans_three_clusters.
Example C50_kmeans_three_clusters_sat : exists (data : list Q) (labels : list nat) (centres : list Q), nearest_centre data labels centres /\ centres <> [] /\ (forall j k, j < k < length centres -> ~ (nth j centres 0 == nth k centres 0)%Q).
Proof. exists [1; 9; 5]%Q, [0; 2; 1], [1; 5; 9]%Q. split; [|split; [discriminate|intros [|[|[|j]]] [|[|[|k]]] [A B]; cbn in A, B; try lia; discriminate]].
  split; [reflexivity|]. intros [|[|[|i]]] A; cbn in A; try lia; (split; [cbn; lia|]); intros [|[|[|j]]] B; cbn in B; try lia; cbn [nth]; unfold Qle; cbn; lia. Qed.
Example C50_kmeans_three_sat : nearest_centre [1; 9; 5; 2]%Q [2; 0; 1; 2] [9; 5; 3 # 2]%Q /\ threshold_kmeans_3cluster [2; 0; 1; 2] [9; 5; 3 # 2]%Q true = [true; false; false; true].
Proof.
  split; [|reflexivity]. split; [reflexivity|]. intros i Hi. split; [do 4 (destruct i; [cbn; lia|]); cbn in Hi; lia|]. intros j Hj. do 4 (destruct i; [do 3 (destruct j; [vm_compute; discriminate|]); cbn in Hj; lia|]). cbn in Hi; lia.
Qed.
(** [n_clusters] other than two always means three clusters. *)
Theorem C50_kmeans_n_clusters : forall fit data upper_lim n n', n <> 2 -> n' <> 2 -> kmeans fit data upper_lim n = kmeans fit data upper_lim n'.
Proof.
  intros fit data u n n' H H'. unfold kmeans. destruct (length (distinct data) <? 2); [reflexivity|]. destruct (length (distinct data) =? 2); [reflexivity|].
  rewrite (proj2 (Nat.eqb_neq n 2) H), (proj2 (Nat.eqb_neq n' 2) H'). reflexivity.
Qed.
Print Assumptions C50_kmeans_n_clusters.
