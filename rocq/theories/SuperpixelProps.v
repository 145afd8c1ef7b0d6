(** C29: superpixel operators. *)
From Coq Require Import List Arith ZArith Bool Lia Reals Lra Sorting.Permutation Sorting.Sorted.
From Verif Require Import RLib StatsModel SuperpixelModel SuperpixelSpec.
Import ListNotations.

(** * np.unique *)
Lemma insert_in : forall x l z, In z (insert_label x l) <-> z = x \/ In z l.
Proof.
  induction l as [|y l IH]; intro z; simpl; [intuition|].
  destruct (Z.ltb_spec x y); [simpl; intuition|].
  destruct (Z.eqb_spec x y); [subst; simpl; intuition|].
  simpl. rewrite IH. intuition.
Qed.
Lemma insert_sorted : forall x l, StronglySorted Z.lt l -> StronglySorted Z.lt (insert_label x l).
Proof.
  induction l as [|y l IH]; intro S; simpl; [repeat constructor|].
  pose proof (StronglySorted_inv S) as [S1 S2].
  destruct (Z.ltb_spec x y).
  - constructor; [exact S|]. constructor; [assumption|].
    eapply Forall_impl; [|exact S2]. cbv beta; intros; lia.
  - destruct (Z.eqb_spec x y); [exact S|]. constructor; [auto|].
    rewrite Forall_forall in *. intros z Hz. apply insert_in in Hz. destruct Hz as [->|Hz]; [lia|auto].
Qed.
Lemma unique_in : forall y z, In z (unique y) <-> In z y.
Proof. induction y as [|x y IH]; intro z; simpl; [tauto|]. rewrite insert_in, IH. intuition. Qed.
Lemma unique_sorted : forall y, StronglySorted Z.lt (unique y).
Proof. induction y; simpl; [constructor|apply insert_sorted; auto]. Qed.
Lemma sorted_ext : forall l l', StronglySorted Z.lt l -> StronglySorted Z.lt l' ->
  (forall z, In z l <-> In z l') -> l = l'.
Proof.
  induction l as [|x l IH]; intros [|y l'] S S' H.
  - reflexivity.
  - exfalso. apply (proj2 (H y)). left. reflexivity.
  - exfalso. apply (proj1 (H x)). left. reflexivity.
  - apply StronglySorted_inv in S. apply StronglySorted_inv in S'. destruct S as [S F], S' as [S' F'].
    rewrite Forall_forall in F, F'.
    assert (x = y).
    { destruct (proj1 (H x) (or_introl eq_refl)) as [E|Hx]; [auto|].
      destruct (proj2 (H y) (or_introl eq_refl)) as [E|Hy]; [auto|].
      pose proof (F y Hy). pose proof (F' x Hx). lia. }
    subst y. f_equal. apply IH; auto. intro z. split; intro Hz.
    + destruct (proj1 (H z) (or_intror Hz)) as [<-|]; auto. pose proof (F x Hz). lia.
    + destruct (proj2 (H z) (or_intror Hz)) as [<-|]; auto. pose proof (F' x Hz). lia.
Qed.
Lemma range_sorted : forall k a, StronglySorted Z.lt (map Z.of_nat (seq a k)).
Proof.
  induction k as [|k IH]; intro a; simpl; constructor; auto.
  rewrite Forall_forall. intros z Hz. apply in_map_iff in Hz. destruct Hz as [n [<- Hn]]. apply in_seq in Hn. lia.
Qed.
Lemma contiguous_unique : forall labels k, contiguous labels k -> unique labels = map Z.of_nat (seq 0 k).
Proof.
  intros labels k H. apply sorted_ext; [apply unique_sorted|apply range_sorted|].
  intro z. rewrite unique_in, (H z), in_map_iff. split.
  - intro B. exists (Z.to_nat z). rewrite in_seq. lia.
  - intros [n [<- Hn]]. apply in_seq in Hn. lia.
Qed.
Lemma sorted_nodup : forall l, StronglySorted Z.lt l -> NoDup l.
Proof.
  induction 1 as [|x l _ IH F]; constructor; auto. rewrite Forall_forall in F.
  intro C. pose proof (F x C). lia.
Qed.

(** * Sorted lists are the concatenation of their groups *)
Definition grp (key : nat -> Z) (z : Z) (order : list nat) : list nat := filter (fun k => Z.eqb (key k) z) order.
Definition asc (key : nat -> Z) (order : list nat) : Prop := StronglySorted (fun a b => (key a <= key b)%Z) order.

Lemma grp_head : forall key z order, asc key order -> (forall k, In k order -> (z <= key k)%Z) ->
  order = grp key z order ++ filter (fun k => Z.ltb z (key k)) order.
Proof.
  intros key z. induction order as [|a l IH]; intros S H; [reflexivity|].
  apply StronglySorted_inv in S. destruct S as [S F]. rewrite Forall_forall in F.
  unfold grp. simpl. destruct (Z.eqb_spec (key a) z) as [E|E].
  - destruct (Z.ltb_spec z (key a)); [lia|]. simpl. f_equal. apply IH; auto. intros; apply H; right; auto.
  - assert (z < key a)%Z by (specialize (H a (or_introl eq_refl)); lia).
    destruct (Z.ltb_spec z (key a)); [|lia].
    assert (G : forall P, (forall k, In k l -> P k = false) -> filter P l = []).
    { intros P. clear. induction l as [|x l IH]; intro HP; [reflexivity|].
      simpl. rewrite HP by (left; reflexivity). apply IH. intros; apply HP; right; auto. }
    rewrite G.
    + simpl. f_equal. symmetry. clear IH S G H. induction l as [|x l IH]; [reflexivity|]. simpl.
      assert (key a <= key x)%Z by (apply F; left; auto). destruct (Z.ltb_spec z (key x)); [|lia].
      f_equal. apply IH. intros; apply F; right; auto.
    + intros k Hk. pose proof (F k Hk). destruct (Z.eqb_spec (key k) z); [lia|reflexivity].
Qed.
Lemma asc_filter : forall key P order, asc key order -> asc key (filter P order).
Proof.
  intros key P order. induction 1 as [|a l S IH F]; simpl; [constructor|].
  destruct (P a); [|exact IH]. constructor; [exact IH|]. rewrite Forall_forall in *.
  intros x Hx. apply filter_In in Hx. apply F. tauto.
Qed.
Lemma grp_filter : forall key z z' order, (z < z')%Z ->
  grp key z' (filter (fun k => Z.ltb z (key k)) order) = grp key z' order.
Proof.
  intros key z z' order H. unfold grp. induction order as [|a l IH]; [reflexivity|]. simpl.
  destruct (Z.ltb_spec z (key a)); simpl; rewrite IH; [reflexivity|].
  destruct (Z.eqb_spec (key a) z'); [lia|reflexivity].
Qed.
Lemma groups : forall key k a order, asc key order ->
  (forall p, In p order -> (Z.of_nat a <= key p < Z.of_nat (a + k))%Z) ->
  order = flat_map (fun z => grp key z order) (map Z.of_nat (seq a k)).
Proof.
  induction k as [|k IH]; intros a order SS H.
  - destruct order as [|p l]; [reflexivity|]. specialize (H p (or_introl eq_refl)). lia.
  - simpl. rewrite (grp_head key (Z.of_nat a) order SS) at 1 by (intros p Hp; apply H in Hp; lia).
    f_equal. set (rest := filter _ order).
    rewrite (IH (S a) rest) at 1.
    + assert (G : forall l, (forall z, In z l -> (Z.of_nat a < z)%Z) ->
        flat_map (fun z => grp key z rest) l = flat_map (fun z => grp key z order) l).
      { induction l as [|z l IHl]; intro Hl; [reflexivity|]. simpl. rewrite IHl by (intros; apply Hl; right; auto).
        f_equal. apply grp_filter. apply Hl. left. reflexivity. }
      apply G. intros z Hz. apply in_map_iff in Hz. destruct Hz as [n [<- Hn]]. apply in_seq in Hn. lia.
    + apply asc_filter. exact SS.
    + intros p Hp. unfold rest in Hp. apply filter_In in Hp. destruct Hp as [Hp L]. apply Z.ltb_lt in L.
      apply H in Hp. lia.
Qed.

(** * The loop *)
Lemma py_index_nonneg : forall {A} (l : list A) n, py_index l (Z.of_nat n) = nth_error l n.
Proof.
  intros A l n. unfold py_index. destruct (Z.ltb_spec (Z.of_nat n) 0); [lia|]. rewrite Nat2Z.id. reflexivity.
Qed.
Lemma loop_groups : forall {A B} (op : list A -> B) num x1 g r a low,
  (forall i, (a <= i < a + r)%nat -> nth_error num i = Some (length (g i : list A))) ->
  skipn low x1 = flat_map g (seq a r) ->
  operator_loop op num x1 low (map Z.of_nat (seq a r)) = Some (map (fun i => op (g i)) (seq a r)).
Proof.
  intros A B op num x1 g. induction r as [|r IH]; intros a low Hn Hs; [reflexivity|].
  cbn [seq map operator_loop]. rewrite py_index_nonneg, (Hn a) by lia.
  rewrite (IH (S a) (low + length (g a))%nat).
  - f_equal. f_equal. rewrite Hs. cbn [seq flat_map].
    replace (low + length (g a) - low)%nat with (length (g a) + 0)%nat by lia.
    rewrite firstn_app_2. rewrite firstn_O, app_nil_r. reflexivity.
  - intros i Hi. apply Hn. lia.
  - replace (low + length (g a))%nat with (length (g a) + low)%nat by lia.
    assert (SK : forall (l : list A) u v, skipn (u + v) l = skipn u (skipn v l)).
    { clear. induction l as [|x l IH]; intros u v; [rewrite !skipn_nil; reflexivity|].
      destruct v; simpl; [rewrite Nat.add_0_r; reflexivity|]. rewrite Nat.add_succ_r. simpl. apply IH. }
    rewrite SK, Hs. cbn [seq flat_map]. rewrite skipn_app, skipn_all, Nat.sub_diag. reflexivity.
Qed.

Lemma strongly_of_nth : forall (key : nat -> Z) order,
  (forall i j, (i < j < length order)%nat -> (key (nth i order 0%nat) <= key (nth j order 0%nat))%Z) -> asc key order.
Proof.
  induction order as [|a l IH]; intro H; [constructor|]. constructor.
  - apply IH. intros i j Hij. apply (H (S i) (S j)). simpl. lia.
  - rewrite Forall_forall. intros x Hx. destruct (In_nth l x 0%nat Hx) as [n [Hn <-]].
    apply (H 0%nat (S n)). simpl. lia.
Qed.
Lemma filter_perm : forall {A} (P : A -> bool) l l', Permutation l l' -> Permutation (filter P l) (filter P l').
Proof.
  induction 1; simpl; auto.
  - destruct (P x); auto.
  - destruct (P x), (P y); auto. apply perm_swap.
  - eapply perm_trans; eauto.
Qed.
Lemma combine_seq : forall {A} (d : A) (data : list A) (labels : list Z), length data = length labels ->
  combine data labels = map (fun k => (nth k data d, nth k labels 0%Z)) (seq 0 (length labels)).
Proof.
  intros A d. induction data as [|x data IH]; intros [|z labels] H; try discriminate; [reflexivity|].
  simpl. f_equal. rewrite <- seq_shift, map_map. apply IH. simpl in H. lia.
Qed.
Lemma label_data_seq : forall {A} (d : A) data labels z, length data = length labels ->
  label_data data labels z = map (fun k => nth k data d) (grp (fun k => nth k labels 0%Z) z (seq 0 (length labels))).
Proof.
  intros A d data labels z H. unfold label_data. rewrite (combine_seq d) by exact H. unfold grp.
  induction (seq 0 (length labels)) as [|k l IH]; [reflexivity|]. simpl.
  destruct (Z.eqb (nth k labels 0%Z) z); simpl; rewrite IH; reflexivity.
Qed.
Lemma count_grp : forall labels z,
  count_occ Z.eq_dec labels z = length (grp (fun k => nth k labels 0%Z) z (seq 0 (length labels))).
Proof.
  intros labels z. unfold grp. induction labels as [|x labels IH]; [reflexivity|].
  cbn [length seq filter]. change (nth 0 (x :: labels) 0%Z) with x. rewrite <- seq_shift.
  assert (E : length (filter (fun k => Z.eqb (nth k (x :: labels) 0%Z) z) (map S (seq 0 (length labels))))
            = length (filter (fun k => Z.eqb (nth k labels 0%Z) z) (seq 0 (length labels)))).
  { clear IH. induction (seq 0 (length labels)) as [|k l IHl]; [reflexivity|]. simpl. simpl in IHl.
    destruct (Z.eqb (nth k labels 0%Z) z); simpl; rewrite IHl; reflexivity. }
  cbn [count_occ]. destruct (Z.eq_dec x z) as [->|N].
  - rewrite Z.eqb_refl. cbn [length]. rewrite E, IH. reflexivity.
  - destruct (Z.eqb_spec x z); [contradiction|]. rewrite E, IH. reflexivity.
Qed.

Lemma apply_contiguous : forall {A B} (op : list A -> B) d order data labels k,
  contiguous labels k -> sorts labels order -> length data = length labels ->
  apply_operator_labelled_data op d order data labels =
  Some (map (fun i => op (map (fun p => nth p data d) (grp (fun p => nth p labels 0%Z) (Z.of_nat i) order))) (seq 0 k)).
Proof.
  intros A B op d order data labels k C [P S] L. unfold apply_operator_labelled_data.
  rewrite (contiguous_unique labels k C).
  set (key := fun p => nth p labels 0%Z).
  apply loop_groups with (g := fun i => map (fun p => nth p data d) (grp key (Z.of_nat i) order)).
  - intros i Hi. unfold counts. rewrite (contiguous_unique labels k C), map_map.
    rewrite nth_error_map. replace (nth_error (seq 0 k) i) with (Some i).
    + simpl. f_equal. rewrite map_length, count_grp. apply Permutation_length. apply filter_perm. symmetry. exact P.
    + symmetry. rewrite nth_error_nth' with (d := 0%nat) by (rewrite seq_length; lia). rewrite seq_nth by lia. reflexivity.
  - cbn [skipn]. rewrite (groups key k 0 order) at 1.
    + clear. induction (seq 0 k) as [|i l IH]; [reflexivity|]. simpl. rewrite map_app, IH. reflexivity.
    + apply strongly_of_nth. exact S.
    + intros p Hp. eapply Permutation_in in Hp; [|exact P]. apply in_seq in Hp.
      assert (In (key p) labels) by (apply nth_In; lia). apply C in H. lia.
Qed.

(** When the labels in use are 0 .. k-1, output i is the operator applied to the data of
    label i (in some order), whatever order the sort gives to equal labels. *)
Theorem C29_contiguous_labels : forall {A B} (op : list A -> B) d order data labels k,
  contiguous labels k -> sorts labels order -> length data = length labels ->
  exists out, apply_operator_labelled_data op d order data labels = Some out /\ length out = k /\
    forall i, (i < k)%nat -> exists s, nth_error out i = Some (op s) /\
      Permutation s (label_data data labels (Z.of_nat i)).
Proof.
  intros A B op d order data labels k C S L. rewrite (apply_contiguous op d order data labels k C S L).
  eexists. split; [reflexivity|]. rewrite map_length, seq_length. split; [reflexivity|].
  intros i Hi. eexists. split.
  - rewrite nth_error_map, nth_error_nth' with (d := 0%nat) by (rewrite seq_length; exact Hi).
    rewrite seq_nth by exact Hi. reflexivity.
  - cbn. rewrite (label_data_seq d) by exact L. apply Permutation_map. apply filter_perm. apply S.
Qed.
Print Assumptions C29_contiguous_labels.

Lemma loop_none : forall {A B} (op : list A -> B) num x1 elems low, 
  (exists e, In e elems /\ py_index num e = None) -> operator_loop op num x1 low elems = None.
Proof.
  induction elems as [|i r IH]; intros low [e [He N]]; [contradiction|]. cbn [operator_loop].
  destruct He as [<-|He]; [rewrite N; reflexivity|].
  destruct (py_index num i); [|reflexivity]. rewrite IH; [reflexivity|]. exists e. auto.
Qed.
(** With non-negative labels the function returns exactly when the labels in use are
    0 .. k-1 for some k, and raises otherwise. *)
Theorem C29_returns_iff_contiguous : forall {A B} (op : list A -> B) d order data labels,
  (forall z, In z labels -> (0 <= z)%Z) -> sorts labels order -> length data = length labels ->
  ((exists out, apply_operator_labelled_data op d order data labels = Some out) <->
   exists k, contiguous labels k).
Proof.
  intros A B op d order data labels Hp S L. split.
  2:{ intros [k C]. rewrite (apply_contiguous op d order data labels k C S L). eauto. }
  intros [out E]. exists (length (unique labels)).
  assert (B1 : forall z, In z (unique labels) -> In z (map Z.of_nat (seq 0 (length (unique labels))))).
  { intros z Hz. assert (0 <= z)%Z by (apply Hp; apply unique_in; exact Hz).
    destruct (Z_lt_le_dec z (Z.of_nat (length (unique labels)))) as [|Hge].
    - apply in_map_iff. exists (Z.to_nat z). rewrite in_seq. lia.
    - exfalso. unfold apply_operator_labelled_data in E. rewrite loop_none in E; [discriminate|].
      exists z. split; [exact Hz|]. unfold py_index. destruct (Z.ltb_spec z 0); [lia|].
      apply nth_error_None. unfold counts. rewrite map_length. lia. }
  assert (B2 : forall z, In z (map Z.of_nat (seq 0 (length (unique labels)))) -> In z (unique labels)).
  { apply NoDup_length_incl; [apply sorted_nodup, unique_sorted| |exact B1].
    rewrite map_length, seq_length. lia. }
  intro z. rewrite <- unique_in. split; intro H.
  - apply B1 in H. apply in_map_iff in H. destruct H as [n [<- Hn]]. apply in_seq in Hn. lia.
  - apply B2. apply in_map_iff. exists (Z.to_nat z). rewrite in_seq. lia.
Qed.
Print Assumptions C29_returns_iff_contiguous.

(** With negative labels it can return slices that mix labels. *)
Theorem C29_negative_labels_refuted :
  let labels := [-1; -1; 0]%Z in
  sorts labels [0; 1; 2]%nat /\
  apply_operator_labelled_data (fun s => s) 0%nat [0; 1; 2]%nat [10; 20; 30]%nat labels = Some [[10]; [20; 30]]%nat /\
  label_data [10; 20; 30]%nat labels (-1) = [10; 20]%nat.
Proof.
  split; [|split; reflexivity]. split; [reflexivity|]. intros i j [H1 H2]. simpl in H2.
  destruct j as [|[|[|j]]]; [lia| | |lia]; destruct i as [|[|i]]; try lia; simpl; lia.
Qed.
Print Assumptions C29_negative_labels_refuted.

(** * The map *)
Lemma map_cell : forall mns labels m sp, length sp = length labels ->
  let r := fold_left (fun sp i => map (fun p => if Z.eqb (snd p) (Z.of_nat i) then nth i mns 0%R else fst p) (combine sp labels))
            (seq 0 m) sp in
  length r = length labels /\
  forall p, (p < length labels)%nat ->
    nth p r 0%R = (if (Z.leb 0 (nth p labels 0%Z) && Z.ltb (nth p labels 0%Z) (Z.of_nat m))%bool
                   then nth (Z.to_nat (nth p labels 0%Z)) mns 0%R else nth p sp 0%R).
Proof.
  intros mns labels m sp L. induction m as [|m IH].
  - simpl. split; [exact L|]. intros p Hp.
    destruct (Z.leb_spec 0 (nth p labels 0%Z)), (Z.ltb_spec (nth p labels 0%Z) 0); simpl; try reflexivity; lia.
  - rewrite seq_S, fold_left_app. cbn [fold_left plus]. cbv zeta in IH |- *. destruct IH as [IH1 IH2].
    set (r := fold_left _ (seq 0 m) sp) in *. split.
    + rewrite map_length, combine_length, IH1. lia.
    + intros p Hp. set (F := fun q : R * Z => if Z.eqb (snd q) (Z.of_nat m) then nth m mns 0%R else fst q).
      rewrite (nth_indep _ 0%R (F (0%R, 0%Z))) by (rewrite map_length, combine_length, IH1; lia).
      rewrite (map_nth F), combine_nth by exact IH1. unfold F. cbn [fst snd]. rewrite IH2 by exact Hp.
      destruct (Z.eqb_spec (nth p labels 0%Z) (Z.of_nat m)) as [E|E].
      * rewrite E. destruct (Z.leb_spec 0 (Z.of_nat m)), (Z.ltb_spec (Z.of_nat m) (Z.of_nat (S m))); try lia.
        simpl. rewrite Nat2Z.id. reflexivity.
      * destruct (Z.leb_spec 0 (nth p labels 0%Z)), (Z.ltb_spec (nth p labels 0%Z) (Z.of_nat m)),
          (Z.ltb_spec (nth p labels 0%Z) (Z.of_nat (S m))); simpl; try lia; reflexivity.
Qed.
(** Every cell of the map carries the value of its label, or 0 if there is none. *)
Theorem C29_superpixel_map : forall mns labels p, (p < length labels)%nat ->
  length (superpixel_map mns labels) = length labels /\
  nth p (superpixel_map mns labels) 0%R =
  (let z := nth p labels 0%Z in
   if (Z.leb 0 z && Z.ltb z (Z.of_nat (length mns)))%bool then nth (Z.to_nat z) mns 0%R else 0%R).
Proof.
  intros mns labels p H. unfold superpixel_map.
  pose proof (map_cell mns labels (length mns) (map (fun _ => 0%R) labels) (map_length _ _)) as M.
  cbv zeta in M. destruct M as [M1 M2]. split; [exact M1|]. rewrite M2 by exact H. cbv zeta.
  replace (nth p (map (fun _ : Z => 0%R) labels) 0%R) with 0%R; [reflexivity|].
  symmetry. clear. revert p. induction labels; intros [|p]; simpl; auto.
Qed.
Print Assumptions C29_superpixel_map.
Example C29_superpixel_map_sat : exists (labels : list Z) (p : nat), (p < length labels)%nat.
Proof. exists [1; 2; 3]%Z, 1%nat. cbn; lia. Qed.

Lemma rsum_nth : forall l, rsum l = rsum (map (fun p => nth p l 0%R) (seq 0 (length l))).
Proof.
  intro l. f_equal. induction l as [|x l IH]; [reflexivity|]. simpl. f_equal. rewrite <- seq_shift, map_map. exact IH.
Qed.
Lemma map_seq_sum : forall {A} (F : A -> R) (d : A) l, rsum (map F l) = rsum (map (fun p => F (nth p l d)) (seq 0 (length l))).
Proof.
  intros A F d l. f_equal. induction l as [|x l IH]; [reflexivity|]. simpl. f_equal. rewrite <- seq_shift, map_map. exact IH.
Qed.
(** The map of the superpixel means has the total (hence the mean) of the data. *)
Theorem C29_mean_map_keeps_total : forall order data labels k mns,
  contiguous labels k -> sorts labels order -> length data = length labels ->
  apply_operator_labelled_data mean 0%R order data labels = Some mns ->
  rsum (superpixel_map mns labels) = rsum data /\ mean (superpixel_map mns labels) = mean data.
Proof.
  intros order data labels k mns C S L E.
  assert (LS : length (superpixel_map mns labels) = length labels).
  { unfold superpixel_map. apply (map_cell mns labels (length mns)). apply map_length. }
  assert (T : rsum (superpixel_map mns labels) = rsum data); [|split; [exact T|unfold mean; rewrite T, LS, L; reflexivity]].
  rewrite (apply_contiguous mean 0%R order data labels k C S L) in E. injection E as E.
  set (key := fun p => nth p labels 0%Z) in *.
  set (G := fun i => map (fun p => nth p data 0%R) (grp key (Z.of_nat i) order)) in *.
  assert (Lm : length mns = k) by (rewrite <- E, map_length, seq_length; reflexivity).
  rewrite rsum_nth, LS.
  rewrite (rsum_ext _ (fun p => nth (Z.to_nat (key p)) mns 0%R)).
  2:{ intros p Hp. apply in_seq in Hp. rewrite (proj2 (C29_superpixel_map mns labels p ltac:(lia))). cbv zeta.
      fold (key p). assert (In (key p) labels) by (apply nth_In; lia). apply C in H. rewrite Lm.
      destruct (Z.leb_spec 0 (key p)), (Z.ltb_spec (key p) (Z.of_nat k)); try lia. reflexivity. }
  rewrite (rsum_perm _ _ (Permutation_map _ (Permutation_sym (proj1 S)))).
  rewrite (rsum_nth data), L.
  rewrite (rsum_perm _ _ (Permutation_map (fun p => nth p data 0%R) (Permutation_sym (proj1 S)))).
  assert (GR : order = flat_map (fun z => grp key z order) (map Z.of_nat (seq 0 k))).
  { apply groups.
    - apply strongly_of_nth. apply S.
    - intros p Hp. eapply Permutation_in in Hp; [|exact (proj1 S)]. apply in_seq in Hp.
      assert (In (key p) labels) by (apply nth_In; lia). apply C in H. lia. }
  assert (SUM : forall F : nat -> R, rsum (map F order) = rsum (map (fun i => rsum (map F (grp key (Z.of_nat i) order))) (seq 0 k))).
  { intro F. rewrite GR at 1. generalize (seq 0 k). clear. intro u. induction u as [|i u IH]; [reflexivity|].
    simpl. rewrite map_app, rsum_app, IH. reflexivity. }
  rewrite !SUM. apply rsum_ext. intros i Hi. apply in_seq in Hi.
  fold (G i). rewrite (rsum_ext _ (fun _ => mean (G i)) (grp key (Z.of_nat i) order)).
  - rewrite rsum_const. unfold mean, G at 2. rewrite map_length. fold (G i).
    destruct (Nat.eq_dec (length (grp key (Z.of_nat i) order)) 0) as [Z0|NZ].
    + rewrite Z0. unfold G. destruct (grp key (Z.of_nat i) order); [simpl; ring|discriminate].
    + field. apply not_0_INR. exact NZ.
  - intros p Hp. apply filter_In in Hp. destruct Hp as [_ Hp]. apply Z.eqb_eq in Hp. rewrite Hp, Nat2Z.id.
    rewrite <- E. rewrite (nth_indep _ 0%R (mean (G 0%nat))) by (rewrite map_length, seq_length; lia).
    rewrite (map_nth (fun i => mean (G i))), seq_nth by lia. reflexivity.
Qed.
Print Assumptions C29_mean_map_keeps_total.

(** * binary_stitch *)
Lemma all_some_map : forall {A B} (f : A -> B) (g : A -> option B) l, (forall a, In a l -> g a = Some (f a)) ->
  all_some (map g l) = Some (map f l).
Proof.
  induction l as [|a l IH]; intro H; [reflexivity|]. simpl. rewrite (H a (or_introl eq_refl)), IH; [reflexivity|].
  intros; apply H; right; auto.
Qed.
(** With contiguous labels a cell is set exactly when the mean of its superpixel is below
    the threshold; a threshold of zero is replaced by the mean of the data. *)
Theorem C29_binary_stitch : forall data labels k thres, contiguous labels k -> length data = length labels ->
  exists out, binary_stitch data labels thres = Some out /\ length out = length labels /\
    forall p, (p < length labels)%nat ->
      (nth p out false = true <->
       (mean (label_data data labels (nth p labels 0%Z)) <
        match thres with
        | Some t => if Req_EM_T t 0 then mean data else t
        | None => mean data
        end)%R).
Proof.
  intros data labels k thres C L. unfold binary_stitch.
  rewrite (all_some_map (label_mean data labels)).
  2:{ intros e He. rewrite (contiguous_unique labels k C). apply C in He.
      replace e with (Z.of_nat (Z.to_nat e)) by lia. rewrite py_index_nonneg, map_map, nth_error_map.
      rewrite nth_error_nth' with (d := 0%nat) by (rewrite seq_length; lia). rewrite seq_nth by lia. reflexivity. }
  eexists. split; [reflexivity|]. rewrite !map_length. split; [reflexivity|]. intros p Hp.
  set (t := match thres with Some t => if Req_EM_T t 0 then mean data else t | None => mean data end).
  rewrite map_map. set (F := fun e => if Rlt_dec (label_mean data labels e) t then true else false).
  rewrite (nth_indep _ false (F 0%Z)) by (rewrite map_length; exact Hp). rewrite (map_nth F). unfold F.
  fold (label_mean data labels (nth p labels 0%Z)).
  unfold label_mean, label_data. destruct (Rlt_dec _ t); split; intro; auto; congruence.
Qed.
Print Assumptions C29_binary_stitch.

Example C29_sat : contiguous [1; 0; 1]%Z 2 /\ sorts [1; 0; 1]%Z [1; 2; 0]%nat /\ ~ (exists k, contiguous [2; 0]%Z k).
Proof.
  split; [|split].
  - intro z. simpl. lia.
  - split.
    + apply perm_trans with [1; 0; 2]%nat; [apply perm_skip, perm_swap|apply perm_swap].
    + intros i j [H1 H2]. simpl in H2. destruct j as [|[|[|j]]]; [lia| | |lia]; destruct i as [|[|i]]; try lia; simpl; lia.
  - intros [k H]. assert (A : In 2%Z [2; 0]%Z) by (left; reflexivity). apply H in A.
    assert (B : In 1%Z [2; 0]%Z) by (apply H; lia). simpl in B. lia.
Qed.
(** Stitching with any labels: it works iff every label is a Python index into the list of distinct labels, and then judges the pixels of label [z] by the
    mean over the [z]-th smallest label, counted from the end if [z] is negative. *)
Theorem C29_stitch_any : forall data labels thres, let ls := unique labels in let m := Z.of_nat (length ls) in
  let t := match thres with Some t => if Req_EM_T t 0 then mean data else t | None => mean data end in
  ((exists out, binary_stitch data labels thres = Some out) <-> forall z, In z labels -> (- m <= z < m)%Z) /\
  (forall out, binary_stitch data labels thres = Some out -> length out = length labels /\
    forall p, (p < length labels)%nat -> let z := nth p labels 0%Z in
      (nth p out false = true <-> (mean (label_data data labels (nth (Z.to_nat (z mod m)) ls 0%Z)) < t)%R)).
Proof.
  intros data labels thres ls m t. unfold binary_stitch. fold ls. set (y1 := map (label_mean data labels) ls). assert (T : match thres with None => mean data | Some t0 => if Req_EM_T t0 0 then mean data else t0 end = t) by (unfold t; destruct thres; reflexivity). rewrite T.
  assert (L1 : length y1 = length ls) by apply map_length. clear T.
  assert (PI : forall z, py_index y1 z = if (Z.leb (- m) z && Z.ltb z m)%bool then Some (label_mean data labels (nth (Z.to_nat (z mod m)) ls 0%Z)) else None).
  { intro z. unfold py_index. rewrite L1. fold m. assert (NE : forall k, (k < length ls)%nat -> nth_error y1 k = Some (label_mean data labels (nth k ls 0%Z))) by (intros k Hk; unfold y1; rewrite nth_error_map, (nth_error_nth' ls 0%Z Hk); reflexivity).
    destruct (Z.leb_spec (- m) z) as [A|A], (Z.ltb_spec z m) as [B|B]; cbn [andb]; destruct (Z.ltb_spec z 0) as [C|C]; try lia.
    - destruct (Z.ltb_spec (z + m) 0); [lia|]. rewrite <- (Z_mod_plus_full z 1 m), Z.mod_small by lia. rewrite Z.mul_1_l. apply NE. lia.
    - rewrite Z.mod_small by lia. apply NE. lia.
    - apply nth_error_None. rewrite L1. lia.
    - destruct (Z.ltb_spec (z + m) 0); [reflexivity|lia]. }
  assert (AS : forall l, ((exists out, all_some (map (fun e => py_index y1 e) l) = Some out) <-> forall z, In z l -> (- m <= z < m)%Z) /\
    (forall out, all_some (map (fun e => py_index y1 e) l) = Some out -> out = map (fun z => label_mean data labels (nth (Z.to_nat (z mod m)) ls 0%Z)) l)).
  { induction l as [|z l [I1 I2]]; [split; [split; [intros _ z []|intros _; exists []; reflexivity]|intros out E; cbn in *; congruence]|]. cbn [map all_some]. rewrite PI.
    destruct (Z.leb_spec (- m) z) as [A|A], (Z.ltb_spec z m) as [B|B]; cbn [andb]; try (split; [split; [intros (o & E); discriminate|intro H; specialize (H z (or_introl eq_refl)); lia]|intros o E; discriminate]).
    destruct (all_some (map (fun e => py_index y1 e) l)) as [s|].
    - split; [split; [intros _ w [<-|W]; [lia|apply I1; [exists s; reflexivity|exact W]]|intros _; eexists; reflexivity]|]. intros o E. rewrite <- (I2 s eq_refl). congruence.
    - split; [split; [intros (o & E); discriminate|intro H; exfalso; destruct (proj2 I1 (fun w W => H w (or_intror W))) as (o & O); discriminate]|intros o E; discriminate]. }
  destruct (AS labels) as [A1 A2]. destruct (all_some (map (fun e => py_index y1 e) labels)) as [y2|].
  - split; [rewrite <- A1; split; intros _; eexists; reflexivity|]. intros out E. rewrite (A2 y2 eq_refl) in E. assert (EO : out = map (fun v => if Rlt_dec v t then true else false) (map (fun z => label_mean data labels (nth (Z.to_nat (z mod m)) ls 0%Z)) labels)) by congruence. clear E. rewrite map_map in EO. split; [rewrite EO; apply map_length|].
    intros p Hp. set (z := nth p labels 0%Z).
    rewrite EO, (nth_indep _ false ((fun x => if Rlt_dec (label_mean data labels (nth (Z.to_nat (x mod m)) ls 0%Z)) t then true else false) 0%Z)) by (rewrite map_length; exact Hp). rewrite (map_nth (fun x => if Rlt_dec (label_mean data labels (nth (Z.to_nat (x mod m)) ls 0%Z)) t then true else false)). fold z. unfold label_mean, label_data. destruct (Rlt_dec _ t) as [Q|Q]; split; intro; try assumption; try reflexivity; try discriminate. contradiction.
  - split; [rewrite <- A1; split; intros (o & E); discriminate|]. intros out E. discriminate.
Qed.
Print Assumptions C29_stitch_any.
Example C29_contiguous_labels_sat : exists (order : list nat) (data : list R) labels k, contiguous labels k /\ sorts labels order /\ length data = length labels.
Proof. exists [1; 2; 0]%nat, [5; 6; 7]%R, [1; 0; 1]%Z, 2%nat. destruct C29_sat as (A & B & _). split; [exact A|]. split; [exact B|reflexivity]. Qed.
Example C29_returns_iff_contiguous_sat : exists (order : list nat) (data : list R) labels, (forall z, In z labels -> (0 <= z)%Z) /\ sorts labels order /\ length data = length labels.
Proof. exists [1; 2; 0]%nat, [5; 6; 7]%R, [1; 0; 1]%Z. destruct C29_sat as (A & B & _). split; [intros z H; cbn in H; lia|]. split; [exact B|reflexivity]. Qed.
Example C29_mean_map_keeps_total_sat : exists (order : list nat) (data : list R) (labels : list Z) (k : nat) (mns : list R), contiguous labels k /\ sorts labels order /\ length data = length labels /\ apply_operator_labelled_data mean 0%R order data labels = Some mns.
Proof. eexists [1; 2; 0]%nat, [5; 6; 7]%R, [1; 0; 1]%Z, 2%nat, _. destruct C29_sat as (A & B & _). split; [exact A|]. split; [exact B|]. split; reflexivity. Qed.
Example C29_binary_stitch_sat : exists (data : list R) labels k, contiguous labels k /\ length data = length labels.
Proof. exists [5; 6; 7]%R, [1; 0; 1]%Z, 2%nat. split; [exact (proj1 C29_sat)|reflexivity]. Qed.
