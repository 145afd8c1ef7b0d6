(** C111: superpixel labels, and regions stitched from them. *)
From Coq Require Import String List Arith ZArith Bool Reals Lra Lia Sorting.Permutation.
From Verif Require Import RLib StatsModel SuperpixelModel SuperpixelSpec SuperpixelProps SlicModel.
Import ListNotations.
Local Open Scope nat_scope.

(** The number of cells of a shape, and whether an array has as many entries. *)
Definition volume (s : list nat) : nat := fold_right Nat.mul 1 s.
Definition well_formed {A} (a : array A) : Prop := length (flat a) = volume (shape a).
(** A segmentation that labels every cell of the grid. *)
Definition labels_all (segment : list nat -> list (list R) -> outcome (list Z)) : Prop :=
  forall s f l, segment s f = Returned l -> length l = length f.

(** * The labels *)
(** C111: where [multichannel] is accepted, a cube without colour map is segmented in all its axes, one channel per cell; if that
    raises, for whatever reason, the last axis is taken for channels. Where it is not accepted any more the last axis is always
    taken for channels: labels have one axis less than the data, and images of two axes raise. With a colour map the two agree.
    Before [max_num_iter] every call raises. *)
Theorem C111_labels : forall segment c,
  (forall l, segment (shape c) (map (fun x => [x]) (flat c)) = Returned l -> slic_cube segment Both None c = Returned (Build_array (shape c) l)) /\
  (forall e, segment (shape c) (map (fun x => [x]) (flat c)) = Raised e -> slic_cube segment Both None c = slic_cube segment Newest None c) /\
  (forall l, slic_cube segment Newest None c = Returned l -> 3 <= length (shape c) /\ shape l = removelast (shape c)) /\
  (length (shape c) <= 2 -> slic_cube segment Newest None c = Raised "ValueError") /\
  (forall f, slic_cube segment Both (Some f) c = slic_cube segment Newest (Some f) c) /\
  (forall f, slic_cube segment Oldest f c = Raised "TypeError").
Proof.
  intros segment c. split; [|split; [|split; [|split; [|split]]]].
  - intros l E. unfold slic_cube, slic, grey. rewrite E. reflexivity.
  - intros e E. unfold slic_cube, slic, grey. rewrite E. reflexivity.
  - intros l E. unfold slic_cube, slic, channels_last in E. destruct (Nat.leb_spec (length (shape c)) 2) as [H|H]; [discriminate|]. split; [lia|].
    destruct (segment _ _); [|discriminate]. cbn [bind] in E. now injection E as <-.
  - intros H. unfold slic_cube, slic, channels_last. apply Nat.leb_le in H. now rewrite H.
  - intro f. unfold slic_cube, slic. destruct (channels_last segment (coloured f c)) eqn:E; reflexivity.
  - intro f. reflexivity.
Qed.
Print Assumptions C111_labels.

Lemma skip_skip {A} (a b : nat) (l : list A) : skipn a (skipn b l) = skipn (b + a) l.
Proof. revert l. induction b as [|b IH]; intro l; [reflexivity|]. destruct l as [|x l]; [cbn; apply skipn_nil|]. cbn. apply IH. Qed.
Lemma groups_nth {A} (fuel n : nat) (l : list A) k : k < fuel -> nth k (groups fuel n l) [] = firstn n (skipn (k * n) l) /\ length (groups fuel n l) = fuel.
Proof.
  revert l k. induction fuel as [|f IH]; intros l k H; [lia|]. cbn [groups length].
  assert (L : length (groups f n (skipn n l)) = f).
  { clear IH H. generalize (skipn n l) as m. induction f as [|f IH2]; intro m; [reflexivity|]. cbn [groups length]. now rewrite IH2. }
  destruct k as [|k]; cbn [nth]; [split; [reflexivity|now rewrite L]|]. split; [|now rewrite L]. destruct (IH (skipn n l) k) as [E _]; [lia|]. rewrite E. f_equal.
  cbn [Nat.mul]. now rewrite skip_skip.
Qed.
Lemma groups_triples {A B} (t : A -> list B) (n : nat) (l : list A) : (forall x, length (t x) = n) -> groups (length l) n (flat_map t l) = map t l.
Proof.
  intro H. induction l as [|x l IH]; [reflexivity|]. cbn [length groups flat_map map]. rewrite <- IH. rewrite <- (H x) at 1 3. f_equal.
  - rewrite firstn_app, Nat.sub_diag, firstn_all. cbn. apply app_nil_r.
  - f_equal. rewrite skipn_app, Nat.sub_diag, skipn_all. reflexivity.
Qed.
(** C111: with a colour map every cell is segmented by its red, green and blue, in this order, and labels have the axes of the data. *)
Theorem C111_coloured : forall segment c f l, well_formed c -> 2 <= length (shape c) ->
  segment (shape c) (map (fun x => [fst (fst (f x)); snd (fst (f x)); snd (f x)]) (flat c)) = Returned l ->
  slic_cube segment Newest (Some f) c = Returned (Build_array (shape c) l) /\ slic_cube segment Both (Some f) c = Returned (Build_array (shape c) l).
Proof.
  intros segment c f l W L E.
  assert (G : slic_cube segment Newest (Some f) c = Returned (Build_array (shape c) l)).
  { unfold slic_cube, slic, channels_last, coloured. cbn [shape flat]. rewrite app_length. destruct (Nat.leb_spec (length (shape c) + length [3]) 2) as [H|H]; [cbn in H; lia|].
    rewrite removelast_last, last_last. replace (cells_of (shape c)) with (length (flat c)) by exact W. rewrite groups_triples by (intro x; destruct (f x) as [[r g] b]; reflexivity).
    rewrite (map_ext _ (fun x => [fst (fst (f x)); snd (fst (f x)); snd (f x)])) by (intro x; destruct (f x) as [[r g] b]; reflexivity). rewrite E. reflexivity. }
  split; [exact G|]. destruct (C111_labels segment c) as (_ & _ & _ & _ & B & _). rewrite B. exact G.
Qed.
Print Assumptions C111_coloured.
Example C111_coloured_sat : exists (c : array R), well_formed c /\ 2 <= length (shape c) /\ flat c <> [].
Proof. exists (Build_array [2; 2] [0; 1; 2; 3]%R). repeat split; [cbn; lia|discriminate]. Qed.
(** C111: the channels of a cell, when the last axis is taken for channels, are the values along that axis. *)
Theorem C111_channels : forall (c : array R) k j, well_formed c -> 3 <= length (shape c) ->
  let s := removelast (shape c) in let m := last (shape c) 0 in
  k < volume s -> j < m -> nth j (nth k (groups (cells_of s) m (flat c)) []) 0%R = nth (k * m + j) (flat c) 0%R.
Proof.
  intros c k j W L s m Hk Hj. destruct (groups_nth (cells_of s) m (flat c) k Hk) as [E _]. rewrite E.
  assert (N : forall (l : list R) i n, i < n -> nth i (firstn n l) 0%R = nth i l 0%R).
  { clear. induction l as [|x l IH]; intros i n H; [now rewrite firstn_nil|]. destruct n as [|n]; [lia|]. destruct i as [|i]; [reflexivity|]. cbn. apply IH. lia. }
  rewrite N by exact Hj. assert (S' : forall (l : list R) a i, nth i (skipn a l) 0%R = nth (a + i) l 0%R).
  { clear. intros l a. revert l. induction a as [|a IH]; intros l i; [reflexivity|]. destruct l as [|x l]; [cbn; destruct i; reflexivity|]. cbn. apply IH. }
  apply S'.
Qed.
Print Assumptions C111_channels.
Example C111_channels_sat : exists (c : array R) (k : nat) (j : nat), well_formed c /\ 3 <= length (shape c) /\ let s := removelast (shape c) in let m := last (shape c) 0 in k < volume s /\ j < m.
Proof. exists (Build_array [2; 2; 2] [1; 2; 3; 4; 5; 6; 7; 8]%R), 3, 1. repeat split; cbn; lia. Qed.

(** * Means *)
(** Only the first entries of the data, as many as there are labels, are looked at. *)
Lemma apply_prefix {B} (op : list R -> B) order data labels : sorts labels order -> length labels <= length data ->
  apply_operator_labelled_data op 0%R order data labels = apply_operator_labelled_data op 0%R order (firstn (length labels) data) labels.
Proof.
  intros [P _] L. unfold apply_operator_labelled_data. f_equal. apply map_ext_in. intros k K.
  assert (H : k < length labels) by (apply (Permutation_in _ P), in_seq in K; lia). clear P K.
  revert k H L. generalize (length labels) as n. revert data. induction data as [|x data IH]; intros n k H L; [cbn in L; lia|].
  destruct n as [|n]; [lia|]. destruct k as [|k]; [reflexivity|]. cbn [firstn nth]. apply IH; cbn in L; lia.
Qed.
Lemma label_prefix {A} (data : list A) labels z : label_data (firstn (length labels) data) labels z = label_data data labels z.
Proof.
  unfold label_data. f_equal. f_equal. revert data. induction labels as [|y labels IH]; intros [|x data]; try reflexivity. cbn [length firstn combine]. now rewrite IH.
Qed.
Lemma nth_error_eq {A} (l l' : list A) : (forall i, nth_error l i = nth_error l' i) -> l = l'.
Proof.
  revert l'. induction l as [|x l IH]; intros [|y l'] H; [reflexivity|specialize (H 0); discriminate|specialize (H 0); discriminate|].
  pose proof (H 0) as H0. cbn in H0. injection H0 as <-. f_equal. apply IH. intro i. apply (H (S i)).
Qed.
Lemma mean_perm l l' : Permutation l l' -> mean l = mean l'.
Proof. intro P. unfold mean. now rewrite (Permutation_length P), (rsum_perm _ _ P). Qed.
Lemma std_perm l l' : Permutation l l' -> np_std l = np_std l'.
Proof. intro P. unfold np_std. rewrite (mean_perm _ _ P), (Permutation_length P). f_equal. f_equal. apply rsum_perm. now apply Permutation_map. Qed.

Section Means.
Context (segment : list nat -> list (list R) -> outcome (list Z)) (argsort : list Z -> list nat) (AS : forall y, sorts y (argsort y)).
Lemma per_label_eq op v data labels k : (forall l l', Permutation l l' -> op l = op l') -> contiguous (flat labels) k -> length (flat labels) <= length (flat data) ->
  per_label segment argsort op v data (Some labels) = Returned (map (fun i => op (label_data (flat data) (flat labels) (Z.of_nat i))) (seq 0 k)).
Proof.
  intros OP C L. unfold per_label. cbn [bind]. rewrite apply_prefix by (try apply AS; exact L).
  destruct (C29_contiguous_labels op 0%R (argsort (flat labels)) (firstn (length (flat labels)) (flat data)) (flat labels) k C (AS _)) as (out & E & LO & H); [rewrite firstn_length; lia|].
  rewrite E. f_equal. apply nth_error_eq. intro i. destruct (Nat.lt_ge_cases i k) as [I|I].
  - destruct (H i I) as (l & E1 & P). rewrite E1. rewrite (map_nth_error _ i (seq 0 k) (d := i)); [|rewrite (nth_error_nth' _ 0) by (rewrite seq_length; exact I); now rewrite seq_nth].
    f_equal. rewrite label_prefix in P. now apply OP.
  - rewrite (proj2 (nth_error_None out i)) by lia. symmetry. apply nth_error_None. rewrite map_length, seq_length. exact I.
Qed.

(** C111: for labels 0 to k-1 on all cells, entry i of the means and of the sigmas is that of the cells of superpixel i. *)
Theorem C111_means : forall v data labels k, contiguous (flat labels) k -> length (flat labels) = length (flat data) ->
  get_superpixel_means segment argsort v data (Some labels) = Returned (map (fun i => mean (label_data (flat data) (flat labels) (Z.of_nat i))) (seq 0 k)) /\
  get_superpixel_sigmas segment argsort v data (Some labels) = Returned (map (fun i => np_std (label_data (flat data) (flat labels) (Z.of_nat i))) (seq 0 k)) /\
  (forall l, slic_cube segment v None data = Returned l -> get_superpixel_means segment argsort v data None = get_superpixel_means segment argsort v data (Some l)).
Proof.
  intros v data labels k C L. split; [|split].
  - apply per_label_eq; [exact mean_perm|exact C|lia].
  - apply per_label_eq; [exact std_perm|exact C|lia].
  - intros l E. unfold get_superpixel_means, per_label. now rewrite E.
Qed.

(** * Regions *)
Context (find_threshold : list R -> answer).
Lemma rows_nth data labels m p : length (flat data) = length (flat labels) * m -> 0 < m -> 0 < length (flat labels) ->
  p < length (flat data) -> nth p (rows data labels) 0%Z = nth (p / m) (flat labels) 0%Z /\ length (rows data labels) = length (flat data).
Proof.
  intros L M NL P. unfold rows. rewrite L, Nat.mul_comm, Nat.div_mul by lia. rewrite L, Nat.mul_comm in P. clear L NL.
  revert p P. generalize (flat labels) as l. induction l as [|z l IH]; intros p P; [cbn in P; lia|]. cbn [flat_map length] in *.
  assert (LL : forall q : list Z, length (flat_map (fun z => repeat z m) q) = m * length q).
  { clear. induction q as [|z q IH]; cbn [flat_map length]; [lia|]. rewrite app_length, repeat_length, IH. lia. }
  split; [|rewrite app_length, repeat_length, LL; lia].
  destruct (Nat.lt_ge_cases p m) as [H|H].
  - rewrite app_nth1 by now rewrite repeat_length. rewrite Nat.div_small by exact H. cbn [nth]. clear -H. revert p H. induction m as [|m IH]; intros p H; [lia|]. destruct p as [|p]; [reflexivity|]. cbn. apply IH. lia.
  - rewrite app_nth2 by now rewrite repeat_length. rewrite repeat_length. destruct (IH (p - m)) as [E _]; [lia|]. rewrite E.
    replace (p / m) with (S ((p - m) / m)); [reflexivity|]. replace p with ((p - m) + 1 * m) at 2 by lia. rewrite Nat.div_add by lia. lia.
Qed.
Lemma stitch_eq v data labels k m : contiguous (flat labels) k -> length (flat data) = length (flat labels) * m -> 0 < m -> 0 < length (flat labels) ->
  let mns := map (fun i => mean (label_data (flat data) (flat labels) (Z.of_nat i))) (seq 0 k) in
  match stitch_superpixels segment argsort find_threshold v data labels with
  | Raised _ => find_threshold mns = Failure
  | Returned out => shape out = shape data /\ length (flat out) = length (flat data) /\
      (find_threshold mns = Zeros /\ (forall b, In b (flat out) -> b = false) \/
       exists t, find_threshold mns = Threshold t /\ forall p, p < length (flat data) ->
         (nth p (flat out) false = true <-> (mean (label_data (flat data) (flat labels) (nth (p / m) (flat labels) 0%Z)) < t)%R))
  end.
Proof.
  intros C L M NL mns. unfold stitch_superpixels, get_superpixel_means. rewrite (per_label_eq mean v data labels k mean_perm C) by nia. cbn [bind]. fold mns.
  destruct (find_threshold mns) as [t| |] eqn:F; [| |reflexivity]; cbn [shape flat].
  - assert (LR : forall p, p < length (flat data) -> length (rows data labels) = length (flat data)) by (intros p P; now apply (rows_nth data labels m p)).
    assert (LR' : length (rows data labels) = length (flat data)) by (apply (LR 0); nia).
    assert (LS : length (superpixel_map mns (rows data labels)) = length (flat data)) by (rewrite <- LR'; apply (C29_superpixel_map mns (rows data labels) 0); nia).
    split; [reflexivity|]. split; [now rewrite map_length|]. right. exists t. split; [reflexivity|]. intros p P.
    set (g := fun x => if Rlt_dec x t then true else false). rewrite (nth_indep _ false (g 0%R)) by (rewrite map_length; lia). rewrite map_nth.
    destruct (C29_superpixel_map mns (rows data labels) p) as [_ E]; [lia|]. rewrite E. cbv zeta. destruct (rows_nth data labels m p L M NL P) as [-> _].
    set (z := nth (p / m) (flat labels) 0%Z). assert (I : In z (flat labels)) by (apply nth_In; apply Nat.div_lt_upper_bound; lia).
    apply C in I. destruct (Z.leb_spec 0 z); [|lia]. unfold mns at 1. rewrite map_length, seq_length. destruct (Z.ltb_spec z (Z.of_nat k)); [|lia]. cbn [andb].
    unfold mns. set (h := fun i => mean (label_data (flat data) (flat labels) (Z.of_nat i))). rewrite (nth_indep _ 0%R (h 0)) by (rewrite map_length, seq_length; lia).
    rewrite map_nth, seq_nth by lia. unfold h. rewrite Nat.add_0_l, Z2Nat.id by lia. unfold g. destruct (Rlt_dec _ t) as [Q|Q]; split; intro X; try assumption; try reflexivity; [discriminate|contradiction].
  - split; [reflexivity|]. split; [apply map_length|]. left. split; [reflexivity|]. intros b I. apply in_map_iff in I. destruct I as (x & <- & _). reflexivity.
Qed.

(** C111: with one label per cell, a cell is in a region exactly if the mean of its superpixel is below the threshold, which is
    that of the means of the superpixels. *)
Theorem C111_bubbles : forall data l k out, well_formed data -> labels_all segment -> flat data <> [] ->
  segment (shape data) (map (fun x => [x]) (flat data)) = Returned l -> contiguous l k ->
  bubbles_from_slic segment argsort find_threshold Both data = Returned out ->
  let mns := map (fun i => mean (label_data (flat data) l (Z.of_nat i))) (seq 0 k) in
  shape out = shape data /\ length (flat out) = length (flat data) /\
  (find_threshold mns = Zeros /\ (forall b, In b (flat out) -> b = false) \/
   exists t, find_threshold mns = Threshold t /\ forall p, p < length (flat data) ->
     (nth p (flat out) false = true <-> (mean (label_data (flat data) l (nth p l 0%Z)) < t)%R)).
Proof.
  intros data l k out W LA NE E C B. unfold bubbles_from_slic in B. destruct (C111_labels segment data) as (E1 & _). rewrite (E1 l E) in B. cbn [bind] in B.
  assert (LL : length l = length (flat data)) by (rewrite (LA _ _ _ E); apply map_length).
  assert (NL : 0 < length l) by (destruct (flat data); [contradiction|cbn in LL; lia]).
  pose proof (stitch_eq Both data (Build_array (shape data) l) k 1 C) as T. cbn [flat shape] in T. rewrite B in T. cbv zeta. destruct T as (T1 & T2 & T3); [lia|lia|exact NL|].
  split; [exact T1|]. split; [exact T2|]. destruct T3 as [T3|(t & F & T3)]; [now left|right]. exists t. split; [exact F|]. intros p P. rewrite (T3 p P). now rewrite Nat.div_1_r.
Qed.

(** C111: where [multichannel] is not accepted any more, all cells along the last axis are in a region or none is, and the means
    compared are not those of the superpixels: the labels of the nx*ny rows are paired with the first nx*ny single cells. *)
Theorem C111_bubbles_rows : forall data nx ny nz l k out, shape data = [nx; ny; nz] -> well_formed data -> 0 < nx * ny * nz ->
  segment [nx; ny] (groups (nx * ny) nz (flat data)) = Returned l -> length l = nx * ny -> contiguous l k ->
  bubbles_from_slic segment argsort find_threshold Newest data = Returned out ->
  let mns := map (fun i => mean (label_data (firstn (nx * ny) (flat data)) l (Z.of_nat i))) (seq 0 k) in
  shape out = [nx; ny; nz] /\
  (forall r z z', r < nx * ny -> z < nz -> z' < nz -> nth (r * nz + z) (flat out) false = nth (r * nz + z') (flat out) false) /\
  (forall t, find_threshold mns = Threshold t -> forall r z, r < nx * ny -> z < nz ->
     (nth (r * nz + z) (flat out) false = true <-> (mean (label_data (firstn (nx * ny) (flat data)) l (nth r l 0%Z)) < t)%R)).
Proof.
  intros data nx ny nz l k out SH W P E LL C B mns. unfold bubbles_from_slic in B.
  assert (ES : slic_cube segment Newest None data = Returned (Build_array [nx; ny] l)).
  { unfold slic_cube, slic, channels_last. rewrite SH. cbn [length Nat.leb removelast last cells_of fold_right]. replace (nx * (ny * 1)) with (nx * ny) by lia. rewrite E. reflexivity. }
  rewrite ES in B. cbn [bind] in B.
  assert (LD : length (flat data) = length l * nz) by (rewrite W, SH, LL; cbn; lia).
  assert (NZ : 0 < nz) by nia. assert (NL : 0 < length l) by nia.
  pose proof (stitch_eq Newest data (Build_array [nx; ny] l) k nz C LD NZ NL) as T. cbn [flat] in T. rewrite B in T.
  assert (MN : map (fun i => mean (label_data (flat data) l (Z.of_nat i))) (seq 0 k) = mns).
  { unfold mns. apply map_ext. intro i. rewrite <- LL, label_prefix. reflexivity. }
  cbv zeta in T. rewrite MN in T. destruct T as (T1 & T2 & T3). split; [congruence|].
  assert (Q : forall r z, r < nx * ny -> z < nz -> r * nz + z < length (flat data) /\ (r * nz + z) / nz = r).
  { intros r z R Z. split; [nia|]. rewrite Nat.add_comm, Nat.div_add by lia. now rewrite Nat.div_small. }
  split.
  - intros r z z' R Z Z'. destruct (Q r z R Z) as [Q1 Q2]. destruct (Q r z' R Z') as [Q3 Q4]. destruct T3 as [[_ F]|(t & _ & F)].
    + rewrite (F (nth (r * nz + z) (flat out) false)), (F (nth (r * nz + z') (flat out) false)) by (apply nth_In; lia). reflexivity.
    + pose proof (F _ Q1) as F1. pose proof (F _ Q3) as F2. rewrite Q2 in F1. rewrite Q4 in F2. apply Bool.eq_iff_eq_true. now rewrite F1, F2.
  - intros t FT r z R Z. destruct (Q r z R Z) as [Q1 Q2]. destruct T3 as [[F _]|(t' & F & F')]; [congruence|]. assert (t' = t) by congruence. subst t'.
    rewrite (F' _ Q1), Q2, <- LL, label_prefix. reflexivity.
Qed.
End Means.
Print Assumptions C111_means.
Example C111_means_sat : exists (data : array R) (labels : array Z) k, contiguous (flat labels) k /\ length (flat labels) = length (flat data).
Proof. exists (Build_array [4] [1; 2; 3; 4]%R), (Build_array [4] [0; 1; 1; 0]%Z), 2. split; [intro z; cbn; lia|reflexivity]. Qed.
Print Assumptions C111_bubbles.
Print Assumptions C111_bubbles_rows.

(** An argsort. *)
Fixpoint place (key : nat -> Z) (k : nat) (l : list nat) : list nat :=
  match l with [] => [k] | j :: r => if (key k <=? key j)%Z then k :: l else j :: place key k r end.
Definition sort_positions (y : list Z) : list nat := fold_right (place (fun k => nth k y 0%Z)) [] (seq 0 (length y)).
Lemma sort_positions_sorts y : sorts y (sort_positions y).
Proof.
  set (key := fun k => nth k y 0%Z).
  assert (PP : forall k l, Permutation (place key k l) (k :: l)).
  { intros k l. induction l as [|j r IH]; cbn; [constructor; constructor|]. destruct (key k <=? key j)%Z; [apply Permutation_refl|]. rewrite IH. apply perm_swap. }
  assert (PI : forall s, Permutation (fold_right (place key) [] s) s).
  { induction s as [|k s IH]; [constructor|]. cbn. rewrite PP. now constructor. }
  assert (ST : forall s, forall i j, i < j < length (fold_right (place key) [] s) -> (key (nth i (fold_right (place key) [] s) 0%nat) <= key (nth j (fold_right (place key) [] s) 0%nat))%Z).
  { induction s as [|k s IH]; [cbn; intros; lia|]. cbn [fold_right]. set (l := fold_right (place key) [] s) in *. clearbody l. clear s. revert IH.
    induction l as [|a l IHl]; intros S i j H; cbn [place length] in *; [lia|].
    destruct (Z.leb_spec (key k) (key a)) as [LE|LT].
    - destruct j as [|j]; [lia|]. destruct i as [|i].
      + cbn [nth]. cbn [length] in H. destruct j as [|j]; [exact LE|]. pose proof (S 0 (Datatypes.S j)) as S0. cbn [nth] in S0. cbn [nth]. specialize (S0 ltac:(lia)). lia.
      + cbn [nth]. cbn [length] in H. apply (S i j). lia.
    - assert (SL : forall i j, i < j < length l -> (key (nth i l 0%nat) <= key (nth j l 0%nat))%Z) by (intros i' j' H'; apply (S (Datatypes.S i') (Datatypes.S j')); lia).
      destruct j as [|j]; [lia|]. cbn [nth]. cbn [length] in H. destruct i as [|i]; [|apply IHl; [exact SL|lia]].
      assert (I : In (nth j (place key k l) 0%nat) (k :: l)) by (apply (Permutation_in _ (PP k l)), nth_In; lia).
      destruct I as [<-|I]; [lia|]. apply (In_nth l _ 0%nat) in I. destruct I as (q & Hq & <-). apply (S 0 (Datatypes.S q)). lia. }
  split; [apply PI|apply ST].
Qed.

(** C111: on a cube of 2 x 2 x 2 cells, bright only in the row of the last superpixel, the bright row is reported as dark. *)
Theorem C111_bubbles_rows_refuted : forall argsort, (forall y, sorts y (argsort y)) ->
  exists segment find data out, labels_all segment /\ shape data = [2; 2; 2] /\ flat data = [0; 0; 0; 0; 0; 0; 10; 10]%R /\
  segment [2; 2] (groups 4 2 (flat data)) = Returned [0; 0; 0; 1]%Z /\
  find (map (fun i => mean (label_data (firstn 4 (flat data)) [0; 0; 0; 1]%Z (Z.of_nat i))) (seq 0 2)) = Threshold 5 /\
  bubbles_from_slic segment argsort find Newest data = Returned out /\ flat out = repeat true 8.
Proof.
  intros argsort AS. set (segment := fun (_ : list nat) (f : list (list R)) => match length f with 4 => Returned [0; 0; 0; 1]%Z | _ => Raised "ValueError" end).
  set (data := Build_array [2; 2; 2] [0; 0; 0; 0; 0; 0; 10; 10]%R). exists segment, (fun _ => Threshold 5), data.
  assert (C : contiguous [0; 0; 0; 1]%Z 2) by (intro z; cbn; lia).
  assert (LA : labels_all segment).
  { intros s f l E. unfold segment in E. destruct (length f) as [|[|[|[|[|n]]]]] eqn:L; try discriminate. injection E as <-. reflexivity. }
  destruct (bubbles_from_slic segment argsort (fun _ => Threshold 5) Newest data) as [out|e] eqn:B.
  - exists out. split; [exact LA|]. split; [reflexivity|]. split; [reflexivity|]. split; [reflexivity|]. split; [reflexivity|]. split; [reflexivity|].
    destruct (C111_bubbles_rows segment argsort AS (fun _ => Threshold 5) data 2 2 2 [0; 0; 0; 1]%Z 2 out) as (S1 & _ & T); try reflexivity; try exact C; try exact B; [cbn; lia|].
    assert (LO : length (flat out) = 8).
    { pose proof (stitch_eq segment argsort AS (fun _ => Threshold 5) Newest data (Build_array [2; 2] [0; 0; 0; 1]%Z) 2 2 C eq_refl) as SE.
      cbv zeta in SE. unfold bubbles_from_slic in B. change (slic_cube segment Newest None data) with (Returned (Build_array [2; 2] [0; 0; 0; 1]%Z)) in B. cbn [bind] in B. rewrite B in SE.
      destruct SE as (_ & L & _); [lia|cbn; lia|exact L]. }
    assert (ALL : forall p, p < 8 -> nth p (flat out) false = true).
    { intros p P. replace p with ((p / 2) * 2 + p mod 2) by (pose proof (Nat.div_mod p 2); lia). assert (R4 : p / 2 < 4) by (apply Nat.div_lt_upper_bound; lia).
      apply (T 5%R eq_refl (p / 2) (p mod 2)); [exact R4|apply Nat.mod_upper_bound; lia|].
      assert (Q : p / 2 = 0 \/ p / 2 = 1 \/ p / 2 = 2 \/ p / 2 = 3) by lia. destruct Q as [->|[->|[->| ->]]]; unfold mean; cbn; lra. }
    clear -LO ALL. destruct (flat out) as [|b0 [|b1 [|b2 [|b3 [|b4 [|b5 [|b6 [|b7 [|b8 r]]]]]]]]]; try discriminate.
    pose proof (ALL 0) as A0. pose proof (ALL 1) as A1. pose proof (ALL 2) as A2. pose proof (ALL 3) as A3. pose proof (ALL 4) as A4. pose proof (ALL 5) as A5. pose proof (ALL 6) as A6. pose proof (ALL 7) as A7.
    cbn [nth] in *. rewrite A0, A1, A2, A3, A4, A5, A6, A7 by lia. reflexivity.
  - exfalso. unfold bubbles_from_slic in B. change (slic_cube segment Newest None data) with (Returned (Build_array [2; 2] [0; 0; 0; 1]%Z)) in B. cbn [bind] in B.
    pose proof (stitch_eq segment argsort AS (fun _ => Threshold 5) Newest data (Build_array [2; 2] [0; 0; 0; 1]%Z) 2 2 C eq_refl) as SE. cbv zeta in SE. rewrite B in SE.
    assert (X : Threshold 5 = Failure) by (apply SE; cbn; lia). discriminate.
Qed.
Print Assumptions C111_bubbles_rows_refuted.
Example C111_bubbles_rows_refuted_sat : exists (argsort : list Z -> list nat), (forall y, sorts y (argsort y)).
Proof. exists sort_positions. exact sort_positions_sorts. Qed.
Example C111_sat : (forall y, sorts y (sort_positions y)) /\ contiguous [0; 0; 0; 1]%Z 2 /\ well_formed (Build_array [2; 2; 2] [0; 0; 0; 0; 0; 0; 10; 10]%R) /\
  labels_all (fun _ f => Returned (map (fun _ => 0%Z) f)).
Proof. split; [exact sort_positions_sorts|]. split; [intro z; cbn; lia|]. split; [reflexivity|]. intros s f l E. injection E as <-. apply map_length. Qed.

(** * Boundaries *)
Lemma largest_spec l : l <> [] -> In (largest l) l /\ forall x, In x l -> (x <= largest l)%R.
Proof.
  destruct l as [|a l]; [contradiction|]. intros _. cbn [largest]. revert a. induction l as [|b l IH]; intro a; cbn [fold_left].
  - split; [now left|]. intros x [<-|[]]. lra.
  - destruct (IH (Rmax a b)) as [I H]. split.
    + destruct I as [E|I]; [|right; now right]. rewrite <- E. unfold Rmax. destruct (Rle_dec a b); [right; now left|now left].
    + intros x X. pose proof (Rmax_l a b). pose proof (Rmax_r a b). pose proof (H (Rmax a b) (or_introl eq_refl)). destruct X as [<-|[<-|X]]; [lra|lra|]. apply H. now right.
Qed.
(** C111: for two arrays of two axes the picture is the slice with every boundary cell, or without [mark] the first cell, set to
    [factor] times the largest value; nothing else changes. That is brighter than the slice exactly for a positive largest value and
    a factor above 1, or a negative one and a factor below 1. All other shapes raise. *)
Theorem C111_boundaries : forall sl lab marked mark factor, length marked = length (flat sl) ->
  (forall out, boundaries sl lab marked mark factor = Returned out ->
    length (shape sl) = 2 /\ length (shape lab) = 2 /\ shape out = shape sl /\ length (flat out) = length (flat sl) /\
    exists top, In top (flat sl) /\ (forall x, In x (flat sl) -> (x <= top)%R) /\
    (forall p, p < length (flat sl) -> nth p (flat out) 0%R = if (if mark then nth p marked false else p =? 0) then (top * factor)%R else nth p (flat sl) 0%R) /\
    ((forall x, In x (flat sl) -> (x < top * factor)%R) <-> (0 < top /\ 1 < factor \/ top < 0 /\ factor < 1)%R)) /\
  (forall e, boundaries sl lab marked mark factor = Raised e -> length (shape sl) <> 2 \/ length (shape lab) <> 2 \/ flat sl = []).
Proof.
  intros sl lab marked mark factor LM. unfold boundaries.
  destruct (Nat.eqb_spec (length (shape sl)) 2) as [A|A]; cbn [andb negb]; [|split; [discriminate|intros; now left]].
  destruct (Nat.eqb_spec (length (shape lab)) 2) as [B|B]; cbn [negb]; [|split; [discriminate|intros; right; now left]].
  destruct (Nat.eqb_spec (length (flat sl)) 0) as [Z|Z]; [split; [discriminate|]; intros; right; right; now apply length_zero_iff_nil|].
  assert (NE : flat sl <> []) by (intro E; rewrite E in Z; now apply Z).
  destruct (largest_spec (flat sl) NE) as [L1 L2]. set (top := largest (flat sl)) in *.
  assert (BR : (forall x, In x (flat sl) -> (x < top * factor)%R) <-> (0 < top /\ 1 < factor \/ top < 0 /\ factor < 1)%R).
  { split.
    - intro H. specialize (H top L1). destruct (Rtotal_order top 0) as [T|[T|T]].
      + right. split; [exact T|]. apply Rnot_le_lt. intro F. assert (top * factor <= top * 1)%R by (apply Rmult_le_compat_neg_l; lra). lra.
      + rewrite T, Rmult_0_l in H. lra.
      + left. split; [lra|]. apply (Rmult_lt_reg_l top); lra.
    - intros H x X. apply L2 in X. destruct H as [[H1 H2]|[H1 H2]].
      + assert (top * 1 < top * factor)%R by (apply Rmult_lt_compat_l; lra). lra.
      + assert (- top * factor < - top * 1)%R by (apply Rmult_lt_compat_l; lra). lra. }
  destruct mark; (split; [|discriminate]); intros out E; injection E as <-; cbn [shape flat].
  - split; [exact A|]. split; [exact B|]. split; [reflexivity|]. split; [rewrite map_length, combine_length; lia|]. exists top. split; [exact L1|]. split; [exact L2|]. split; [|exact BR].
    intros p P. set (g := fun q : R * bool => let (x, m) := q in if m then (top * factor)%R else x).
    rewrite (nth_indep _ 0%R (g (0%R, false))) by (rewrite map_length, combine_length; lia). rewrite map_nth, combine_nth by (symmetry; exact LM). reflexivity.
  - split; [exact A|]. split; [exact B|]. split; [reflexivity|]. destruct (flat sl) as [|x r] eqn:FS; [contradiction|]. cbn [tl length]. split; [reflexivity|]. exists top.
    split; [exact L1|]. split; [exact L2|]. split; [|exact BR]. intros [|p] P; reflexivity.
Qed.
Print Assumptions C111_boundaries.
Example C111_boundaries_sat : exists out, boundaries (Build_array [1; 2] [3; 4]%R) (Build_array [1; 2] [0; 1]%Z) [true; false] true 2 = Returned out.
Proof. eexists. reflexivity. Qed.
