(** Proofs about baseline lists and antenna stamps. *)
From Coq Require Import List Arith ZArith QArith Lia Bool Sorted.
From Verif Require Import PyBase PyBaseProofs UvGridModel UvGridSpec UvGridProofs AntModel AntSpec.
Import ListNotations.
Local Open Scope nat_scope.

(** ** Pairs *)

Lemma comb_in a n i j : In (i, j) (combinations2 (seq a n)) <-> a <= i < j /\ j < a + n.
Proof.
  revert a. induction n as [|n IH]; intros a; simpl; [lia|].
  rewrite in_app_iff, IH, in_map_iff. split.
  - intros [(b & E & Hb)|H]; [|lia]. injection E as <- <-. apply in_seq in Hb. lia.
  - intros H. destruct (Nat.eq_dec i a) as [->|]; [left|right; lia].
    exists j. split; [reflexivity|]. apply in_seq. lia.
Qed.

Lemma comb_length {A} (l : list A) : 2 * length (combinations2 l) = length l * (length l - 1).
Proof.
  induction l as [|a l IH]; simpl; [reflexivity|].
  rewrite app_length, map_length. destruct l as [|b l]; [reflexivity|]. simpl in *. nia.
Qed.

Lemma sorted_app {A} (R : A -> A -> Prop) l1 l2 :
  StronglySorted R l1 -> StronglySorted R l2 ->
  (forall x y, In x l1 -> In y l2 -> R x y) -> StronglySorted R (l1 ++ l2).
Proof.
  intros H1 H2 H. induction H1 as [|a l1 H1 IH Ha]; simpl; [exact H2|].
  constructor.
  - apply IH. intros x y Hx Hy. apply H; [now right|exact Hy].
  - apply Forall_app. split; [exact Ha|]. apply Forall_forall. intros y Hy. apply H; [now left|exact Hy].
Qed.

Lemma comb_sorted a n : StronglySorted lex (combinations2 (seq a n)).
Proof.
  revert a. induction n as [|n IH]; intros a; simpl; [constructor|].
  apply sorted_app; [|apply IH|].
  - generalize (S a) as b. clear. intros b. revert b. induction n as [|n IH]; intros b; simpl; constructor; [apply IH|].
    apply Forall_forall. intros x Hx. apply in_map_iff in Hx as (y & <- & Hy). apply in_seq in Hy.
    right; simpl; lia.
  - intros [i j] [i' j'] H1 H2. apply in_map_iff in H1 as (y & E & _). injection E as <- <-.
    apply comb_in in H2. left; simpl; lia.
Qed.

Lemma lex_sorted_nodup l : StronglySorted lex l -> NoDup l.
Proof.
  induction 1 as [|a l H IH Ha]; constructor; [|exact IH].
  intros Hin. rewrite Forall_forall in Ha. specialize (Ha _ Hin). unfold lex in Ha. lia.
Qed.

Lemma perm_eq {A} (l : list A) d :
  permutations2 l = map (fun ij => (nth (fst ij) l d, nth (snd ij) l d))
     (flat_map (fun i => flat_map (fun j => if Nat.eqb i j then [] else [(i, j)])
        (seq 0 (length l))) (seq 0 (length l))).
Proof.
  unfold permutations2.
  assert (G : forall s s', (forall x, In x s -> x < length l) -> (forall x, In x s' -> x < length l) ->
    flat_map (fun i => flat_map (fun j => if i =? j then [] else
        match nth_error l i with Some a => match nth_error l j with Some b => [(a, b)] | None => [] end | None => [] end) s') s
    = map (fun ij => (nth (fst ij) l d, nth (snd ij) l d))
        (flat_map (fun i => flat_map (fun j => if i =? j then [] else [(i, j)]) s') s)).
  { intros s s' Hs Hs'. induction s as [|i s IH]; simpl; [reflexivity|].
    rewrite map_app, IH by (intros; apply Hs; now right). f_equal.
    assert (Hi : i < length l) by (apply Hs; now left). clear IH Hs.
    induction s' as [|j s' IH]; simpl; [reflexivity|].
    rewrite map_app, IH by (intros; apply Hs'; now right). f_equal.
    assert (Hj : j < length l) by (apply Hs'; now left).
    destruct (i =? j); [reflexivity|].
    rewrite !nth_error_nth' with (d := d) by assumption. reflexivity. }
  apply G; intros x Hx; apply in_seq in Hx; lia.
Qed.

Definition ordered_pairs (n : nat) : list (nat * nat) :=
  flat_map (fun i => flat_map (fun j => if Nat.eqb i j then [] else [(i, j)]) (seq 0 n)) (seq 0 n).

Lemma ordered_pairs_in n i j : In (i, j) (ordered_pairs n) <-> i <> j /\ i < n /\ j < n.
Proof.
  unfold ordered_pairs. rewrite in_flat_map. split.
  - intros (x & Hx & H). apply in_flat_map in H as (y & Hy & H).
    apply in_seq in Hx, Hy. destruct (Nat.eqb_spec x y) as [->|N]; [destruct H|].
    destruct H as [H|[]]. injection H as <- <-. lia.
  - intros (N & Hi & Hj). exists i. split; [apply in_seq; lia|].
    apply in_flat_map. exists j. split; [apply in_seq; lia|].
    destruct (Nat.eqb_spec i j); [contradiction|now left].
Qed.

Lemma ordered_pairs_sorted n : StronglySorted lex (ordered_pairs n).
Proof.
  unfold ordered_pairs.
  assert (Row : forall i a m, StronglySorted lex (flat_map (fun j => if i =? j then [] else [(i, j)]) (seq a m))).
  { intros i a m. revert a. induction m as [|m IH]; intros a; cbn [seq flat_map]; [constructor|].
    apply sorted_app; [|apply IH|].
    - destruct (i =? a); repeat constructor.
    - intros x y Hx Hy. destruct (i =? a); [destruct Hx|]. destruct Hx as [<-|[]].
      apply in_flat_map in Hy as (j & Hj & Hy). apply in_seq in Hj.
      destruct (i =? j); [destruct Hy|]. destruct Hy as [<-|[]]. right; simpl; lia. }
  assert (G : forall a m, StronglySorted lex
     (flat_map (fun i => flat_map (fun j => if i =? j then [] else [(i, j)]) (seq 0 n)) (seq a m))).
  { intros a m. revert a. induction m as [|m IH]; intros a; cbn [seq flat_map]; [constructor|].
    apply sorted_app; [apply Row|apply IH|].
    intros x y Hx Hy. apply in_flat_map in Hx as (j & Hj & Hx).
    destruct (a =? j); [destruct Hx|]. destruct Hx as [<-|[]].
    apply in_flat_map in Hy as (i & Hi & Hy). apply in_seq in Hi.
    apply in_flat_map in Hy as (k & Hk & Hy). destruct (i =? k); [destruct Hy|].
    destruct Hy as [<-|[]]. left; simpl; lia. }
  apply G.
Qed.

Lemma row_length i a m :
  length (flat_map (fun j => if i =? j then [] else [(i, j)]) (seq a m))
  = m - (if (a <=? i) && (i <? a + m) then 1 else 0).
Proof.
  revert a. induction m as [|m IH]; intros a; cbn [seq flat_map]; [reflexivity|].
  rewrite app_length, IH.
  destruct (Nat.eqb_spec i a) as [->|N].
  - replace ((S a <=? a) && (a <? S a + m)) with false by (symmetry; apply andb_false_iff; left; apply Nat.leb_gt; lia).
    replace ((a <=? a) && (a <? a + S m)) with true by (symmetry; apply andb_true_iff; split; [apply Nat.leb_le|apply Nat.ltb_lt]; lia).
    simpl; lia.
  - destruct (S a <=? i) eqn:E1, (i <? S a + m) eqn:E2, (a <=? i) eqn:E3, (i <? a + S m) eqn:E4;
    rewrite ?Nat.leb_le, ?Nat.ltb_lt, ?Nat.leb_gt, ?Nat.ltb_ge in *; simpl; lia.
Qed.

Lemma ordered_pairs_length n : length (ordered_pairs n) = n * (n - 1).
Proof.
  unfold ordered_pairs.
  assert (G : forall s, (forall x, In x s -> x < n) ->
    length (flat_map (fun i => flat_map (fun j => if i =? j then [] else [(i, j)]) (seq 0 n)) s)
    = length s * (n - 1)).
  { induction s as [|i s IH]; intros H; cbn [flat_map length]; [reflexivity|].
    rewrite app_length, IH by (intros; apply H; now right). rewrite row_length.
    assert (i < n) by (apply H; now left).
    replace ((0 <=? i) && (i <? 0 + n)) with true; [lia|].
    symmetry. apply andb_true_iff. split; [apply Nat.leb_le|apply Nat.ltb_lt]; lia. }
  rewrite G, seq_length; [reflexivity|]. intros x Hx. apply in_seq in Hx. lia.
Qed.

(** ** Chunks *)

Lemma process_chunk_eq {S} (blank : S) slice a b :
  process_chunk blank slice (a, b) = map slice (seq a (b - a)).
Proof.
  unfold process_chunk. cbn [fst snd].
  set (m := b - a).
  assert (G : forall done todo, done + todo = m ->
    fold_left (fun arr t => map (fun k => if k =? t - a then slice t else nth k arr blank) (seq 0 (length arr)))
      (seq (a + done) todo)
      (map (fun k => if k <? done then slice (a + k) else blank) (seq 0 m))
    = map (fun k => slice (a + k)) (seq 0 m)).
  { intros done todo. revert done. induction todo as [|todo IH]; intros done E; cbn [seq fold_left].
    - apply map_ext_in. intros k Hk. apply in_seq in Hk.
      replace (k <? done) with true by (symmetry; apply Nat.ltb_lt; lia). reflexivity.
    - replace (Datatypes.S (a + done)) with (a + Datatypes.S done) by lia.
      rewrite <- (IH (Datatypes.S done)) by lia. f_equal.
      rewrite map_length, seq_length. apply map_ext_in. intros k Hk. apply in_seq in Hk.
      replace (a + done - a) with done by lia.
      rewrite nth_map_seq by lia.
      destruct (Nat.eqb_spec k done) as [->|N].
      + replace (done <? Datatypes.S done) with true by (symmetry; apply Nat.ltb_lt; lia). reflexivity.
      + destruct (Nat.ltb_spec k done), (Nat.ltb_spec k (Datatypes.S done)); try lia; reflexivity. }
  specialize (G 0 m eq_refl). rewrite Nat.add_0_r in G.
  replace (repeat blank m) with (map (fun k => if k <? 0 then slice (a + k) else blank) (seq 0 m)).
  - rewrite G. clear G. clearbody m. revert a. induction m as [|m IH]; intros a; simpl; [reflexivity|].
    rewrite Nat.add_0_r. f_equal. rewrite <- IH, <- seq_shift, map_map. apply map_ext. intros k. f_equal. lia.
  - clear G. clearbody m. generalize 0 at 2. induction m as [|m IH]; intros s; simpl; [reflexivity|]. now rewrite IH.
Qed.

Lemma concat_chunks T cs m :
  0 < cs ->
  concat (map (fun j => seq (j * cs) (Nat.min (j * cs + cs) T - j * cs)) (seq 0 m))
  = seq 0 (Nat.min (m * cs) T).
Proof.
  intros Hcs. induction m as [|m IH]; [reflexivity|].
  rewrite seq_S, map_app, concat_app, IH. cbn [map concat Nat.add]. rewrite app_nil_r.
  destruct (Nat.le_gt_cases (m * cs) T) as [H|H].
  - rewrite (Nat.min_l (m * cs) T) by lia.
    replace (Nat.min (S m * cs) T) with (m * cs + (Nat.min (m * cs + cs) T - m * cs)) by (simpl; lia).
    rewrite seq_app. reflexivity.
  - replace (Nat.min (m * cs + cs) T - m * cs) with 0 by lia. simpl seq. rewrite app_nil_r.
    f_equal. simpl. lia.
Qed.

Lemma ceil_cover T cs : 0 < cs -> T <= (T + cs - 1) / cs * cs.
Proof.
  intros H. pose proof (Nat.div_mod (T + cs - 1) cs ltac:(lia)) as D.
  pose proof (Nat.mod_upper_bound (T + cs - 1) cs ltac:(lia)). lia.
Qed.

Lemma chunks_ok T nj : (1 <= nj <= Z.of_nat T)%Z ->
  exists cs, 0 < cs /\ cs = T / Z.to_nat nj /\
   chunks T nj = Some (map (fun j => (j * cs, Nat.min (j * cs + cs) T)) (seq 0 ((T + cs - 1) / cs))).
Proof.
  intros H. exists (T / Z.to_nat nj).
  assert (Hn : Z.of_nat (Z.to_nat nj) = nj) by lia.
  assert (Hq : (Z.of_nat (T / Z.to_nat nj) = Z.of_nat T / nj)%Z) by (rewrite Nat2Z.inj_div, Hn; reflexivity).
  assert (Hpos : 0 < T / Z.to_nat nj) by (apply Nat.div_str_pos; lia).
  split; [exact Hpos|]. split; [reflexivity|].
  unfold chunks. rewrite <- Hq.
  replace (nj =? 0)%Z with false by (symmetry; apply Z.eqb_neq; lia).
  replace (Z.of_nat (T / Z.to_nat nj) =? 0)%Z with false by (symmetry; apply Z.eqb_neq; lia).
  replace (Z.of_nat (T / Z.to_nat nj) <? 0)%Z with false by (symmetry; apply Z.ltb_ge; lia).
  rewrite Nat2Z.id. unfold py_range. rewrite map_map, Nat.sub_0_r. f_equal.
Qed.

Lemma chunks_fail T nj : ~ (1 <= nj <= Z.of_nat T)%Z -> chunks T nj = None \/ chunks T nj = Some [].
Proof.
  intros H. unfold chunks.
  destruct (Z.eqb_spec nj 0); [now left|].
  destruct (Z_lt_dec nj 0) as [L|L].
  - destruct (Z.eqb_spec (Z.of_nat T / nj) 0); [now left|].
    replace (Z.of_nat T / nj <? 0)%Z with true; [now right|].
    symmetry. apply Z.ltb_lt.
    destruct (Nat.eq_dec T 0) as [->|]; [rewrite Z.div_0_l in *; lia|].
    pose proof (Z.div_mod (Z.of_nat T) nj ltac:(lia)). pose proof (Z.mod_neg_bound (Z.of_nat T) nj ltac:(lia)). nia.
  - left. replace (Z.of_nat T / nj)%Z with 0%Z by (symmetry; apply Z.div_small; lia). reflexivity.
Qed.

Lemma run_chunks_eq {S} (blank : S) slice T nj :
  run_chunks blank slice T nj
  = if ((1 <=? nj) && (nj <=? Z.of_nat T))%Z then Some (map slice (seq 0 T)) else None.
Proof.
  destruct ((1 <=? nj) && (nj <=? Z.of_nat T))%Z eqn:E.
  - apply andb_true_iff in E as [E1 E2]. apply Z.leb_le in E1, E2.
    destruct (chunks_ok T nj (conj E1 E2)) as (cs & Hcs & _ & Ec).
    unfold run_chunks. rewrite Ec.
    pose proof (ceil_cover T cs Hcs) as HC.
    set (m := (T + cs - 1) / cs) in *.
    assert (Hm : 0 < m) by (destruct m; lia).
    assert (NE : exists c l, map (fun j => (j * cs, Nat.min (j * cs + cs) T)) (seq 0 m) = c :: l).
    { destruct m; [lia|]. simpl. eauto. }
    destruct NE as (c & l & NE). rewrite NE. f_equal. rewrite <- NE, map_map.
    rewrite (map_ext _ (fun j => map slice (seq (j * cs) (Nat.min (j * cs + cs) T - j * cs)))).
    2:{ intros j. apply process_chunk_eq. }
    rewrite <- (map_map (fun j => seq (j * cs) (Nat.min (j * cs + cs) T - j * cs)) (map slice)).
    rewrite <- concat_map, concat_chunks by exact Hcs. f_equal. f_equal. lia.
  - unfold run_chunks. destruct (chunks_fail T nj) as [->| ->]; try reflexivity.
    intros [H1 H2]. apply Z.leb_le in H1, H2. rewrite H1, H2 in E. discriminate.
Qed.

(** ** Stamped maps *)

Lemma mask_on_grid n theta b : mask n (pix theta b) = on_grid n theta b.
Proof. unfold mask, on_grid. rewrite !in_range_b_bound. reflexivity. Qed.

Definition stamp_step n (acc : option (nat -> nat -> list (nat * nat))) (r : (Z * Z) * (nat * nat)) :=
      match acc, wrap_index n (fst (fst r)), wrap_index n (snd (fst r)) with
      | Some f, Some x, Some y =>
          Some (fun i j => if Nat.eqb i x && Nat.eqb j y then f i j ++ [snd r] else f i j)
      | _, _, _ => None
      end.

Lemma stamp_fold n ts f :
  (forall t, In t ts -> mask n (fst t) = true) ->
  exists g, fold_left (stamp_step n) ts (Some f) = Some g /\
    forall i j, g i j = f i j ++ map snd (filter (fun t : (Z * Z) * (nat * nat) =>
       (fst (fst t) mod Z.of_nat n =? Z.of_nat i)%Z && (snd (fst t) mod Z.of_nat n =? Z.of_nat j)%Z) ts).
Proof.
  revert f. induction ts as [|t ts IH]; intros f H.
  - exists f. split; [reflexivity|]. intros. now rewrite app_nil_r.
  - assert (Ht := H t (or_introl eq_refl)). apply andb_true_iff in Ht as [Hx Hy].
    destruct (wrap_index_ok n _ Hx) as (x & Ex & Mx).
    destruct (wrap_index_ok n _ Hy) as (y & Ey & My).
    cbn [fold_left]. unfold stamp_step at 2. rewrite Ex, Ey.
    destruct (IH (fun i j => if Nat.eqb i x && Nat.eqb j y then f i j ++ [snd t] else f i j)
                 (fun u Hu => H u (or_intror Hu))) as (g & Eg & Hg).
    exists g. split; [exact Eg|]. intros i j. rewrite Hg. cbn [filter]. rewrite <- Mx, <- My.
    destruct (Nat.eqb_spec i x) as [->|Ni]; [|
      replace (Z.of_nat x =? Z.of_nat i)%Z with false by (symmetry; apply Z.eqb_neq; lia); reflexivity].
    destruct (Nat.eqb_spec j y) as [->|Nj]; [|
      replace (Z.of_nat y =? Z.of_nat j)%Z with false by (symmetry; apply Z.eqb_neq; lia);
      rewrite !andb_false_r; reflexivity].
    rewrite !Z.eqb_refl. cbn [andb map]. rewrite <- app_assoc. reflexivity.
Qed.

Lemma stamp_slice_eq n theta rows :
  exists f, stamp_slice n theta rows = Some f /\ forall i j, f i j = pairs_at n theta rows i j.
Proof.
  unfold stamp_slice. fold (stamp_step n).
  match goal with |- context [fold_left _ ?ts _] =>
    destruct (stamp_fold n ts (fun _ _ => [])) as (g & Eg & Hg) end.
  { intros t Ht. now apply filter_In in Ht as [_ Ht]. }
  exists g. split; [exact Eg|]. intros i j. rewrite Hg. cbn [app]. unfold pairs_at.
  clear Eg Hg. induction rows as [|r rows IH]; [reflexivity|].
  cbn [map filter fst snd]. rewrite mask_on_grid.
  destruct (on_grid n theta (fst r)); cbn [andb filter fst snd]; [|exact IH].
  fold (gx theta (fst r)). fold (gy theta (fst r)).
  destruct (_ && _); cbn [map snd]; now rewrite IH.
Qed.

Lemma pairs_at_length n theta rows i j :
  length (pairs_at n theta rows i j) = hits 0 n theta (map fst rows) (Z.of_nat i) (Z.of_nat j).
Proof.
  unfold pairs_at, hits. rewrite map_length, filter_map_length. f_equal. apply filter_ext.
  intros r. unfold on_grid. rewrite !Z.add_0_r. reflexivity.
Qed.

(** ** Lagrangian rows *)

Lemma fill_rows_eq {A} (vals : list A) k rows :
  k + length vals <= length rows ->
  fill_rows k vals rows
  = map (fun r => if (k <=? r) && (r <? k + length vals) then nth_error vals (r - k) else nth r rows None)
        (seq 0 (length rows)).
Proof.
  revert k rows. induction vals as [|v vals IH]; intros k rows H; cbn [fill_rows length].
  - transitivity (map (fun r => nth r rows None) (seq 0 (length rows))).
    + clear. induction rows as [|a rows IH]; [reflexivity|]. cbn [length seq map nth].
      f_equal. rewrite <- seq_shift, map_map. exact IH.
    + apply map_ext. intros r.
      replace ((k <=? r) && (r <? k + 0)) with false; [reflexivity|].
      symmetry. apply andb_false_iff. destruct (Nat.leb_spec k r); [right; apply Nat.ltb_ge; lia|now left].
  - cbn [length] in H. rewrite IH by (rewrite map_length, seq_length; lia).
    rewrite map_length, seq_length. apply map_ext_in. intros r Hr. apply in_seq in Hr.
    rewrite nth_map_seq by lia.
    destruct (Nat.leb_spec (S k) r), (Nat.ltb_spec r (S k + length vals)),
      (Nat.leb_spec k r), (Nat.ltb_spec r (k + S (length vals))), (Nat.eqb_spec r k); try lia;
      cbn [andb]; try reflexivity.
    + replace (r - k) with (S (r - S k)) by lia. reflexivity.
    + subst r. replace (k - k) with 0 by lia. reflexivity.
Qed.

Lemma lagrangian_row n theta bs k : k < length bs ->
  nth_error (lagrangian_slice n theta bs) k
  = Some (nth_error (filter (mask n) (map (pix theta) bs)) k).
Proof.
  intros Hk. unfold lagrangian_slice.
  set (F := filter (mask n) (map (pix theta) bs)).
  assert (HF : length F <= length bs).
  { unfold F. rewrite <- (map_length (pix theta) bs) at 1.
    generalize (map (pix theta) bs). intros l. induction l as [|a l IH]; simpl; [lia|].
    destruct (mask n a); simpl; lia. }
  rewrite fill_rows_eq by (rewrite repeat_length; exact HF).
  rewrite repeat_length, nth_error_map, nth_error_nth' with (d := 0) by (now rewrite seq_length).
  rewrite seq_nth by exact Hk. cbn [option_map Nat.add]. f_equal.
  cbn [Nat.leb andb]. rewrite Nat.sub_0_r.
  destruct (Nat.ltb_spec k (length F)) as [L|L]; [reflexivity|].
  rewrite nth_repeat. symmetry. now apply nth_error_None.
Qed.

Lemma lagrangian_length n theta bs : length (lagrangian_slice n theta bs) = length bs.
Proof.
  unfold lagrangian_slice.
  assert (G : forall (A : Type) (vals : list A) k rows, length (fill_rows k vals rows) = length rows).
  { intros A. induction vals as [|v vals IH]; intros k rows; simpl; [reflexivity|].
    rewrite IH, map_length, seq_length. reflexivity. }
  rewrite G. apply repeat_length.
Qed.

Lemma list_ext {A} (l1 l2 : list A) : length l1 = length l2 ->
  (forall k, k < length l1 -> nth_error l1 k = nth_error l2 k) -> l1 = l2.
Proof.
  revert l2. induction l1 as [|a l1 IH]; intros [|b l2] E H; simpl in *; try discriminate; [reflexivity|].
  pose proof (H 0 ltac:(lia)) as H0. simpl in H0. injection H0 as ->. f_equal.
  apply IH; [lia|]. intros k Hk. apply (H (S k)). lia.
Qed.

Lemma filter_prefix {A} (p : A -> bool) (l : list A) :
  (forall k, k < length l -> nth_error (filter p l) k
     = match nth_error l k with Some a => if p a then Some a else None | None => None end)
  <-> (forall i j a b, i < j -> nth_error l i = Some a -> nth_error l j = Some b -> p a = false -> p b = false).
Proof.
  induction l as [|x l IH]; simpl; split.
  - intros _ i j a b _ H. destruct i; discriminate.
  - intros _ k Hk; lia.
  - intros H i j a b Hij Ha Hb Hpa. destruct j as [|j]; [lia|]. simpl in Hb.
    destruct (p x) eqn:Ex.
    + destruct i as [|i]; [simpl in Ha; congruence|]. simpl in Ha.
      apply IH with (i := i) (j := j) (a := a); [|lia|assumption|assumption|assumption].
      intros k Hk. apply (H (S k)). lia.
    + assert (H0 := H 0 ltac:(lia)). simpl in H0. rewrite Ex in H0.
      destruct (filter p l) as [|y r] eqn:EF; [|discriminate].
      destruct (p b) eqn:Eb; [|reflexivity]. exfalso.
      assert (In b (filter p l)) by (apply filter_In; split; [eapply nth_error_In; eauto|exact Eb]).
      rewrite EF in *. contradiction.
  - intros H k Hk. destruct (p x) eqn:Ex.
    + destruct k as [|k]; simpl; [now rewrite Ex|].
      apply IH; [|lia]. intros i j a b Hij Ha Hb. apply (H (S i) (S j) a b); auto; lia.
    + assert (EF : filter p l = []).
      { destruct (filter p l) as [|y r] eqn:EF; [reflexivity|]. exfalso.
        assert (Hy : In y (filter p l)) by (rewrite EF; now left).
        apply filter_In in Hy as [Hy Py]. apply In_nth_error in Hy as [j Hj].
        rewrite (H 0 (S j) x y ltac:(lia) eq_refl Hj Ex) in Py. discriminate. }
      rewrite EF. replace (nth_error [] k) with (@None A) by (destruct k; reflexivity).
      destruct k as [|k]; simpl; [now rewrite Ex|].
      destruct (nth_error l k) as [b|] eqn:Eb; [|reflexivity].
      now rewrite (H 0 (S k) x b ltac:(lia) eq_refl Eb Ex).
Qed.

Lemma lagrangian_documented_iff n theta bs :
  lagrangian_slice n theta bs = documented_rows n theta bs
  <-> (forall i j a b, i < j -> nth_error bs i = Some a -> nth_error bs j = Some b ->
         on_grid n theta a = false -> on_grid n theta b = false).
Proof.
  pose proof (filter_prefix (mask n) (map (pix theta) bs)) as FP.
  rewrite map_length in FP.
  assert (A : (forall k, k < length bs -> nth_error (filter (mask n) (map (pix theta) bs)) k
     = match nth_error (map (pix theta) bs) k with Some a => if mask n a then Some a else None | None => None end)
     <-> lagrangian_slice n theta bs = documented_rows n theta bs).
  { split.
    - intros H. apply list_ext.
      + rewrite lagrangian_length. unfold documented_rows. now rewrite map_length.
      + rewrite lagrangian_length. intros k Hk. rewrite lagrangian_row by exact Hk.
        rewrite (H k Hk). unfold documented_rows. rewrite !nth_error_map.
        destruct (nth_error bs k) as [b|] eqn:Eb; [|apply nth_error_None in Eb; lia].
        simpl. rewrite mask_on_grid. destruct (on_grid n theta b); reflexivity.
    - intros E k Hk. pose proof (lagrangian_row n theta bs k Hk) as R. rewrite E in R.
      unfold documented_rows in R. rewrite nth_error_map in R. rewrite nth_error_map.
      destruct (nth_error bs k) as [b|] eqn:Eb; [|apply nth_error_None in Eb; lia].
      simpl in *. injection R as R. rewrite <- R, mask_on_grid. destruct (on_grid n theta b); reflexivity. }
  rewrite <- A, FP. split.
  - intros H i j a b Hij Ha Hb Hpa. rewrite <- mask_on_grid in *.
    apply (H i j (pix theta a) (pix theta b) Hij); [now rewrite nth_error_map, Ha|now rewrite nth_error_map, Hb|exact Hpa].
  - intros H i j a b Hij Ha Hb Hpa. rewrite nth_error_map in Ha, Hb.
    destruct (nth_error bs i) as [a'|] eqn:Ea; [|discriminate]. injection Ha as <-.
    destruct (nth_error bs j) as [b'|] eqn:Eb; [|discriminate]. injection Hb as <-.
    rewrite mask_on_grid in *. exact (H i j a' b' Hij Ea Eb Hpa).
Qed.
