(** C26, C27, C28, C62: statistics. *)
From Coq Require Import List Arith ZArith Reals Lra Lia Bool.
From Verif Require Import RLib StatsModel StatsSpec.
Import ListNotations.
Local Open Scope R_scope.

(** * C26 *)
Lemma rsum_cons : forall x l, rsum (x :: l) = x + rsum l.
Proof. reflexivity. Qed.
Lemma sum_mean : forall l, l <> [] -> rsum l = INR (length l) * mean l.
Proof.
  intros l H. unfold mean. field. destruct l; [congruence|]. apply not_0_INR. discriminate.
Qed.
Lemma sq_dev_shift : forall l m, l <> [] ->
  rsum (map (fun x => (x - m) ^ 2) l) = sq_dev l + INR (length l) * (mean l - m) ^ 2.
Proof.
  intros l m H. unfold sq_dev. pose proof (sum_mean l H) as E. set (mu := mean l) in *.
  rewrite (rsum_ext (fun x => (x - m) ^ 2) (fun x => (x - mu) ^ 2 + (2 * (mu - m) * x + (m ^ 2 - mu ^ 2))))
    by (intros; ring).
  rewrite rsum_plus. f_equal. rewrite rsum_plus, rsum_const, (rsum_scale (fun x => x)), map_id, E. ring.
Qed.
Lemma len_pos : forall {A} (l : list A), l <> [] -> 0 < INR (length l).
Proof. intros A l H. apply lt_0_INR. destruct l; [congruence|simpl; lia]. Qed.
Lemma sq_dev_single : forall l, length l = 1%nat -> sq_dev l = 0.
Proof.
  intros [|x [|y l]] H; try discriminate. unfold sq_dev, mean. simpl. field.
Qed.
Lemma describes_ss : forall s d, describes s d -> (dsize d - 1) * dvar d = sq_dev s.
Proof.
  intros s d [H [_ [E [E1|E1]]]]; rewrite E.
  - rewrite E1. simpl. rewrite (sq_dev_single s E1). ring.
  - rewrite E1. destruct (Nat.eq_dec (length s) 1) as [L|L].
    + rewrite L. simpl. rewrite (sq_dev_single s L). unfold Rdiv. ring.
    + field. assert (INR (length s) <> 1); [|lra]. change 1 with (INR 1). apply not_INR. exact L.
Qed.
Lemma combined_sums : forall samples ds,
  Forall2 (fun s d => s <> [] /\ dmean d = mean s /\ dsize d = INR (length s)) samples ds ->
  rsum (map dsize ds) = INR (length (concat samples)) /\
  rsum (map (fun d => dsize d * dmean d) ds) = rsum (concat samples).
Proof.
  induction 1 as [|s d samples ds [Hs [Hm Hn]] _ [IH1 IH2]]; simpl; [split; reflexivity|].
  rewrite app_length, plus_INR, rsum_app. rewrite <- IH1, <- IH2, Hm, Hn, (sum_mean s Hs). split; ring.
Qed.
Lemma combined_mean_pooled : forall samples ds,
  Forall2 (fun s d => s <> [] /\ dmean d = mean s /\ dsize d = INR (length s)) samples ds ->
  combined_mean ds = mean (concat samples).
Proof.
  intros samples ds H. destruct (combined_sums samples ds H) as [E1 E2].
  unfold combined_mean, mean. rewrite E1, E2. reflexivity.
Qed.
Lemma describes_weaken : forall samples ds, Forall2 describes samples ds ->
  Forall2 (fun s d => s <> [] /\ dmean d = mean s /\ dsize d = INR (length s)) samples ds.
Proof. induction 1 as [|s d ? ? [H1 [H2 [H3 _]]]]; constructor; auto. Qed.

(** The combined mean and variance are those of all samples put together. *)
Theorem C26_pooled : forall samples ds, Forall2 describes samples ds ->
  combined_mean_variance ds = (mean (concat samples), sq_dev (concat samples) / (INR (length (concat samples)) - 1)).
Proof.
  intros samples ds H. pose proof (describes_weaken _ _ H) as H'.
  unfold combined_mean_variance. f_equal; [apply combined_mean_pooled; exact H'|].
  unfold combined_variance. rewrite (combined_mean_pooled _ _ H').
  rewrite (proj1 (combined_sums _ _ H')). f_equal.
  assert (G : forall m, rsum (map (fun d => (dsize d - 1) * dvar d + dsize d * (dmean d - m) ^ 2) ds)
            = rsum (map (fun x => (x - m) ^ 2) (concat samples))).
  { intro m. clear H'. induction H as [|s d samples ds Hd _ IH]; [reflexivity|].
    cbn [map concat]. rewrite ?rsum_cons, map_app, rsum_app, <- IH. f_equal. rewrite (describes_ss s d Hd).
    destruct Hd as [Hs [Hm [Hn _]]]. rewrite (sq_dev_shift s m Hs), Hm, Hn. reflexivity. }
  apply G.
Qed.
Print Assumptions C26_pooled.

(** Without sample sizes the variances are ignored. *)
Theorem C26_default_sizes_ignore_variances : forall mv mv', map fst mv = map fst mv' ->
  combined_mean_variance_nosize mv = combined_mean_variance_nosize mv'.
Proof.
  intros mv mv' H. unfold combined_mean_variance_nosize, combined_mean_variance.
  assert (G : forall (F : R -> R) mv mv', map (@fst R R) mv = map fst mv' ->
    map (fun d => F (dmean d)) (map (fun p => DS (fst p) (snd p) 1) mv) =
    map (fun d => F (dmean d)) (map (fun p => DS (fst p) (snd p) 1) mv')).
  { intros F. induction mv0 as [|p l IH]; intros [|p' l'] E; try discriminate E; [reflexivity|].
    injection E as E1 E2. simpl. rewrite E1, (IH l' E2). reflexivity. }
  assert (S1 : forall mv : list (R * R), map dsize (map (fun p => DS (fst p) (snd p) 1) mv) = map (fun _ => 1) mv)
    by (intro l; rewrite map_map; reflexivity).
  assert (L : length mv = length mv') by (rewrite <- (map_length fst mv), H, map_length; reflexivity).
  assert (S2 : rsum (map dsize (map (fun p => DS (fst p) (snd p) 1) mv)) =
               rsum (map dsize (map (fun p => DS (fst p) (snd p) 1) mv'))).
  { rewrite !S1, !rsum_const, L. reflexivity. }
  assert (M : combined_mean (map (fun p => DS (fst p) (snd p) 1) mv) = combined_mean (map (fun p => DS (fst p) (snd p) 1) mv')).
  { unfold combined_mean. rewrite S2. f_equal.
    assert (Q : forall l : list (R * R), rsum (map (fun d => dsize d * dmean d) (map (fun p => DS (fst p) (snd p) 1) l))
      = rsum (map (fun d => dmean d) (map (fun p => DS (fst p) (snd p) 1) l))).
    { intro l. rewrite !map_map. apply rsum_ext. intros; simpl; ring. }
    rewrite !Q. f_equal. apply (G (fun x => x)). exact H. }
  f_equal; [exact M|]. unfold combined_variance. rewrite M, S2. f_equal.
  set (m := combined_mean _).
  assert (Q : forall l : list (R * R),
    rsum (map (fun d => (dsize d - 1) * dvar d + dsize d * (dmean d - m) ^ 2) (map (fun p => DS (fst p) (snd p) 1) l))
    = rsum (map (fun d => (dmean d - m) ^ 2) (map (fun p => DS (fst p) (snd p) 1) l))).
  { intro l. rewrite !map_map. apply rsum_ext. intros; simpl; ring. }
  rewrite !Q. f_equal. apply (G (fun x => (x - m) ^ 2)). exact H.
Qed.
Print Assumptions C26_default_sizes_ignore_variances.
Example C26_default_sizes_ignore_variances_sat : exists mv mv' : list (R * R), map fst mv = map fst mv' /\ mv <> mv'.
Proof. exists [(1, 2); (3, 4)], [(1, 5); (3, 6)]. split; [reflexivity|]. intro E. injection E. lra. Qed.

(** With population variances (numpy's default, which is what [mean_estimate] feeds into
    the same formula) the result falls short of the pooled one by the sum of the
    variances over N - 1. *)
Theorem C26_population_variances : forall samples ds, Forall2 describes_population samples ds ->
  (2 <= length (concat samples))%nat ->
  combined_variance ds =
  (sq_dev (concat samples) - rsum (map dvar ds)) / (INR (length (concat samples)) - 1).
Proof.
  intros samples ds H L.
  assert (H' : Forall2 (fun s d => s <> [] /\ dmean d = mean s /\ dsize d = INR (length s)) samples ds).
  { clear L. induction H as [|s d ? ? [H1 [H2 [H3 _]]]]; constructor; auto. }
  unfold combined_variance. rewrite (combined_mean_pooled _ _ H'), (proj1 (combined_sums _ _ H')).
  f_equal.
  assert (G : forall m, rsum (map (fun d => (dsize d - 1) * dvar d + dsize d * (dmean d - m) ^ 2) ds)
            = rsum (map (fun x => (x - m) ^ 2) (concat samples)) - rsum (map dvar ds)).
  { intro m. clear H' L. induction H as [|s d samples ds Hd _ IH]; [cbn [map rsum concat]; cbn; ring|].
    cbn [map concat]. rewrite ?rsum_cons, map_app, rsum_app, IH. destruct Hd as [Hs [Hm [Hn Hv]]].
    rewrite (sq_dev_shift s m Hs), Hm, Hn, Hv. pose proof (len_pos s Hs). field. lra. }
  rewrite G. reflexivity.
Qed.
Print Assumptions C26_population_variances.

(** The docstring's example does not have the mean it states. *)
Theorem C26_docstring_example_refuted :
  combined_mean [DS 2 (1/2) 10; DS 3 (7/10) 15; DS 4 (6/10) 20] = 29 / 9 /\
  combined_mean [DS 2 (1/2) 10; DS 3 (7/10) 15; DS 4 (6/10) 20] <> 32 / 10.
Proof.
  assert (E : combined_mean [DS 2 (1/2) 10; DS 3 (7/10) 15; DS 4 (6/10) 20] = 29 / 9)
    by (unfold combined_mean; simpl; field).
  split; [exact E|rewrite E; lra].
Qed.
Print Assumptions C26_docstring_example_refuted.

Example C26_sat : Forall2 describes [[1; 3]; [2]] [DS 2 2 2; DS 2 7 1] /\
  Forall2 describes_population [[1; 3]; [2]] [DS 2 1 2; DS 2 0 1].
Proof.
  assert (M : mean [1; 3] = 2) by (unfold mean; simpl; field).
  assert (M1 : mean [2] = 2) by (unfold mean; simpl; field).
  assert (Q : sq_dev [1; 3] = 2) by (unfold sq_dev; rewrite M; simpl; ring).
  assert (Q1 : sq_dev [2] = 0) by (apply sq_dev_single; reflexivity).
  assert (D1 : describes [1; 3] (DS 2 2 2)).
  { split; [discriminate|]. split; [symmetry; exact M|]. split; [simpl; ring|]. right. rewrite Q. simpl. field. }
  assert (D2 : describes [2] (DS 2 7 1)).
  { split; [discriminate|]. split; [symmetry; exact M1|]. split; [simpl; ring|]. left. reflexivity. }
  assert (D3 : describes_population [1; 3] (DS 2 1 2)).
  { split; [discriminate|]. split; [symmetry; exact M|]. split; [simpl; ring|]. rewrite Q. simpl. field. }
  assert (D4 : describes_population [2] (DS 2 0 1)).
  { split; [discriminate|]. split; [symmetry; exact M1|]. split; [simpl; ring|]. rewrite Q1. simpl. field. }
  split; constructor; auto.
Qed.

(** * C27 *)
Definition coord (ax x y z : nat) : nat := match ax with 0 => x | 1 => y | _ => z end%nat.
Lemma fold_update : forall ax (f : nat -> R -> R) n a,
  let r := fold_left (fun out i => update_slice ax i (f i) out) (seq 0 n) a in
  s0 r = s0 a /\ s1 r = s1 a /\ s2 r = s2 a /\
  forall x y z, at3 r x y z = (if Nat.ltb (coord ax x y z) n then f (coord ax x y z) (at3 a x y z) else at3 a x y z).
Proof.
  intros ax f n a. induction n as [|n IH]; [simpl; auto|].
  rewrite seq_S, fold_left_app. cbn [fold_left plus]. cbv zeta in IH |- *.
  destruct IH as [I0 [I1 [I2 I3]]]. set (r := fold_left _ (seq 0 n) a) in *.
  cbn [update_slice s0 s1 s2 at3]. split; [exact I0|]. split; [exact I1|]. split; [exact I2|].
  intros x y z. fold (coord ax x y z).
  rewrite I3. destruct (Nat.eqb_spec (coord ax x y z) n) as [E|E].
  - rewrite E. rewrite Nat.ltb_irrefl. destruct (Nat.ltb_spec n (S n)); [reflexivity|lia].
  - destruct (Nat.ltb_spec (coord ax x y z) n), (Nat.ltb_spec (coord ax x y z) (S n)); try lia; reflexivity.
Qed.

(** Axis number for a Python axis argument. *)
Definition axis_of (los : Z) : nat := Z.to_nat (los mod 3).
Lemma axis_sub_of : forall los, (-3 <= los < 3)%Z -> axis_sub los = Some (axis_of los).
Proof.
  intros los H. assert (D : (los = -3 \/ los = -2 \/ los = -1 \/ los = 0 \/ los = 1 \/ los = 2)%Z) by lia.
  repeat (destruct D as [->|D]; [reflexivity|]). rewrite D. reflexivity.
Qed.
Lemma axis_sub_none : forall los, ~ (-3 <= los < 3)%Z -> axis_sub los = None.
Proof.
  intros los H. unfold axis_sub.
  destruct (Z.eqb_spec los 0), (Z.eqb_spec los (-3)), (Z.eqb_spec los 1), (Z.eqb_spec los (-2)),
           (Z.eqb_spec los 2), (Z.eqb_spec los (-1)); simpl; try lia; reflexivity.
Qed.

Lemma flat_map_length_const : forall {A B} (f : A -> list B) n l,
  (forall a, length (f a) = n) -> length (flat_map f l) = (length l * n)%nat.
Proof. induction l; intro H; simpl; [reflexivity|]. rewrite app_length, H, IHl; auto. Qed.
Lemma slice_values_map : forall ax a b (g : R -> R) i,
  s0 b = s0 a -> s1 b = s1 a -> s2 b = s2 a ->
  (forall x y z, coord ax x y z = i -> at3 b x y z = g (at3 a x y z)) ->
  slice_values ax b i = map g (slice_values ax a i).
Proof.
  assert (FM : forall {A} (f f' : A -> list R) (g : R -> R) l, (forall x, In x l -> f x = map g (f' x)) ->
            flat_map f l = map g (flat_map f' l)).
  { induction l as [|x l IH]; intro H; [reflexivity|]. simpl. rewrite map_app, (H x), IH; simpl; auto.
    intros; apply H; simpl; auto. }
  intros ax a b g i E0 E1 E2 H.
  destruct ax as [|[|ax]]; unfold slice_values; rewrite ?E0, ?E1, ?E2; apply FM; intros u _;
    rewrite map_map; apply map_ext; intro v; apply H; reflexivity.
Qed.
Lemma mean_map_sub : forall l c, l <> [] -> mean (map (fun v => v - c) l) = mean l - c.
Proof.
  intros l c H. unfold mean. rewrite map_length, rsum_minus, map_id, rsum_const.
  pose proof (len_pos l H). field. lra.
Qed.
Lemma mean_map_div : forall l c, mean (map (fun v => v / c) l) = mean l / c.
Proof.
  intros l c. unfold mean. rewrite map_length. unfold Rdiv. rewrite (rsum_scale_r (fun v => v)), map_id. ring.
Qed.

Definition same_shape (a b : arr3) : Prop := s0 b = s0 a /\ s1 b = s1 a /\ s2 b = s2 a.
Definition inside (a : arr3) (x y z : nat) : Prop := (x < s0 a)%nat /\ (y < s1 a)%nat /\ (z < s2 a)%nat.
Lemma inside_coord : forall ax a x y z, (ax < 3)%nat -> inside a x y z -> (coord ax x y z < side ax a)%nat.
Proof. intros [|[|[|ax]]] a x y z H [H0 [H1 H2]]; simpl; auto; lia. Qed.

(** For each of the six axis numbers Python accepts, the result has the shape of the
    input and every cell is the input cell minus the mean of its slice; any other axis
    number raises. *)
Theorem C27_subtract_mean : forall a los,
  (~ (-3 <= los < 3)%Z -> subtract_mean_signal a los = None) /\
  ((-3 <= los < 3)%Z -> exists b, subtract_mean_signal a los = Some b /\ same_shape a b /\
     forall x y z, inside a x y z ->
       at3 b x y z = at3 a x y z - mean (slice_values (axis_of los) a (coord (axis_of los) x y z))).
Proof.
  intros a los. unfold subtract_mean_signal, shape_at. split; intro H.
  - rewrite axis_sub_none by exact H. reflexivity.
  - rewrite axis_sub_of by exact H. cbn [option_map]. set (ax := axis_of los).
    assert (Hax : (ax < 3)%nat).
    { unfold ax, axis_of. pose proof (Z.mod_pos_bound los 3 ltac:(lia)). lia. }
    pose proof (fold_update ax (fun i v => v - mean (slice_values ax a i)) (side ax a) a) as F.
    cbv beta zeta in F. destruct F as [F0 [F1 [F2 F3]]].
    eexists. split; [reflexivity|]. split; [split; [exact F0|split; [exact F1|exact F2]]|].
    intros x y z Hi. rewrite F3. pose proof (inside_coord ax a x y z Hax Hi).
    destruct (Nat.ltb_spec (coord ax x y z) (side ax a)); [reflexivity|lia].
Qed.
Print Assumptions C27_subtract_mean.

Lemma slice_mean_zero : forall a b los i, (-3 <= los < 3)%Z -> subtract_mean_signal a los = Some b ->
  (i < side (axis_of los) a)%nat -> slice_values (axis_of los) a i <> [] ->
  mean (slice_values (axis_of los) b i) = 0.
Proof.
  intros a b los i H E Hi N.
  unfold subtract_mean_signal, shape_at in E. rewrite axis_sub_of in E by exact H. cbn [option_map] in E.
  set (ax := axis_of los) in *. injection E as E.
  pose proof (fold_update ax (fun i v => v - mean (slice_values ax a i)) (side ax a) a) as F.
  cbv beta zeta in F. rewrite E in F. destruct F as [F0 [F1 [F2 F3]]].
  rewrite (slice_values_map ax a b (fun v => v - mean (slice_values ax a i)) i F0 F1 F2).
  - rewrite mean_map_sub by exact N. ring.
  - intros x y z C. rewrite F3, C. destruct (Nat.ltb_spec i (side ax a)); [reflexivity|lia].
Qed.

(** What a slice is: the cells of the array with that index along the axis, row by row. *)
Definition all_cells (a : arr3) : list (nat * nat * nat) :=
  flat_map (fun x => flat_map (fun y => map (fun z => (x, y, z)) (seq 0 (s2 a))) (seq 0 (s1 a))) (seq 0 (s0 a)).
Lemma filter_flat_map : forall {A B} (p : B -> bool) (f : A -> list B) l, filter p (flat_map f l) = flat_map (fun a => filter p (f a)) l.
Proof. intros A B p f l. induction l as [|a l IH]; [reflexivity|]. cbn. rewrite filter_app, IH. reflexivity. Qed.
Lemma filter_one : forall i n s, filter (fun k => (k =? i)%nat) (seq s n) = if ((s <=? i) && (i <? s + n))%nat then [i] else [].
Proof.
  intros i n. induction n as [|n IH]; intro s; cbn [seq filter].
  - destruct (Nat.leb_spec s i), (Nat.ltb_spec i (s + 0)); cbn; try reflexivity; lia.
  - rewrite IH. destruct (Nat.eqb_spec s i) as [E|E].
    + subst. destruct (Nat.leb_spec (S i) i), (Nat.leb_spec i i), (Nat.ltb_spec i (i + S n)); cbn; try reflexivity; lia.
    + destruct (Nat.leb_spec (S s) i), (Nat.leb_spec s i), (Nat.ltb_spec i (S s + n)), (Nat.ltb_spec i (s + S n)); cbn; try reflexivity; lia.
Qed.
Lemma filter_map_comm : forall {A B} (p : B -> bool) (f : A -> B) l, filter p (map f l) = map f (filter (fun a => p (f a)) l).
Proof. intros A B p f l. induction l as [|a l IH]; [reflexivity|]. cbn. destruct (p (f a)); cbn; rewrite IH; reflexivity. Qed.
Lemma map_flat_map' : forall {A B C} (g : B -> C) (f : A -> list B) l, map g (flat_map f l) = flat_map (fun a => map g (f a)) l.
Proof. intros A B C g f l. induction l as [|a l IH]; [reflexivity|]. cbn. rewrite map_app, IH. reflexivity. Qed.
Lemma flat_map_pick : forall {B} i (f : nat -> list B) l, flat_map (fun k => if (k =? i)%nat then f k else []) l = flat_map f (filter (fun k => (k =? i)%nat) l).
Proof. intros B i f l. induction l as [|k l IH]; [reflexivity|]. cbn. destruct (k =? i)%nat; cbn; rewrite IH; reflexivity. Qed.
Lemma filter_const : forall {A} (b : bool) (l : list A), filter (fun _ => b) l = if b then l else [].
Proof. intros A b l. induction l as [|a l IH]; [destruct b; reflexivity|]. cbn. rewrite IH. destruct b; reflexivity. Qed.
Lemma flat_map_nil : forall {A B} (l : list A), flat_map (fun _ => @nil B) l = [].
Proof. intros A B l. induction l; [reflexivity|assumption]. Qed.
Theorem C27_slices : forall ax a i, (ax < 3)%nat -> (i < side ax a)%nat ->
  slice_values ax a i =
  map (fun c => at3 a (fst (fst c)) (snd (fst c)) (snd c))
    (filter (fun c => (nth ax [fst (fst c); snd (fst c); snd c] 0 =? i)%nat) (all_cells a)).
Proof.
  intros ax a i A Hi. unfold all_cells.
  assert (F1 : forall n, (i < n)%nat -> filter (fun k => (k =? i)%nat) (seq 0 n) = [i]).
  { intros n N. rewrite filter_one. destruct (Nat.leb_spec 0 i), (Nat.ltb_spec i (0 + n)); cbn; try reflexivity; lia. }
  destruct ax as [|[|[|ax]]]; [| | |lia]; cbn [side] in Hi; unfold slice_values; cbn [nth].
  - rewrite filter_flat_map.
    rewrite (flat_map_ext _ (fun x => if (x =? i)%nat then flat_map (fun y => map (fun z => (x, y, z)) (seq 0 (s2 a))) (seq 0 (s1 a)) else [])).
    2:{ intro x. rewrite filter_flat_map.
        rewrite (flat_map_ext _ (fun y => if (x =? i)%nat then map (fun z => (x, y, z)) (seq 0 (s2 a)) else [])).
        2:{ intro y. rewrite filter_map_comm. cbn [fst snd]. rewrite filter_const. destruct (x =? i)%nat; reflexivity. }
        destruct (x =? i)%nat; [reflexivity|]. apply flat_map_nil. }
    rewrite flat_map_pick, F1 by exact Hi. cbn [flat_map]. rewrite app_nil_r, map_flat_map'. apply flat_map_ext. intro y. rewrite map_map. reflexivity.
  - rewrite filter_flat_map, map_flat_map'. apply flat_map_ext. intro x. rewrite filter_flat_map.
    rewrite (flat_map_ext _ (fun y => if (y =? i)%nat then map (fun z => (x, y, z)) (seq 0 (s2 a)) else [])).
    2:{ intro y. rewrite filter_map_comm. cbn [fst snd]. rewrite filter_const. destruct (y =? i)%nat; reflexivity. }
    rewrite flat_map_pick, F1 by exact Hi. cbn [flat_map]. rewrite app_nil_r, map_map. reflexivity.
  - rewrite filter_flat_map, map_flat_map'. apply flat_map_ext. intro x. rewrite filter_flat_map, map_flat_map'.
    transitivity (flat_map (fun y => [at3 a x y i]) (seq 0 (s1 a))).
    { generalize (seq 0 (s1 a)). intro l. induction l as [|y l IH]; [reflexivity|]. cbn. rewrite IH. reflexivity. }
    apply flat_map_ext. intro y. rewrite filter_map_comm. cbn [fst snd]. rewrite F1 by exact Hi. reflexivity.
Qed.
Print Assumptions C27_slices.
Example C27_slices_sat : exists (ax : nat) (a : arr3) (i : nat), (ax < 3)%nat /\ (i < side ax a)%nat.
Proof. exists 2%nat, (Arr 2 2 2 (fun x y z => INR (x + 2 * y + 4 * z))), 1%nat. cbn. lia. Qed.

(** Every slice of the result has zero mean (if slices are not empty). *)
Theorem C27_zero_mean : forall a b los i, (-3 <= los < 3)%Z -> subtract_mean_signal a los = Some b ->
  (i < side (axis_of los) a)%nat -> slice_values (axis_of los) a i <> [] ->
  mean (slice_values (axis_of los) b i) = 0.
Proof. exact slice_mean_zero. Qed.
Print Assumptions C27_zero_mean.
Example C27_zero_mean_sat : exists (a : arr3) (b : arr3) (los : Z) (i : nat), (-3 <= los < 3)%Z /\ subtract_mean_signal a los = Some b /\ (i < side (axis_of los) a)%nat /\ slice_values (axis_of los) a i <> [].
Proof. eexists (Arr 2 2 2 (fun x y z => INR (x + 2 * y + 4 * z))), _, (-1)%Z, 1%nat. split; [lia|]. split; [reflexivity|]. split; [vm_compute; lia|]. unfold slice_values, axis_of. cbn. discriminate. Qed.

(** Doing it twice is the same as doing it once. *)
Theorem C27_idempotent : forall a b los, (-3 <= los < 3)%Z -> subtract_mean_signal a los = Some b ->
  (0 < s0 a)%nat -> (0 < s1 a)%nat -> (0 < s2 a)%nat ->
  exists c, subtract_mean_signal b los = Some c /\ same_shape a c /\
    forall x y z, inside a x y z -> at3 c x y z = at3 b x y z.
Proof.
  intros a b los H E P0 P1 P2.
  destruct (proj2 (C27_subtract_mean a los) H) as [b' [E' [[A0 [A1 A2]] _]]]. rewrite E in E'. injection E' as <-.
  destruct (proj2 (C27_subtract_mean b los) H) as [c [Ec [[B0 [B1 B2]] C]]].
  exists c. split; [exact Ec|]. split; [split; [congruence|split; congruence]|].
  intros x y z [I0 [I1 I2]]. rewrite C.
  2:{ split; [rewrite A0; auto|]. split; [rewrite A1; auto|rewrite A2; auto]. }
  set (ax := axis_of los) in *.
  assert (Hax : (ax < 3)%nat).
  { unfold ax, axis_of. pose proof (Z.mod_pos_bound los 3 ltac:(lia)). lia. }
  assert (Z0 : mean (slice_values ax b (coord ax x y z)) = 0); [|rewrite Z0; ring].
  apply (C27_zero_mean a b los (coord ax x y z) H E); fold ax.
  - apply inside_coord; auto. split; auto.
  - assert (L : length (slice_values ax a (coord ax x y z)) <> 0%nat).
    { destruct ax as [|[|ax']]; unfold slice_values;
        (erewrite flat_map_length_const; [|intro; rewrite map_length, seq_length; reflexivity]);
        rewrite seq_length; nia. }
    intro N. rewrite N in L. apply L. reflexivity.
Qed.
Print Assumptions C27_idempotent.
Example C27_idempotent_sat : exists (a : arr3) (b : arr3) (los : Z), (-3 <= los < 3)%Z /\ subtract_mean_signal a los = Some b /\ (0 < s0 a)%nat /\ (0 < s1 a)%nat /\ (0 < s2 a)%nat.
Proof. eexists (Arr 2 2 2 (fun x y z => INR (x + 2 * y + 4 * z))), _, (-1)%Z. split; [lia|]. split; [reflexivity|]. cbn. lia. Qed.

(** [signal_overdensity] divides each slice by its mean for the axes 0, 1, 2; for the
    negative axis numbers, which the sister function handles, it silently returns the
    signal minus one. *)
Theorem C27_overdensity : forall a los, (-3 <= los < 3)%Z ->
  exists b, signal_overdensity a los = Some b /\ same_shape a b /\
    forall x y z, inside a x y z ->
      at3 b x y z =
      (if (los <? 0)%Z then at3 a x y z - 1
       else at3 a x y z / mean (slice_values (axis_of los) a (coord (axis_of los) x y z)) - 1).
Proof.
  intros a los H. unfold signal_overdensity, shape_at. rewrite axis_sub_of by exact H. cbn [option_map].
  set (ax := axis_of los).
  assert (Hax : (ax < 3)%nat).
  { unfold ax, axis_of. pose proof (Z.mod_pos_bound los 3 ltac:(lia)). lia. }
  destruct (Z.ltb_spec los 0) as [L|L].
  - assert (N : axis_over los = None).
    { unfold axis_over. destruct (Z.eqb_spec los 0), (Z.eqb_spec los 1), (Z.eqb_spec los 2); try lia; reflexivity. }
    rewrite N. eexists. split; [reflexivity|].
    assert (G : forall l (u : arr3), fold_left (fun out (_ : nat) => out) l u = u)
      by (induction l; simpl; auto).
    rewrite G. cbn. split; [split; auto|]. auto.
  - assert (N : axis_over los = Some ax).
    { unfold ax, axis_of, axis_over. rewrite Z.mod_small by lia.
      destruct (Z.eqb_spec los 0); [subst; reflexivity|]. destruct (Z.eqb_spec los 1); [subst; reflexivity|].
      destruct (Z.eqb_spec los 2); [subst; reflexivity|lia]. }
    rewrite N.
    pose proof (fold_update ax (fun i v => v / mean (slice_values ax a i)) (side ax a) a) as F.
    cbv beta zeta in F. destruct F as [F0 [F1 [F2 F3]]].
    eexists. split; [reflexivity|]. cbn [s0 s1 s2 at3]. split; [split; [exact F0|split; [exact F1|exact F2]]|].
    intros x y z Hi. rewrite F3. pose proof (inside_coord ax a x y z Hax Hi).
    destruct (Nat.ltb_spec (coord ax x y z) (side ax a)); [reflexivity|lia].
Qed.
Print Assumptions C27_overdensity.
Example C27_overdensity_sat : exists (los : Z), (-3 <= los < 3)%Z.
Proof. exists (-2)%Z. repeat split; first [lra | lia | reflexivity | discriminate | congruence | auto]. Qed.

(** [apply_func_along_los] returns one value per slice, the function of that slice; it
    rejects negative axes. *)
Theorem C27_apply_func : forall a f los,
  (apply_func_along_los a f los = None <-> ~ (0 <= los < 3)%Z) /\
  (forall r, apply_func_along_los a f los = Some r ->
     length r = side (Z.to_nat los) a /\
     forall i, (i < side (Z.to_nat los) a)%nat -> nth i r 0 = f (slice_values (Z.to_nat los) a i)).
Proof.
  intros a f los. unfold apply_func_along_los.
  destruct (Z.ltb_spec los 0), (Z.leb_spec 3 los); simpl; split; try (split; [intros _|intros _; reflexivity]; lia);
    try (intros r D; discriminate D).
  - split; [discriminate|]. lia.
  - intros r [= <-]. rewrite map_length, seq_length. split; [reflexivity|]. intros i Hi.
    rewrite (nth_indep _ 0 (f (slice_values (Z.to_nat los) a 0))) by (rewrite map_length, seq_length; exact Hi).
    rewrite (map_nth (fun i => f (slice_values (Z.to_nat los) a i))), seq_nth by exact Hi. reflexivity.
Qed.
Print Assumptions C27_apply_func.

Example C27_sat : let a := Arr 2 2 2 (fun x y z => INR (x + 2 * y + 4 * z)) in
  (-3 <= -1 < 3)%Z /\ slice_values (axis_of (-1)) a 1 = [4; 6; 5; 7].
Proof. split; [lia|]. simpl. f_equal; [ring|]. f_equal; [ring|]. f_equal; [ring|]. f_equal. ring. Qed.

(** * C28 *)
Lemma mean_affine : forall a b l, l <> [] -> mean (map (fun x => a * x + b) l) = a * mean l + b.
Proof.
  intros a b l H. unfold mean. rewrite map_length, rsum_plus, (rsum_scale (fun x => x)), map_id, rsum_const.
  pose proof (len_pos l H). field. lra.
Qed.
Lemma deviations_affine : forall a b l, l <> [] ->
  deviations (map (fun x => a * x + b) l) = map (fun d => a * d) (deviations l).
Proof.
  intros a b l H. unfold deviations. rewrite mean_affine by exact H. rewrite !map_map.
  apply map_ext. intro x. ring.
Qed.
Lemma moment_affine : forall a b l k, l <> [] ->
  rsum (map (fun d => d ^ k) (deviations (map (fun x => a * x + b) l)))
  = a ^ k * rsum (map (fun d => d ^ k) (deviations l)).
Proof.
  intros a b l k H. rewrite deviations_affine by exact H. rewrite map_map, <- rsum_scale.
  apply rsum_ext. intros d _. apply Rpow_mult_distr.
Qed.
Lemma variance_affine : forall a b l, l <> [] ->
  variance1 (map (fun x => a * x + b) l) = a ^ 2 * variance1 l.
Proof.
  intros a b l H. unfold variance1. rewrite moment_affine by exact H. rewrite map_length. unfold Rdiv. ring.
Qed.
Lemma variance_nonneg : forall l, (2 <= length l)%nat -> 0 <= variance1 l.
Proof.
  intros l H. unfold variance1. apply le_INR in H. simpl in H.
  apply Rmult_le_pos; [|left; apply Rinv_0_lt_compat; lra].
  apply rsum_nonneg. intros x Hx. apply in_map_iff in Hx. destruct Hx as [d [<- _]]. apply pow2_ge_0.
Qed.

Lemma rsum_zero_all : forall l, (forall x, In x l -> 0 <= x) -> rsum l = 0 -> forall x, In x l -> x = 0.
Proof.
  induction l as [|y l IH]; intros H E x Hx; [contradiction|].
  rewrite rsum_cons in E.
  assert (0 <= y) by (apply H; left; reflexivity).
  assert (0 <= rsum l) by (apply rsum_nonneg; intros; apply H; right; assumption).
  destruct Hx as [<-|Hx]; [lra|]. apply IH; auto; [intros; apply H; right; assumption|lra].
Qed.
(** The denominators vanish exactly for constant data. *)
Theorem C28_denominator_zero_iff_constant : forall l, (2 <= length l)%nat ->
  0 <= variance1 l /\
  ((variance1 l) ^ 2 = 0 <-> forall x y, In x l -> In y l -> x = y) /\
  (pow_3_2 (variance1 l) = 0 <-> forall x y, In x l -> In y l -> x = y).
Proof.
  intros l H. pose proof (variance_nonneg l H) as P.
  assert (Hn : l <> []) by (intro C; rewrite C in H; simpl in H; lia).
  assert (E : variance1 l = 0 <-> forall x y, In x l -> In y l -> x = y).
  { pose proof (le_INR _ _ H) as HI. simpl in HI. unfold variance1. split; intro A.
    - assert (S0 : rsum (map (fun d => d ^ 2) (deviations l)) = 0).
      { apply Rmult_integral in A. destruct A as [A|A]; [exact A|].
        assert (/ (INR (length l) - 1) <> 0) by (apply Rinv_neq_0_compat; lra). contradiction. }
      assert (D : forall x, In x l -> x = mean l).
      { intros x Hx. assert (Z : (x - mean l) ^ 2 = 0).
        { apply (rsum_zero_all _ ) with (x := (x - mean l) ^ 2) in S0; auto.
          - intros u Hu. apply in_map_iff in Hu. destruct Hu as [d [<- _]]. apply pow2_ge_0.
          - apply in_map_iff. exists (x - mean l). split; [reflexivity|].
            apply in_map_iff. exists x. auto. }
        nra. }
      intros x y Hx Hy. rewrite (D x Hx), (D y Hy). reflexivity.
    - destruct l as [|x0 l0]; [congruence|]. set (l := x0 :: l0) in *.
      assert (M : mean l = x0).
      { unfold mean. rewrite <- (map_id l) at 1. rewrite (rsum_ext (fun x => x) (fun _ => x0)).
        - rewrite rsum_const. field. lra.
        - intros x Hx. apply A; [exact Hx|left; reflexivity].
      }
      rewrite rsum_zero; [unfold Rdiv; ring|]. intros d Hd. apply in_map_iff in Hd.
      destruct Hd as [x [<- Hx]]. rewrite M, (A x x0 Hx (or_introl eq_refl)). ring. }
  split; [exact P|]. split; [|]; rewrite <- E; split; intro A.
  - nra.
  - rewrite A. ring.
  - unfold pow_3_2 in A. apply Rmult_integral in A. destruct A as [A|A]; [exact A|apply sqrt_eq_0; assumption].
  - rewrite A. unfold pow_3_2. ring.
Qed.
Print Assumptions C28_denominator_zero_iff_constant.
Example C28_denominator_zero_iff_constant_sat : exists (l : list R), (2 <= length l)%nat.
Proof. exists [1; 2; 3]. cbn; lia. Qed.

(** Shifting and rescaling the data leaves the kurtosis as it is and multiplies the
    skewness by the sign of the factor. *)
Theorem C28_affine_invariance : forall l a b, (2 <= length l)%nat -> a <> 0 ->
  (exists x y, In x l /\ In y l /\ x <> y) ->
  kurtosis (map (fun x => a * x + b) l) = kurtosis l /\
  (0 < a -> skewness (map (fun x => a * x + b) l) = skewness l) /\
  (a < 0 -> skewness (map (fun x => a * x + b) l) = - skewness l).
Proof.
  intros l a b H Ha [x [y [Hx [Hy Hxy]]]].
  assert (Hn : l <> []) by (intro C; rewrite C in H; simpl in H; lia).
  destruct (C28_denominator_zero_iff_constant l H) as [P [K1 K2]].
  assert (V : variance1 l <> 0).
  { intro C. apply Hxy. apply K1; auto. rewrite C. ring. }
  assert (Q : sqrt (variance1 l) <> 0) by (intro C; apply sqrt_eq_0 in C; auto).
  pose proof (len_pos l Hn) as L.
  assert (SK : skewness (map (fun x => a * x + b) l) = a / Rabs a * skewness l).
  { unfold skewness, pow_3_2. rewrite moment_affine, variance_affine, map_length by exact Hn.
    rewrite sqrt_mult by (auto; apply pow2_ge_0).
    replace (a ^ 2) with (Rsqr a) by (unfold Rsqr; ring). rewrite sqrt_Rsqr_abs. unfold Rsqr.
    field. repeat split; auto; try lra. apply Rabs_no_R0. exact Ha. }
  split; [|split; intro S; rewrite SK].
  - unfold kurtosis. rewrite moment_affine, variance_affine, map_length by exact Hn. field. repeat split; auto; lra.
  - rewrite Rabs_pos_eq by lra. field. exact Ha.
  - rewrite Rabs_left by lra. field. exact Ha.
Qed.
Print Assumptions C28_affine_invariance.

(** The kurtosis is at least ((n - 1)/n)^2, by the Cauchy-Schwarz inequality. *)
Theorem C28_kurtosis_lower_bound : forall l, (2 <= length l)%nat ->
  (exists x y, In x l /\ In y l /\ x <> y) ->
  ((INR (length l) - 1) / INR (length l)) ^ 2 <= kurtosis l.
Proof.
  intros l H [x [y [Hx [Hy Hxy]]]].
  assert (Hn : l <> []) by (intro C; rewrite C in H; simpl in H; lia).
  destruct (C28_denominator_zero_iff_constant l H) as [P [K1 K2]].
  assert (V : variance1 l <> 0) by (intro C; apply Hxy; apply K1; auto; rewrite C; ring).
  apply le_INR in H. simpl in H. unfold kurtosis. unfold variance1 in *.
  set (n := INR (length l)) in *.
  set (S2 := rsum (map (fun d => d ^ 2) (deviations l))) in *.
  set (S4 := rsum (map (fun d => d ^ 4) (deviations l))) in *.
  assert (CS : S2 ^ 2 <= n * S4).
  { assert (0 <= rsum (map (fun d => (d ^ 2 - S2 / n) ^ 2) (deviations l))).
    { apply rsum_nonneg. intros u Hu. apply in_map_iff in Hu. destruct Hu as [d [<- _]]. apply pow2_ge_0. }
    rewrite (rsum_ext _ (fun d => d ^ 4 + ((- (2 * (S2 / n))) * d ^ 2 + (S2 / n) ^ 2))) in H0 by (intros; ring).
    rewrite rsum_plus, rsum_plus, (rsum_scale (fun d => d ^ 2)), rsum_const in H0.
    fold S2 S4 in H0. unfold deviations in H0. rewrite map_length in H0. fold n in H0.
    assert (E : S4 + (- (2 * (S2 / n)) * S2 + n * (S2 / n) ^ 2) = S4 - S2 ^ 2 / n) by (field; lra).
    rewrite E in H0. apply Rmult_le_compat_l with (r := n) in H0; [|lra].
    replace (n * (S4 - S2 ^ 2 / n)) with (n * S4 - S2 ^ 2) in H0 by (field; lra). lra. }
  assert (S2n : S2 <> 0) by (intro C; apply V; rewrite C; unfold Rdiv; ring).
  assert (S2p : 0 < S2 ^ 2) by (assert (S2 ^ 2 <> 0) by (apply pow_nonzero; exact S2n); pose proof (pow2_ge_0 S2); lra).
  replace (S4 / n / (S2 / (n - 1)) ^ 2) with (((n - 1) / n) ^ 2 * (n * S4 / S2 ^ 2)) by (field; repeat split; auto; lra).
  rewrite <- (Rmult_1_r (((n - 1) / n) ^ 2)) at 1. apply Rmult_le_compat_l; [apply pow2_ge_0|].
  apply Rmult_le_reg_r with (r := S2 ^ 2); [exact S2p|]. unfold Rdiv. rewrite Rmult_assoc, Rinv_l by lra. lra.
Qed.
Print Assumptions C28_kurtosis_lower_bound.

(** They are the means of the third and fourth powers of the standardised data, with the
    Bessel-corrected standard deviation. *)
Theorem C28_standardised : forall l m s, (2 <= length l)%nat -> 0 < s ->
  INR (length l) * m = rsum l -> (INR (length l) - 1) * s ^ 2 = rsum (map (fun x => (x - m) ^ 2) l) ->
  INR (length l) * skewness l = rsum (map (fun x => ((x - m) / s) ^ 3) l) /\
  INR (length l) * kurtosis l = rsum (map (fun x => ((x - m) / s) ^ 4) l).
Proof.
  intros l m s H Hs Hm Hv. assert (L : 2 <= INR (length l)) by (apply le_INR in H; simpl in H; lra).
  assert (M : mean l = m).
  { unfold mean. rewrite <- Hm. field. lra. }
  assert (D : forall k, rsum (map (fun d => d ^ k) (deviations l)) = rsum (map (fun x => (x - m) ^ k) l)).
  { intros k. unfold deviations. rewrite map_map, M. reflexivity. }
  assert (V : variance1 l = s ^ 2).
  { unfold variance1. rewrite D, <- Hv. field. lra. }
  assert (Q : sqrt (variance1 l) = s).
  { rewrite V. replace (s ^ 2) with (s * s) by ring. apply sqrt_square. lra. }
  split.
  - unfold skewness, pow_3_2. rewrite Q, V, D.
    rewrite (rsum_ext (fun x => ((x - m) / s) ^ 3) (fun x => (/ s) ^ 3 * (x - m) ^ 3)) by (intros; field; lra).
    rewrite rsum_scale. field. lra.
  - unfold kurtosis. rewrite V, D.
    rewrite (rsum_ext (fun x => ((x - m) / s) ^ 4) (fun x => (/ s) ^ 4 * (x - m) ^ 4)) by (intros; field; lra).
    rewrite rsum_scale. field. lra.
Qed.
Print Assumptions C28_standardised.

(** Data symmetric about a centre have zero skewness. *)
Theorem C28_symmetric_no_skew : forall l c, Permutation.Permutation (map (fun x => 2 * c - x) l) l -> skewness l = 0.
Proof.
  intros l c Hp. destruct l as [|x0 l0] eqn:El.
  { unfold skewness, deviations. simpl. unfold Rdiv. ring. }
  assert (Hn : l <> []) by (rewrite El; discriminate). rewrite <- El in *. clear El.
  assert (M : mean l = c).
  { pose proof (rsum_perm _ _ Hp) as E. rewrite rsum_minus, rsum_const, map_id in E.
    pose proof (len_pos l Hn). unfold mean. apply Rmult_eq_reg_l with (r := INR (length l)); [|lra].
    field_simplify; lra. }
  unfold skewness. assert (Z : rsum (map (fun d => d ^ 3) (deviations l)) = 0).
  { unfold deviations. rewrite M, map_map.
    pose proof (rsum_perm _ _ (Permutation.Permutation_map (fun x => (x - c) ^ 3) Hp)) as E.
    rewrite map_map in E. rewrite (rsum_ext _ (fun x => (-1) * (x - c) ^ 3)) in E by (intros; ring).
    rewrite rsum_scale in E. lra. }
  rewrite Z. unfold Rdiv. ring.
Qed.
Print Assumptions C28_symmetric_no_skew.

Example C28_sat : (2 <= length [1; 2; 5])%nat /\ (exists x y, In x [1; 2; 5] /\ In y [1; 2; 5] /\ x <> y) /\
  Permutation.Permutation (map (fun x => 2 * 2 - x) [1; 2; 3]) [1; 2; 3].
Proof.
  split; [simpl; lia|]. split; [exists 1, 2; simpl; repeat split; auto; lra|].
  simpl. replace (2 * 2 - 1) with 3 by lra. replace (2 * 2 - 2) with 2 by lra. replace (2 * 2 - 3) with 1 by lra.
  eapply Permutation.perm_trans; [apply Permutation.perm_swap|].
  eapply Permutation.perm_trans; [apply Permutation.perm_skip; apply Permutation.perm_swap|].
  apply Permutation.perm_swap.
Qed.

Example C28_standardised_sat : (2 <= length [1; 2; 3])%nat /\ 0 < 1 /\ INR (length [1; 2; 3]) * 2 = rsum [1; 2; 3] /\
  (INR (length [1; 2; 3]) - 1) * 1 ^ 2 = rsum (map (fun x => (x - 2) ^ 2) [1; 2; 3]).
Proof. split; [simpl; lia|]. split; [lra|]. cbn. split; lra. Qed.

(** * C62: mass weighted mean *)
(** For non-negative densities that are not all zero, the mass weighted mean ionized
    fraction lies between any bounds of the ionized fraction, and is the plain mean for
    uniform density. *)
Theorem C62_between : forall cells lo hi,
  (forall c, In c cells -> 0 <= snd c) -> (exists c, In c cells /\ 0 < snd c) ->
  (forall c, In c cells -> lo <= fst c <= hi) ->
  lo <= mass_weighted_mean_xi cells <= hi.
Proof.
  intros cells lo hi Hr [c0 [Hc0 Hp]] Hb.
  assert (N : cells <> []) by (intro C; rewrite C in Hc0; contradiction).
  pose proof (len_pos cells N) as L. unfold mass_weighted_mean_xi, mean. rewrite !map_length.
  set (S := rsum (map snd cells)). set (W := rsum (map (fun c => fst c * snd c) cells)).
  assert (SP : 0 < S).
  { assert (0 <= S) by (apply rsum_nonneg; intros u Hu; apply in_map_iff in Hu; destruct Hu as [c [<- Hc]]; auto).
    assert (S <> 0); [|lra]. intro Z. unfold S in Z.
    apply (rsum_zero_all _ ) with (x := snd c0) in Z; [lra| |apply in_map; exact Hc0].
    intros u Hu; apply in_map_iff in Hu; destruct Hu as [c [<- Hc]]; auto. }
  assert (LW : lo * S <= W /\ W <= hi * S).
  { unfold S, W. rewrite <- !rsum_scale. split; apply rsum_le; intros c Hc; apply Rmult_le_compat_r; auto; apply Hb; exact Hc. }
  assert (E : W / INR (length cells) / (S / INR (length cells)) = W / S) by (field; lra).
  rewrite E. split; apply Rmult_le_reg_r with (r := S); auto; unfold Rdiv; rewrite Rmult_assoc, Rinv_l by lra; lra.
Qed.
Print Assumptions C62_between.
Example C62_between_sat : exists (cells : list (R * R)) lo hi, (forall c, In c cells -> 0 <= snd c) /\ (exists c, In c cells /\ 0 < snd c) /\ (forall c, In c cells -> lo <= fst c <= hi).
Proof. exists [(1, 2); (0, 0)], 0, 1. split; [intros c [<-|[<-|[]]]; cbn; lra|]. split; [exists (1, 2); split; [left; reflexivity|cbn; lra]|]. intros c [<-|[<-|[]]]; cbn; lra. Qed.

Theorem C62_uniform_density : forall cells rho, cells <> [] -> rho <> 0 ->
  (forall c, In c cells -> snd c = rho) ->
  mass_weighted_mean_xi cells = mean (map fst cells).
Proof.
  intros cells rho N Hr H. pose proof (len_pos cells N) as L.
  unfold mass_weighted_mean_xi, mean. rewrite !map_length.
  rewrite (rsum_ext (fun c => fst c * snd c) (fun c => fst c * rho)) by (intros c Hc; rewrite (H c Hc); reflexivity).
  rewrite (rsum_ext snd (fun _ => rho)) by exact H.
  rewrite rsum_scale_r, rsum_const. field. lra.
Qed.
Print Assumptions C62_uniform_density.
Example C62_uniform_density_sat : exists (cells : list (R * R)) rho, cells <> [] /\ rho <> 0 /\ (forall c, In c cells -> snd c = rho).
Proof. exists [(1, 2); (0, 2)], 2. split; [discriminate|]. split; [lra|]. intros c [<-|[<-|[]]]; reflexivity. Qed.

Example C62_sat : mass_weighted_mean_xi [(1, 2); (0, 1)] = 2 / 3.
Proof. unfold mass_weighted_mean_xi, mean. simpl. field. Qed.
Example C26_pooled_sat : exists (samples : list (list R)) (ds : list dataset), Forall2 describes samples ds.
Proof. eexists _, _. exact (proj1 C26_sat). Qed.
Example C26_population_variances_sat : exists (samples : list (list R)) (ds : list dataset), Forall2 describes_population samples ds /\ (2 <= length (concat samples))%nat.
Proof. eexists _, _. split; [exact (proj2 C26_sat)|cbn; lia]. Qed.
Example C28_affine_invariance_sat : exists (l : list R) (a : R), (2 <= length l)%nat /\ a <> 0 /\ (exists x y, In x l /\ In y l /\ x <> y).
Proof. exists [1; 2; 5], (-3). destruct C28_sat as (A & B & _). split; [exact A|]. split; [lra|exact B]. Qed.
Example C28_kurtosis_lower_bound_sat : exists (l : list R), (2 <= length l)%nat /\ (exists x y, In x l /\ In y l /\ x <> y).
Proof. exists [1; 2; 5]. destruct C28_sat as (A & B & _). split; [exact A|exact B]. Qed.
Example C28_symmetric_no_skew_sat : exists (l : list R) (c : R), Permutation.Permutation (map (fun x => 2 * c - x) l) l.
Proof. exists [1; 2; 3], 2. exact (proj2 (proj2 C28_sat)). Qed.
