(** C88: what a fit minimises, which folds count, and how few points leave nothing. *)
From Coq Require Import List Arith Reals Lra Lia Bool Permutation.
From Verif Require Import RLib FitModel FitProps LsqModel.
Import ListNotations.
Local Open Scope R_scope.

(** * Specification *)
(** Sum of squared deviations of two lists. *)
Fixpoint misfit (p y : list R) : R := match p, y with a :: p, b :: y => (a - b) ^ 2 + misfit p y | _, _ => 0 end.
(** A function with one value per point. *)
Definition vectorised {A} (func : model A) : Prop := forall X theta, length (func X theta) = length X.
(** [theta] minimises [g] among the vectors of its length. *)
Definition minimises (g : list R -> R) (theta : list R) : Prop := forall theta', length theta' = length theta -> g theta <= g theta'.

Lemma misfit_eq : forall p y, rsum (map (fun q => (fst q - snd q) ^ 2) (combine p y)) = misfit p y.
Proof. induction p as [|a p IH]; intros [|b y]; try reflexivity. unfold rsum in *. cbn [combine map fst snd fold_right misfit]. rewrite IH. reflexivity. Qed.
Lemma misfit_sym : forall p y, misfit p y = misfit y p.
Proof. induction p as [|a p IH]; intros [|b y]; try reflexivity. cbn [misfit]. rewrite IH. ring. Qed.
Lemma misfit_nonneg : forall p y, 0 <= misfit p y.
Proof. induction p as [|a p IH]; intros [|b y]; cbn [misfit]; try lra. pose proof (IH y). pose proof (pow2_ge_0 (a - b)). lra. Qed.
Lemma misfit_zero : forall p y, length p = length y -> misfit p y = 0 -> p = y.
Proof.
  induction p as [|a p IH]; intros [|b y] L H; try discriminate; [reflexivity|]. cbn [misfit] in H. pose proof (misfit_nonneg p y). pose proof (pow2_ge_0 (a - b)).
  assert (E : (a - b) ^ 2 = 0) by lra. replace ((a - b) ^ 2) with (Rsqr (a - b)) in E by (unfold Rsqr; ring). apply Rsqr_0_uniq in E. rewrite (IH y); [f_equal; lra|cbn in L; lia|lra].
Qed.
Lemma misfit_same : forall p, misfit p p = 0.
Proof. induction p as [|a p IH]; cbn [misfit]; [reflexivity|]. rewrite IH. ring. Qed.

Lemma sized_call : forall {A} keys minimize (func : model A) initial X y c splits, length initial = length keys ->
  (forall g x, length (minimize g x) = length x) -> sized keys (call_of minimize func initial X y c splits).
Proof.
  intros A keys minimize func initial X y c splits L M. split; cbn; [unfold optimize; rewrite M; exact L|]. intros n f I. apply in_map_iff in I. destruct I as (s & <- & _). cbn. unfold optimize. rewrite M. exact L.
Qed.

(** * Theorems *)
(** Without cross validation, whatever was fitted before on the same object: if the optimizer, given the sum of squared deviations of
    the data, finds where it is least, no parameter vector predicts the data better than the fitted one, in the sum of squared deviations; data that the function can
    meet exactly are predicted exactly. *)
Theorem C88_least_squares : forall A (func : model A) keys initial minimize before X y splits theta,
  vectorised func -> NoDup keys -> length initial = length keys -> length X = length y ->
  (forall g x, length (minimize g x) = length x) -> Forall (sized keys) before -> (forall c, In c before -> arg_cv c = None) ->
  (forall g, (forall t, g t = misfit (func X t) y) -> minimize g initial = map Some theta /\ minimises g theta) ->
  let o := fold_left fit (before ++ [call_of minimize func initial X y None splits]) (new keys None) in
  (forall theta', length theta' = length keys -> misfit (predict func o X) y <= misfit (func X theta') y) /\
  (forall theta', length theta' = length keys -> func X theta' = y -> predict func o X = y).
Proof.
  intros A func keys initial minimize before X y splits theta V ND L LX M B NC OM o.
  destruct (OM (fun t => residual_func func t X y)) as [O Min]; [intro t; apply misfit_eq|]. clear OM. change (optimize minimize func initial X y = map Some theta) in O.
  assert (LT : length theta = length keys). { rewrite <- (map_length Some theta), <- O. unfold optimize. rewrite M. exact L. }
  assert (T : theta_of (fitted o) = map Some theta).
  { destruct (C88_prediction keys None before (call_of minimize func initial X y None splits) ND B (sized_call keys minimize func initial X y None splits L M)) as (T & _). fold o in T. rewrite T. unfold outcome.
    assert (E : effective_cv None (before ++ [call_of minimize func initial X y None splits]) = None).
    { unfold effective_cv. rewrite fold_left_app. cbn. clear - NC. induction before as [|c before IH]; [reflexivity|]. cbn. rewrite (NC c (or_introl eq_refl)). apply IH. intros c' I. apply NC. right. exact I. }
    rewrite E. exact O. }
  assert (P : predict func o X = func X theta). { unfold predict. rewrite T, map_map. cbn [value]. now rewrite map_id. }
  assert (G : forall theta', length theta' = length keys -> misfit (predict func o X) y <= misfit (func X theta') y).
  { intros theta' L'. rewrite P. specialize (Min theta' ltac:(lia)). cbv beta in Min. unfold residual_func in Min. rewrite !misfit_eq in Min. exact Min. }
  split; [exact G|]. intros theta' L' E. apply misfit_zero; [unfold predict; rewrite V; exact LX|]. pose proof (G theta' L') as H. rewrite E, misfit_same in H. pose proof (misfit_nonneg (predict func o X) y). lra.
Qed.
Print Assumptions C88_least_squares.
Example C88_least_squares_sat : let func : model R := fun X theta => map (fun x => nth 0 theta 0 * x) X in
  let minimize := fun (g : list R -> R) (x : list R) => if Nat.eqb (length x) 1 then [Some 2] else map Some x in
  vectorised func /\ (forall g x, length (minimize g x) = length x) /\ 
  forall g, (forall t, g t = misfit (func [1; 2; 3] t) [2; 4; 6]) -> minimize g [1] = map Some [2] /\ minimises g [2].
Proof.
  cbv zeta. split; [intros X theta; apply map_length|]. split; [intros g x; destruct (Nat.eqb_spec (length x) 1) as [E|E]; [now rewrite E|apply map_length]|]. intros g G. split; [reflexivity|].
  intros [|a [|b t]] L; try discriminate. rewrite !G. cbn [nth map misfit]. pose proof (pow2_ge_0 (a * 1 - 2)). pose proof (pow2_ge_0 (a * 2 - 4)). pose proof (pow2_ge_0 (a * 3 - 6)). lra.
Qed.

(** The least-squares value does not depend on the order of the points if the function treats them one by one. *)
Theorem C88_order_free : forall A (f : A -> list R -> R) theta (d d' : list (A * R)), Permutation d d' ->
  residual_func (fun X t => map (fun x => f x t) X) theta (map fst d) (map snd d) = residual_func (fun X t => map (fun x => f x t) X) theta (map fst d') (map snd d').
Proof.
  intros A f theta d d' P. assert (G : forall d : list (A * R), residual_func (fun X t => map (fun x => f x t) X) theta (map fst d) (map snd d) = rsum (map (fun p => (f (fst p) theta - snd p) ^ 2) d)).
  { clear. intro d. unfold residual_func. f_equal. induction d as [|[a b] d IH]; [reflexivity|]. cbn [map fst snd combine]. f_equal. exact IH. }
  rewrite !G. apply rsum_perm. apply Permutation_map. exact P.
Qed.
Print Assumptions C88_order_free.
Example C88_order_free_sat : Permutation [(1, 2); (2, 4); (3, 6)] [(3, 6); (1, 2); (2, 4)].
Proof. apply Permutation_sym. exact (Permutation_cons_append [(1, 2); (2, 4)] (3, 6)). Qed.

Lemma best_constant : forall y c, y <> [] -> let m := rsum y / INR (length y) in
  rsum (map (fun v => (v - c) ^ 2) y) = rsum (map (fun v => (v - m) ^ 2) y) + INR (length y) * (m - c) ^ 2.
Proof.
  intros y c N m. assert (L : 0 < INR (length y)) by (apply lt_0_INR; destruct y; [contradiction|cbn; lia]).
  assert (G : forall c, rsum (map (fun v => (v - c) ^ 2) y) = rsum (map (fun v => v ^ 2) y) - 2 * c * rsum y + INR (length y) * c ^ 2).
  { clear. intro c. induction y as [|a y IH]; [unfold rsum; cbn; ring|]. cbn [map length]. rewrite S_INR. unfold rsum in *. cbn [fold_right]. rewrite IH. ring. }
  rewrite (G c), (G m). replace (rsum y) with (m * INR (length y)) by (unfold m; field; lra). ring.
Qed.
Lemma misfit_const : forall y c, misfit (repeat c (length y)) y = rsum (map (fun v => (v - c) ^ 2) y).
Proof. intros y c. induction y as [|a y IH]; [reflexivity|]. cbn [length repeat misfit map]. rewrite IH. unfold rsum. cbn [fold_right]. ring. Qed.
Lemma spread_zero : forall y m, rsum (map (fun v => (v - m) ^ 2) y) = 0 -> y = repeat m (length y).
Proof. intros y m H. rewrite <- misfit_const in H. symmetry. apply misfit_zero; [apply repeat_length|exact H]. Qed.

(** A fold counts for the averages iff its test part has at least two points and its parameters predict them better than every constant
    does, or exactly. *)
Theorem C88_counts : forall A (func : model A) X y theta, vectorised func -> length X = length y ->
  (positive (score func X y theta) = true <->
   (2 <= length y)%nat /\ ((forall c, misfit (func X (map value theta)) y < misfit (repeat c (length y)) y) \/ func X (map value theta) = y)).
Proof.
  intros A func X y theta V LX. unfold score, r2_score. set (p := func X (map value theta)). assert (LP : length p = length y) by (unfold p; rewrite V; exact LX).
  destruct (Nat.ltb_spec (length y) 2) as [S2|S2]; [split; [discriminate|intros [C _]; lia]|].
  assert (N : y <> []) by (intro E; rewrite E in S2; cbn in S2; lia). rewrite misfit_eq, (misfit_sym y p). set (m := rsum y / INR (length y)). set (D := rsum (map (fun v => (v - m) ^ 2) y)).
  assert (Best : forall c, misfit (repeat c (length y)) y = D + INR (length y) * (m - c) ^ 2) by (intro c; rewrite misfit_const; apply best_constant; exact N).
  assert (L : 0 < INR (length y)) by (apply lt_0_INR; lia).
  assert (Dn : 0 <= D) by (unfold D; rewrite <- misfit_const; apply misfit_nonneg). pose proof (misfit_nonneg p y) as Pn.
  assert (All : misfit p y < D -> forall c, misfit p y < misfit (repeat c (length y)) y). { intros H c. rewrite Best. pose proof (Rmult_le_pos _ _ (Rlt_le _ _ L) (pow2_ge_0 (m - c))). lra. }
  assert (One : (forall c, misfit p y < misfit (repeat c (length y)) y) -> misfit p y < D). { intro H. specialize (H m). rewrite Best in H. replace ((m - m) ^ 2) with 0 in H by ring. lra. }
  destruct (Req_EM_T D 0) as [D0|D0].
  - destruct (Req_EM_T (misfit p y) 0) as [P0|P0]; unfold positive.
    + destruct (Rlt_dec 0 1) as [_|C]; [|exfalso; apply C; lra]. split; [intros _; split; [exact S2|]; right; apply misfit_zero; assumption|reflexivity].
    + destruct (Rlt_dec 0 0) as [C|_]; [exfalso; lra|]. split; [discriminate|]. intros [_ [H|H]]; [apply One in H; exfalso; lra|]. exfalso. apply P0. rewrite H. apply misfit_same.
  - assert (Dp : 0 < D) by lra. unfold positive. destruct (Rlt_dec 0 (1 - misfit p y / D)) as [Q|Q].
    + split; [intros _|reflexivity]. split; [exact S2|]. left. apply All. apply Rmult_lt_reg_r with (/ D); [apply Rinv_0_lt_compat; exact Dp|]. rewrite Rinv_r by exact D0. unfold Rdiv in Q. lra.
    + split; [discriminate|]. intros [_ H]. exfalso. apply Q. assert (H' : misfit p y < D) by (destruct H as [H|H]; [apply One; exact H|rewrite H, misfit_same; exact Dp]).
      assert (misfit p y / D < 1); [|lra]. apply Rmult_lt_reg_r with D; [exact Dp|]. unfold Rdiv. rewrite Rmult_assoc, Rinv_l, Rmult_1_r by exact D0. lra.
Qed.
Print Assumptions C88_counts.
Example C88_counts_sat : let func : model R := fun X theta => map (fun x => nth 0 theta 0 * x) X in
  vectorised func /\ positive (score func [1; 2; 3] [2; 4; 7] [Some 2]) = true /\ positive (score func [1; 2; 3] [2; 4; 7] [Some 9]) = false.
Proof.
  cbv zeta. assert (V : vectorised (fun (X : list R) (theta : list R) => map (fun x => nth 0 theta 0 * x) X)) by (intros X theta; apply map_length). split; [exact V|]. split.
  - apply (C88_counts R _ [1; 2; 3] [2; 4; 7] [Some 2] V eq_refl). split; [cbn; lia|]. left. intro c. cbn [map value nth length repeat misfit]. pose proof (pow2_ge_0 (3 * c - 13)) as Q. replace ((3 * c - 13) ^ 2) with (9 * (c * c) - 78 * c + 169) in Q by ring. lra.
  - apply not_true_iff_false. rewrite (C88_counts R _ [1; 2; 3] [2; 4; 7] [Some 9] V eq_refl). intros [_ [H|H]]; [specialize (H 4); cbn [map value nth length repeat misfit] in H; lra|cbn in H; injection H; lra].
Qed.

(** If all folds that count agree on the parameters, these are the fitted ones and the spreads vanish. *)
Theorem C88_agree : forall keys fs theta, length theta = length keys -> counted fs <> [] -> (forall f, In f (counted fs) -> fst f = map Some theta) ->
  averages keys fs = map Some theta /\ spreads keys fs = map (fun _ => Some 0) theta.
Proof.
  intros keys fs theta L N H.
  assert (C : forall i v, nth_error theta i = Some v -> map (fun f : fold => value (nth i (fst f) None)) (counted fs) = repeat v (length (counted fs))).
  { intros i v E. clear N. induction (counted fs) as [|f l IH]; [reflexivity|]. cbn [map length repeat]. rewrite IH by (intros g I; apply H; right; exact I). f_equal. replace (nth i (fst f) None) with (Some v : num); [reflexivity|]. rewrite (H f (or_introl eq_refl)). symmetry. apply nth_error_nth, map_nth_error. exact E. }
  assert (K : (0 < length (counted fs))%nat) by (destruct (counted fs); [contradiction|cbn; lia]). set (k := length (counted fs)) in *.
  assert (T : forall v, total (repeat v k) = INR k * v). { intro v. clear. induction k as [|k IH]; [cbn; ring|]. rewrite S_INR. unfold total in *. cbn [repeat fold_right]. rewrite IH. ring. }
  assert (KP : 0 < INR k) by (apply lt_0_INR; exact K).
  assert (M : forall v, mean (repeat v k) = Some v). { intro v. unfold mean. assert (Z : repeat v k <> []) by (destruct k; [lia|discriminate]). destruct (repeat v k) as [|a r] eqn:E; [contradiction|]. rewrite <- E, T, repeat_length. f_equal. field. lra. }
  assert (S : forall v, std (repeat v k) = Some 0). { intro v. unfold std. rewrite M. f_equal. replace (map (fun x => (x - v) ^ 2) (repeat v k)) with (repeat 0 k). { rewrite T, repeat_length. replace (INR k * 0 / INR k) with 0 by (field; lra). apply sqrt_0. } clear. induction k as [|k IH]; [reflexivity|]. cbn [repeat map]. rewrite <- IH. f_equal. ring. }
  split.
  - unfold averages. apply nth_ext with None None; [now rewrite !map_length, seq_length|]. intros i I. rewrite map_length, seq_length in I. destruct (nth_error theta i) as [v|] eqn:E; [|apply nth_error_None in E; lia].
    etransitivity; [|symmetry; apply nth_error_nth, map_nth_error; exact E]. set (g := fun i0 => mean (map (fun f : fold => value (nth i0 (fst f) None)) (counted fs))). rewrite (nth_indep _ None (g 0%nat)) by (rewrite map_length, seq_length; exact I). rewrite (map_nth g), seq_nth by exact I. unfold g. cbn [plus]. rewrite (C i v E). apply M.
  - unfold spreads. apply nth_ext with None None; [now rewrite !map_length, seq_length|]. intros i I. rewrite map_length, seq_length in I. destruct (nth_error theta i) as [v|] eqn:E; [|apply nth_error_None in E; lia].
    etransitivity; [|symmetry; apply nth_error_nth, map_nth_error; exact E]. set (g := fun i0 => std (map (fun f : fold => value (nth i0 (fst f) None)) (counted fs))). rewrite (nth_indep _ None (g 0%nat)) by (rewrite map_length, seq_length; exact I). rewrite (map_nth g), seq_nth by exact I. unfold g. cbn [plus]. rewrite (C i v E). apply S.
Qed.
Print Assumptions C88_agree.
Example C88_agree_sat : let fs : list fold := [([Some 2; Some 3], fun _ => Some (1/2)); ([Some 7; Some 8], fun _ => Some (-1)); ([Some 2; Some 3], fun _ => Some 1)] in
  length (counted fs) = 2%nat /\ forall f, In f (counted fs) -> fst f = map Some [2; 3].
Proof.
  cbv zeta. assert (E : forall a b c : fold, positive (snd a (fst a)) = true -> positive (snd b (fst b)) = false -> positive (snd c (fst c)) = true -> finite (fst a) = true -> finite (fst b) = true -> finite (fst c) = true -> counted [a; b; c] = [a; c]).
  { intros a b c A B C A' B' C'. unfold counted. cbn [filter]. rewrite A, B, C, A', B', C'. reflexivity. }
  rewrite E; try reflexivity; try (cbn; destruct (Rlt_dec _ _); [reflexivity|lra]); try (cbn; destruct (Rlt_dec _ _); [lra|reflexivity]).
  split; [reflexivity|]. intros f [<-|[<-|[]]]; reflexivity.
Qed.

(** With at most ten points the shuffle leaves one point for testing, its score is undefined, no fold counts and every parameter of a
    cross-validated fit is undefined, whatever the data, the function and the optimizer. *)
Theorem C88_few_points_refuted : forall A (func : model A) keys initial minimize before (X : list A) y n splits,
  NoDup keys -> length initial = length keys -> (forall g x, length (minimize g x) = length x) -> Forall (sized keys) before ->
  (length y <= 10)%nat -> (forall s, In s (splits n) -> length (snd s) = test_size (length y)) ->
  theta_of (fitted (fold_left fit (before ++ [call_of minimize func initial X y (Some n) splits]) (new keys None))) = map (fun _ => None) keys.
Proof.
  intros A func keys initial minimize before X y n splits ND L M B Few Sp.
  destruct (C88_prediction keys None before (call_of minimize func initial X y (Some n) splits) ND B (sized_call keys minimize func initial X y (Some n) splits L M)) as (T & _). rewrite T. unfold outcome.
  assert (E : effective_cv None (before ++ [call_of minimize func initial X y (Some n) splits]) = Some n) by (unfold effective_cv; rewrite fold_left_app; reflexivity). rewrite E. cbn [call_of folds].
  assert (TS : (test_size (length y) <= 1)%nat) by (unfold test_size; assert (length y + 9 < 20)%nat by lia; assert ((length y + 9) / 10 < 2)%nat by (apply Nat.div_lt_upper_bound; lia); lia).
  assert (C : counted (map (fold_of minimize func initial X y) (splits n)) = []).
  { clear - Sp TS. induction (splits n) as [|s l IH]; [reflexivity|]. cbn [map]. unfold counted. cbn [filter]. fold (counted (map (fold_of minimize func initial X y) l)). rewrite IH by (intros s' I; apply Sp; right; exact I).
    replace (positive (snd (fold_of minimize func initial X y s) (fst (fold_of minimize func initial X y s)))) with false; [now rewrite andb_false_r|]. unfold fold_of, score, r2_score. cbn [snd].
    assert (PL : (length (pick y (snd s)) <= 1)%nat). { rewrite <- (Sp s (or_introl eq_refl)) in TS. destruct s as [a [|i [|j b]]]; cbn in TS; try lia; cbn; [lia|]. destruct (nth_error y i); cbn; lia. }
    destruct (Nat.ltb_spec (length (pick y (snd s))) 2); [reflexivity|lia]. }
  unfold averages. rewrite C. cbn [map mean]. clear. assert (G : forall a, map (fun _ : nat => @None R) (seq a (length keys)) = map (fun _ => None) keys). { induction keys as [|k keys IH]; intro a; [reflexivity|]. cbn. rewrite IH. reflexivity. } apply G.
Qed.
Print Assumptions C88_few_points_refuted.
Example C88_few_points_sat : exists splits : nat -> list (list nat * list nat), length (splits 2%nat) = 2%nat /\ forall s, In s (splits 2%nat) -> length (snd s) = test_size 10 /\ Permutation (fst s ++ snd s) (seq 0 10).
Proof.
  exists (fun _ => [(seq 0 9, [9%nat]); (seq 1 9, [0%nat])]). split; [reflexivity|]. intros s [<-|[<-|[]]]; (split; [reflexivity|]); [apply Permutation_refl|]. apply Permutation_sym. exact (Permutation_cons_append (seq 1 9) 0%nat).
Qed.

(** No leakage: the parameters of a fold depend on the data only through its training part, its score only through its test part. *)
Lemma pick_ext : forall {A} (l l' : list A) is, (forall i, In i is -> nth_error l i = nth_error l' i) -> pick l is = pick l' is.
Proof. intros A l l' is. induction is as [|i is IH]; intro H; [reflexivity|]. unfold pick. cbn [flat_map]. rewrite (H i (or_introl eq_refl)). f_equal. apply IH. intros j J. apply H. right. exact J. Qed.
Theorem C88_held_out : forall A minimize (func : model A) initial X X' y y' train test,
  ((forall i, In i train -> nth_error X i = nth_error X' i /\ nth_error y i = nth_error y' i) ->
   fst (fold_of minimize func initial X y (train, test)) = fst (fold_of minimize func initial X' y' (train, test))) /\
  ((forall i, In i test -> nth_error X i = nth_error X' i /\ nth_error y i = nth_error y' i) ->
   forall theta, snd (fold_of minimize func initial X y (train, test)) theta = snd (fold_of minimize func initial X' y' (train, test)) theta).
Proof.
  intros A minimize func initial X X' y y' train test. split; intro H; [|intro theta]; unfold fold_of; cbn [fst snd].
  - rewrite (pick_ext X X' train), (pick_ext y y' train); [reflexivity| |]; intros i I; apply (H i I).
  - rewrite (pick_ext X X' test), (pick_ext y y' test); [reflexivity| |]; intros i I; apply (H i I).
Qed.
Print Assumptions C88_held_out.
Example C88_held_out_sat : exists y y' : list R, y <> y' /\ forall i, In i [0; 1]%nat -> nth_error y i = nth_error y' i.
Proof. exists [1; 2; 3], [1; 2; 4]. split; [intro E; injection E; lra|]. intros i [<-|[<-|[]]]; reflexivity. Qed.
