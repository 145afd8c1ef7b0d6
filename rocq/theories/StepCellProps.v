(** C107: the interpolation method 'step_cell'. *)
From Coq Require Import List Arith Reals Lra Lia Bool Permutation.
From Verif Require Import StepCellModel.
Import ListNotations.
Local Open Scope R_scope.

(** * Ascending lists *)
Fixpoint asc (l : list R) : Prop := match l with a :: r => match r with b :: _ => a <= b | [] => True end /\ asc r | [] => True end.
Lemma asc_all a r : asc (a :: r) -> forall x, In x (a :: r) -> a <= x.
Proof.
  revert a. induction r as [|b r IH]; intros a H x I.
  - destruct I as [<-|[]]. lra.
  - destruct H as [AB S']. destruct I as [<-|I]; [lra|]. specialize (IH b S' x I). lra.
Qed.
Lemma insert_hd x l : asc l -> asc (insert x l).
Proof.
  induction l as [|y r IH]; intro S'; [cbn; tauto|]. cbn [insert]. destruct (Rle_dec x y) as [H|H]; [split; assumption|].
  destruct S' as [B T]. specialize (IH T). destruct r as [|z r]; [cbn; split; [lra|tauto]|].
  cbn [insert] in *. destruct (Rle_dec x z); split; try assumption; lra.
Qed.
Lemma sort_asc l : asc (sort l).
Proof. induction l; [exact I|]. now apply insert_hd. Qed.
Lemma insert_perm x l : Permutation (x :: l) (insert x l).
Proof. induction l as [|y r IH]; [reflexivity|]. cbn [insert]. destruct (Rle_dec x y); [reflexivity|]. rewrite perm_swap. now apply perm_skip. Qed.
Lemma sort_perm l : Permutation l (sort l).
Proof. induction l as [|x l IH]; [reflexivity|]. cbn [sort fold_right]. rewrite <- insert_perm. now apply perm_skip. Qed.
Lemma sort_in l x : In x (sort l) <-> In x l.
Proof. split; apply Permutation_in; [symmetry|]; apply sort_perm. Qed.
Lemma last_cons_cons {A} (a b : A) r d : last (a :: b :: r) d = last (b :: r) d.
Proof. reflexivity. Qed.
Lemma asc_last l d : asc l -> forall x, In x l -> x <= last l d.
Proof.
  induction l as [|a r IH]; intros S' x I; [destruct I|]. destruct r as [|b r].
  - destruct I as [<-|[]]. cbn. lra.
  - rewrite last_cons_cons. destruct S' as [AB S']. destruct I as [<-|I]; [|now apply IH].
    apply Rle_trans with b; [exact AB|]. apply IH; [exact S'|left; reflexivity].
Qed.
Lemma last_in {A} (a : A) r d : In (last (a :: r) d) (a :: r).
Proof. revert a. induction r as [|b r IH]; intro a; [left; reflexivity|]. rewrite last_cons_cons. right. apply IH. Qed.

(** * The interpolation is monotone *)
Lemma np_interp_first nodes : forall a fa x, asc (map fst ((a, fa) :: nodes)) -> asc (map snd ((a, fa) :: nodes)) -> a <= x -> fa <= np_interp ((a, fa) :: nodes) x.
Proof.
  induction nodes as [|[b fb] r IH]; intros a fa x SX SF AX; [cbn; lra|].
  destruct SX as [AB SX]. destruct SF as [FAB SF]. cbn [map fst snd] in *.
  change (np_interp ((a, fa) :: (b, fb) :: r) x) with (if Rle_dec b x then np_interp ((b, fb) :: r) x else if Req_EM_T a x then fa else (fb - fa) / (b - a) * (x - a) + fa).
  destruct (Rle_dec b x) as [H|H]; [apply Rle_trans with fb; [exact FAB|]; now apply IH|].
  destruct (Req_EM_T a x); [lra|].
  assert (0 <= (fb - fa) / (b - a)) by (apply Rmult_le_pos; [lra|left; apply Rinv_0_lt_compat; lra]).
  assert (0 <= (fb - fa) / (b - a) * (x - a)) by (apply Rmult_le_pos; lra). lra.
Qed.
Lemma segment_le a b fa fb x : a <= x -> x < b -> fa <= fb -> (fb - fa) / (b - a) * (x - a) + fa <= fb.
Proof.
  intros AX XB F. assert (D : 0 < b - a) by lra.
  replace fb with ((fb - fa) / (b - a) * (b - a) + fa) at 2 by (field; lra).
  apply Rplus_le_compat_r, Rmult_le_compat_l; [|lra]. apply Rmult_le_pos; [lra|left; now apply Rinv_0_lt_compat].
Qed.
Lemma np_interp_mono nodes : forall a fa x y, asc (map fst ((a, fa) :: nodes)) -> asc (map snd ((a, fa) :: nodes)) -> a <= x -> x <= y ->
  np_interp ((a, fa) :: nodes) x <= np_interp ((a, fa) :: nodes) y.
Proof.
  induction nodes as [|[b fb] r IH]; intros a fa x y SX SF AX XY; [cbn; lra|].
  pose proof SX as [AB SX']. pose proof SF as [FAB SF']. cbn [map fst snd] in AB, FAB.
  assert (U : forall t, np_interp ((a, fa) :: (b, fb) :: r) t = if Rle_dec b t then np_interp ((b, fb) :: r) t else if Req_EM_T a t then fa else (fb - fa) / (b - a) * (t - a) + fa) by reflexivity.
  rewrite !U. destruct (Rle_dec b x) as [H|H]; destruct (Rle_dec b y) as [G|G]; try lra.
  - now apply IH.
  - apply Rle_trans with fb; [|now apply np_interp_first].
    destruct (Req_EM_T a x); [exact FAB|]. apply segment_le; lra.
  - assert (P : 0 <= (fb - fa) / (b - a)) by (apply Rmult_le_pos; [lra|left; apply Rinv_0_lt_compat; lra]).
    destruct (Req_EM_T a x) as [E|E]; destruct (Req_EM_T a y) as [F|F]; try lra.
    + assert (0 <= (fb - fa) / (b - a) * (y - a)) by (apply Rmult_le_pos; lra). lra.
    + apply Rplus_le_compat_r, Rmult_le_compat_l; lra.
Qed.

Lemma steps_asc a c : 0 <= c -> forall n s, asc (map (fun i => a + INR i * c) (seq s n)).
Proof.
  intros P n. induction n as [|n IH]; intro s; [exact I|]. cbn [seq map]. split; [|apply IH].
  destruct n as [|n]; [exact I|]. cbn [seq map]. apply Rplus_le_compat_l, Rmult_le_compat_r; [exact P|]. apply le_INR. lia.
Qed.
Lemma linspace_asc a b n : a <= b -> asc (linspace a b n).
Proof.
  intro H. unfold linspace. apply steps_asc.
  destruct (n - 1)%nat eqn:E; [cbn [INR]; unfold Rdiv; rewrite Rinv_0; lra|]. apply Rmult_le_pos; [lra|]. left. apply Rinv_0_lt_compat, lt_0_INR. lia.
Qed.
Lemma map_fst_combine (l k : list R) : length l = length k -> map fst (combine l k) = l.
Proof. revert k. induction l as [|x l IH]; intros [|y k] H; try discriminate; [reflexivity|]. cbn. f_equal. apply IH. now injection H. Qed.
Lemma map_snd_combine (l k : list R) : length l = length k -> map snd (combine l k) = k.
Proof. revert k. induction l as [|x l IH]; intros [|y k] H; try discriminate; [reflexivity|]. cbn. f_equal. apply IH. now injection H. Qed.
Lemma linspace_length a b n : length (linspace a b n) = n.
Proof. unfold linspace. now rewrite map_length, seq_length. Qed.
Lemma linspace_hd a b n : linspace a b (S n) = a :: tl (linspace a b (S n)).
Proof. unfold linspace. cbn [seq map tl INR]. f_equal. ring. Qed.

(** Inside the range the interpolant never decreases and is at least the first value; outside it is 0. *)
Section Interp.
Variables (v0 : R) (r : list R).
Let v := v0 :: r.
Let u := linspace v0 (last v 0) (length v).
Hypothesis A : asc v.
Lemma interp_in x : v0 <= x <= last v 0 -> interp_fill v u x = np_interp (combine v u) x.
Proof. intros [L H]. unfold interp_fill. cbn [hd v]. destruct (Rlt_dec x v0); [lra|]. fold v. destruct (Rlt_dec (last v 0) x); [lra|reflexivity]. Qed.
Lemma interp_out x : x < v0 \/ last v 0 < x -> interp_fill v u x = 0.
Proof. intro H. unfold interp_fill. cbn [hd v]. destruct (Rlt_dec x v0); [reflexivity|]. fold v. destruct (Rlt_dec (last v 0) x); [reflexivity|lra]. Qed.
Lemma nodes_form : exists q, combine v u = (v0, v0) :: q /\ asc (map fst ((v0, v0) :: q)) /\ asc (map snd ((v0, v0) :: q)).
Proof.
  assert (LU : length v = length u) by (unfold u; now rewrite linspace_length).
  assert (UF : u = v0 :: tl u) by (unfold u, v; cbn [length]; apply linspace_hd).
  exists (combine r (tl u)). assert (C : combine v u = (v0, v0) :: combine r (tl u)) by (rewrite UF; reflexivity).
  split; [exact C|]. rewrite <- C. rewrite map_fst_combine, map_snd_combine by exact LU. split; [exact A|].
  apply linspace_asc. apply (asc_last v 0 A). left. reflexivity.
Qed.
Lemma interp_mono x y : v0 <= x -> x <= y -> y <= last v 0 -> interp_fill v u x <= interp_fill v u y.
Proof.
  intros L XY H. rewrite !interp_in by lra. destruct nodes_form as (q & C & SX & SF). rewrite C. now apply np_interp_mono.
Qed.
Lemma interp_first x : v0 <= x <= last v 0 -> v0 <= interp_fill v u x.
Proof. intros H. rewrite interp_in by exact H. destruct nodes_form as (q & C & SX & SF). rewrite C. apply np_interp_first; [assumption..|lra]. Qed.
End Interp.

(** * Extremes *)
Lemma fold_min l : forall x, In (fold_left Rmin l x) (x :: l) /\ forall y, In y (x :: l) -> fold_left Rmin l x <= y.
Proof.
  induction l as [|y l IH]; intro x; [split; [left; reflexivity|]; intros z [<-|[]]; apply Rle_refl|].
  cbn [fold_left]. destruct (IH (Rmin x y)) as [I U]. split.
  - destruct I as [E|I]; [|right; right; exact I]. rewrite <- E. unfold Rmin. destruct (Rle_dec x y); [left; reflexivity|right; left; reflexivity].
  - intros z [<-|[<-|H]].
    + apply Rle_trans with (Rmin x y); [apply U; left; reflexivity|apply Rmin_l].
    + apply Rle_trans with (Rmin x y); [apply U; left; reflexivity|apply Rmin_r].
    + apply U. right. exact H.
Qed.
Lemma fold_max l : forall x, In (fold_left Rmax l x) (x :: l) /\ forall y, In y (x :: l) -> y <= fold_left Rmax l x.
Proof.
  induction l as [|y l IH]; intro x; [split; [left; reflexivity|]; intros z [<-|[]]; apply Rle_refl|].
  cbn [fold_left]. destruct (IH (Rmax x y)) as [I U]. split.
  - destruct I as [E|I]; [|right; right; exact I]. rewrite <- E. unfold Rmax. destruct (Rle_dec x y); [right; left; reflexivity|left; reflexivity].
  - intros z [<-|[<-|H]].
    + apply Rle_trans with (Rmax x y); [apply Rmax_l|apply U; left; reflexivity].
    + apply Rle_trans with (Rmax x y); [apply Rmax_r|apply U; left; reflexivity].
    + apply U. right. exact H.
Qed.
Lemma minimum_spec l : l <> [] -> In (minimum l) l /\ forall y, In y l -> minimum l <= y.
Proof. destruct l as [|x l]; [congruence|]. intros _. apply fold_min. Qed.
Lemma maximum_spec l : l <> [] -> In (maximum l) l /\ forall y, In y l -> y <= maximum l.
Proof. destruct l as [|x l]; [congruence|]. intros _. apply fold_max. Qed.
Lemma nth_map_R {A} (f : R -> A) l i d : (i < length l)%nat -> nth i (map f l) d = f (nth i l 0).
Proof. intro H. rewrite (nth_indep _ d (f 0)) by now rewrite map_length. apply map_nth. Qed.

(** * The changed cells *)
(** Cell [i] is changed: it differs by more than 0.001 between the snapshots. *)
Definition changed (low high : list R) (i : nat) : Prop := (i < length high)%nat /\ 1 / 1000 < Rabs (nth i high 0 - nth i low 0).
Definition mask (low high : list R) : list bool := map (fun p => if Rlt_dec (1 / 1000) (Rabs (snd p - fst p)) then true else false) (combine low high).
Lemma selected_in sm : forall low high, length low = length high -> length sm = length high -> forall x,
  In x (selected sm (mask low high)) <-> exists i, changed low high i /\ nth i sm 0 = x.
Proof.
  unfold selected, changed. induction sm as [|s sm IH]; intros [|a low] [|b high] HL HS x; try discriminate; cbn [length] in *.
  - split; [intros []|intros (i & [H _] & _); lia].
  - cbn [mask combine map filter snd fst]. fold (mask low high). specialize (IH low high ltac:(lia) ltac:(lia) x).
    assert (Q : In x (map fst (filter snd (combine sm (mask low high)))) <-> exists i, ((S i < S (length high))%nat /\ 1 / 1000 < Rabs (nth i high 0 - nth i low 0)) /\ nth i sm 0 = x).
    { rewrite IH. split; intros (i & [L C] & E); exists i; (split; [split; [lia|exact C]|exact E]). }
    destruct (Rlt_dec (1 / 1000) (Rabs (b - a))) as [H|H]; cbn [snd map fst In].
    + rewrite Q. split.
      * intros [<-|(i & C & E)]; [exists 0%nat; cbn [nth]; split; [split; [lia|exact H]|reflexivity]|exists (S i); split; assumption].
      * intros ([|i] & C & E); [left; exact E|right; exists i; split; assumption].
    + rewrite Q. split.
      * intros (i & C & E); exists (S i); split; assumption.
      * intros ([|i] & C & E); [exfalso; cbn [nth] in C; tauto|exists i; split; assumption].
Qed.
Lemma jitter_nil draw l : jitter draw l = [] <-> l = [].
Proof. unfold jitter. destruct l; cbn; split; congruence. Qed.
Lemma jitter_in draw l x : In x (jitter draw l) -> exists i y, In y l /\ x = y + draw i * / 10 ^ 9.
Proof. unfold jitter. intro H. apply in_map_iff in H. destruct H as ([i y] & <- & I). apply in_combine_r in I. exists i, y. now split. Qed.
Lemma jitter_of draw l y : In y l -> exists i, In (y + draw i * / 10 ^ 9) (jitter draw l).
Proof.
  intro H. destruct (In_nth l y 0 H) as (i & L & E). exists i. unfold jitter. apply in_map_iff. exists (i, y). split; [reflexivity|].
  rewrite <- E. replace i with (nth i (seq 0 (length l)) 0%nat) at 1 by (rewrite seq_nth; lia).
  rewrite <- combine_nth by apply seq_length. apply nth_In. rewrite combine_length, seq_length. lia.
Qed.
Lemma sort_nil l : sort l = [] <-> l = [].
Proof. split; [|now intros ->]. intro H. apply Permutation_nil. rewrite <- H. symmetry. apply sort_perm. Qed.

(** What the method works with: [tr] are the redshifts at which the cells step. *)
Section Steps.
Variables (smooth : list R -> list R) (draw : nat -> R) (low high : list R) (zh zl : R).
Hypothesis HL : length low = length high.
Hypothesis HS : length (smooth high) = length high.
Definition values : list R := sort (jitter draw (selected (smooth high) (mask low high))).
Definition raw (x : R) : R := interp_fill values (linspace (hd 0 values) (last values 0) (length values)) x.
Definition outs : list R := map raw (smooth high).
Definition span : R := maximum (map (fun o => o - minimum outs) outs).
Definition step_at (i : nat) : option R :=
  if Req_EM_T span 0 then None else Some (zl + (raw (nth i (smooth high) 0) - minimum outs) / span * (zh - zl)).

Lemma some_value : values <> [] <-> exists i, changed low high i.
Proof.
  unfold values. rewrite sort_nil, jitter_nil. split.
  - destruct (selected (smooth high) (mask low high)) as [|x l] eqn:E; [congruence|]. intros _.
    destruct (proj1 (selected_in (smooth high) low high HL HS x)) as (i & C & _); [rewrite E; left; reflexivity|]. now exists i.
  - intros (i & C) E. assert (I : In (nth i (smooth high) 0) (selected (smooth high) (mask low high))) by (apply selected_in; try assumption; now exists i).
    rewrite E in I. destruct I.
Qed.
Lemma slice_form z : values <> [] -> exists out, step_weighted_slice smooth draw low high zh zl z = Some out /\ length out = length high /\
  forall i, (i < length high)%nat -> nth i out 0 = match step_at i with Some t => if Rlt_dec z t then nth i low 0 else nth i high 0 | None => nth i high 0 end.
Proof.
  intro N. unfold step_weighted_slice, step_transitions. fold (mask low high). fold values.
  assert (V : values = hd 0 values :: tl values) by (destruct values; [congruence|reflexivity]).
  destruct values as [|v0 r] eqn:EV; [congruence|]. clear V N.
  assert (EO : map (interp_fill (v0 :: r) (linspace v0 (last (v0 :: r) 0) (length (v0 :: r)))) (smooth high) = outs).
  { unfold outs, raw. rewrite EV. reflexivity. }
  rewrite EO. fold span. eexists. split; [reflexivity|].
  assert (LO : length outs = length high) by (unfold outs; rewrite map_length; exact HS).
  set (ts := map (fun o => if Req_EM_T span 0 then None else Some (o / span)) (map (fun o => o - minimum outs) outs)).
  assert (LT : length ts = length high) by (unfold ts; now rewrite !map_length).
  split; [rewrite map_length, !combine_length; lia|].
  intros i Hi.
  set (f := fun p : option R * (R * R) => let '(t, (lo, hi)) := p in match t with Some t0 => if Rlt_dec z (zl + t0 * (zh - zl)) then lo else hi | None => hi end).
  rewrite (nth_indep _ 0 (f (None, (0, 0)))) by (rewrite map_length, !combine_length; lia). rewrite map_nth.
  rewrite combine_nth by (rewrite combine_length; lia). rewrite combine_nth by exact HL.
  assert (T : nth i ts None = if Req_EM_T span 0 then None else Some ((raw (nth i (smooth high) 0) - minimum outs) / span)).
  { unfold ts. rewrite map_map, nth_map_R by lia. unfold outs at 1. rewrite nth_map_R by lia. reflexivity. }
  rewrite T. unfold f, step_at. destruct (Req_EM_T span 0); reflexivity.
Qed.

Lemma outs_nonempty : values <> [] -> outs <> [].
Proof.
  intros N E. apply some_value in N. destruct N as (i & [Hi _]). unfold outs in E. apply map_eq_nil in E. rewrite E in HS. cbn in HS. lia.
Qed.
Lemma span_spec : outs <> [] -> 0 <= span /\ (exists i, (i < length high)%nat /\ raw (nth i (smooth high) 0) = minimum outs) /\
  (exists i, (i < length high)%nat /\ raw (nth i (smooth high) 0) - minimum outs = span) /\
  forall i, (i < length high)%nat -> 0 <= raw (nth i (smooth high) 0) - minimum outs <= span.
Proof.
  intro N. destruct (minimum_spec outs N) as [MI ML].
  assert (N2 : map (fun o => o - minimum outs) outs <> []) by (destruct outs; [congruence|discriminate]).
  destruct (maximum_spec _ N2) as [XI XL]. fold span in XI, XL.
  assert (B : forall i, (i < length high)%nat -> In (raw (nth i (smooth high) 0)) outs).
  { intros i Hi. unfold outs. apply in_map. apply nth_In. lia. }
  assert (G : forall o, In o outs -> exists i, (i < length high)%nat /\ raw (nth i (smooth high) 0) = o).
  { intros o I. unfold outs in I. apply in_map_iff in I. destruct I as (x & E & I). destruct (In_nth _ _ 0 I) as (i & L & X). exists i. split; [lia|]. now rewrite X. }
  assert (Q : forall i, (i < length high)%nat -> 0 <= raw (nth i (smooth high) 0) - minimum outs <= span).
  { intros i Hi. split; [pose proof (ML _ (B i Hi)); lra|]. apply XL. apply in_map_iff. exists (raw (nth i (smooth high) 0)). split; [reflexivity|now apply B]. }
  split; [|split; [now apply G|split; [|exact Q]]].
  - destruct (G _ MI) as (i & Hi & _). specialize (Q i Hi). lra.
  - apply in_map_iff in XI. destruct XI as (o & E & I). destruct (G o I) as (i & Hi & X). exists i. split; [exact Hi|]. now rewrite X.
Qed.
Lemma values_asc : asc values.
Proof. apply sort_asc. Qed.
End Steps.

(** C107: the call raises exactly if no cell differs by more than 0.001 between the two snapshots. *)
Theorem C107_raises : forall smooth draw low high zh zl z, length low = length high -> length (smooth high) = length high ->
  (step_weighted_slice smooth draw low high zh zl z = None <->
   forall i, (i < length high)%nat -> Rabs (nth i high 0 - nth i low 0) <= 1 / 1000).
Proof.
  intros smooth draw low high zh zl z HL HS. split.
  - intros E i Hi. destruct (Rle_lt_dec (Rabs (nth i high 0 - nth i low 0)) (1 / 1000)) as [|C]; [assumption|]. exfalso.
    assert (N : values smooth draw low high <> []) by (apply some_value; try assumption; exists i; now split).
    destruct (slice_form smooth draw low high zh zl HL HS z N) as (out & E' & _). congruence.
  - intro H. assert (N : ~ values smooth draw low high <> []).
    { intro N. apply some_value in N; try assumption. destruct N as (i & Hi & C). specialize (H i Hi). lra. }
    unfold step_weighted_slice, step_transitions. fold (mask low high). fold (values smooth draw low high).
    destruct (values smooth draw low high) as [|x l]; [reflexivity|]. exfalso. apply N. discriminate.
Qed.
Print Assumptions C107_raises.
Example C107_raises_sat : exists (smooth : list R -> list R) (low : list R) (high : list R), length low = length high /\ length (smooth high) = length high.
Proof. exists (fun l => l), [1; 2], [3; 4]. repeat split; first [lra | lia | reflexivity | discriminate | congruence | auto]. Qed.

(** C107: otherwise each cell takes the value of one of the two snapshots. There is one redshift for each cell, within the
    bracket and the same for every [z], at which it steps from the low to the high snapshot; or no cell takes the low
    snapshot at all. The steps, if there are any, reach from one end of the bracket to the other. *)
Theorem C107_steps : forall smooth draw low high zh zl, length low = length high -> length (smooth high) = length high -> zl <= zh ->
  (exists i, changed low high i) ->
  exists tr : nat -> option R,
    (forall i t, (i < length high)%nat -> tr i = Some t -> zl <= t <= zh) /\
    ((forall i, tr i = None) \/ (forall i, tr i <> None) /\ (exists i, (i < length high)%nat /\ tr i = Some zl) /\ (exists i, (i < length high)%nat /\ tr i = Some zh)) /\
    forall z, exists out, step_weighted_slice smooth draw low high zh zl z = Some out /\ length out = length high /\
      forall i, (i < length high)%nat -> nth i out 0 = match tr i with Some t => if Rlt_dec z t then nth i low 0 else nth i high 0 | None => nth i high 0 end.
Proof.
  intros smooth draw low high zh zl HL HS ZZ C.
  assert (N : values smooth draw low high <> []) by now apply some_value.
  pose proof (outs_nonempty smooth draw low high HL HS N) as NO.
  destruct (span_spec smooth draw low high HL HS NO) as (S0 & (i0 & L0 & E0) & (i1 & L1 & E1) & B).
  exists (step_at smooth draw low high zh zl). split; [|split].
  - intros i t Hi. unfold step_at. destruct (Req_EM_T (span smooth draw low high) 0) as [Z|Z]; [discriminate|]. intro H. injection H as <-.
    specialize (B i Hi). set (s := span smooth draw low high) in *. set (o := raw smooth draw low high (nth i (smooth high) 0) - minimum (outs smooth draw low high)) in *.
    assert (0 <= o / s) by (apply Rmult_le_pos; [lra|left; apply Rinv_0_lt_compat; lra]).
    assert (o / s <= 1) by (apply (Rmult_le_reg_r s); [lra|]; unfold Rdiv; rewrite Rmult_assoc, Rinv_l; lra).
    split; [assert (0 <= o / s * (zh - zl)) by (apply Rmult_le_pos; lra); lra|].
    assert (o / s * (zh - zl) <= 1 * (zh - zl)) by (apply Rmult_le_compat_r; lra). lra.
  - unfold step_at. destruct (Req_EM_T (span smooth draw low high) 0) as [Z|Z]; [left; reflexivity|]. right. split; [discriminate|]. split.
    + exists i0. split; [exact L0|]. f_equal. rewrite E0. unfold Rminus at 1. rewrite Rplus_opp_r. unfold Rdiv. ring.
    + exists i1. split; [exact L1|]. f_equal. rewrite E1. field. exact Z.
  - intro z. now apply slice_form.
Qed.
Print Assumptions C107_steps.

(** C107: at the high end of the bracket and above it the result is the high snapshot. At the low end it is not the low
    one: some cell keeps its high value for every redshift of the bracket. *)
Theorem C107_ends : forall smooth draw low high zh zl, length low = length high -> length (smooth high) = length high -> zl <= zh ->
  (exists i, changed low high i) ->
  (forall z, zh <= z -> step_weighted_slice smooth draw low high zh zl z = Some high) /\
  (exists i, (i < length high)%nat /\ forall z, zl <= z -> exists out, step_weighted_slice smooth draw low high zh zl z = Some out /\ nth i out 0 = nth i high 0).
Proof.
  intros smooth draw low high zh zl HL HS ZZ C.
  destruct (C107_steps smooth draw low high zh zl HL HS ZZ C) as (tr & B & D & F). split.
  - intros z Hz. destruct (F z) as (out & E & LO & V). rewrite E. f_equal. apply (nth_ext _ _ 0 0); [exact LO|]. intros i Hi. rewrite LO in Hi. rewrite (V i Hi).
    destruct (tr i) as [t|] eqn:T; [|reflexivity]. specialize (B i t Hi T). destruct (Rlt_dec z t); [lra|reflexivity].
  - destruct D as [D|(_ & (i & Hi & T) & _)].
    + destruct C as (i & Hi & _). exists i. split; [exact Hi|]. intros z Hz. destruct (F z) as (out & E & LO & V). exists out. split; [exact E|]. rewrite (V i Hi), D. reflexivity.
    + exists i. split; [exact Hi|]. intros z Hz. destruct (F z) as (out & E & LO & V). exists out. split; [exact E|]. rewrite (V i Hi), T. destruct (Rlt_dec z zl); [lra|reflexivity].
Qed.
Print Assumptions C107_ends.

(** C107: for the same random numbers, a cell that has the high value at one redshift has it at all higher ones. *)
Theorem C107_monotone : forall smooth draw low high zh zl z z' out out' i, length low = length high -> length (smooth high) = length high -> z <= z' ->
  step_weighted_slice smooth draw low high zh zl z = Some out -> step_weighted_slice smooth draw low high zh zl z' = Some out' ->
  (i < length high)%nat -> nth i out 0 <> nth i low 0 -> nth i out 0 = nth i high 0 /\ nth i out' 0 = nth i high 0.
Proof.
  intros smooth draw low high zh zl z z' out out' i HL HS ZZ E E' Hi ND.
  assert (N : values smooth draw low high <> []).
  { intro N. unfold step_weighted_slice, step_transitions in E. fold (mask low high) in E. fold (values smooth draw low high) in E. rewrite N in E. discriminate. }
  destruct (slice_form smooth draw low high zh zl HL HS z N) as (o & X & _ & V). destruct (slice_form smooth draw low high zh zl HL HS z' N) as (o' & X' & _ & V').
  rewrite E in X. rewrite E' in X'. injection X as <-. injection X' as <-. rewrite (V i Hi) in *. rewrite (V' i Hi).
  destruct (step_at smooth draw low high zh zl i) as [t|]; [|now split]. destruct (Rlt_dec z t) as [H|H]; [congruence|]. destruct (Rlt_dec z' t); [lra|]. now split.
Qed.
Print Assumptions C107_monotone.

Section Range.
Variables (smooth : list R -> list R) (draw : nat -> R) (low high : list R).
Hypothesis HL : length low = length high.
Hypothesis HS : length (smooth high) = length high.
Hypothesis HD : forall k, 0 <= draw k < 1.
Lemma draw_small k : 0 <= draw k * / 10 ^ 9 < / 10 ^ 9.
Proof.
  pose proof (HD k) as [H1 H2]. assert (P : 0 < / 10 ^ 9) by (apply Rinv_0_lt_compat, pow_lt; lra).
  split; [apply Rmult_le_pos; lra|]. rewrite <- (Rmult_1_l (/ 10 ^ 9)) at 2. now apply Rmult_lt_compat_r.
Qed.
Lemma values_low k : changed low high k -> hd 0 (values smooth draw low high) < nth k (smooth high) 0 + / 10 ^ 9.
Proof.
  intro C. assert (I : In (nth k (smooth high) 0) (selected (smooth high) (mask low high))) by (apply selected_in; try assumption; now exists k).
  destruct (jitter_of draw _ _ I) as (j & J). apply sort_in in J. fold (values smooth draw low high) in J.
  pose proof (values_asc smooth draw low high) as A. destruct (values smooth draw low high) as [|v0 r]; [destruct J|].
  pose proof (asc_all _ _ A _ J) as H. cbn [hd]. pose proof (draw_small j). lra.
Qed.
Lemma values_high k : changed low high k -> nth k (smooth high) 0 <= last (values smooth draw low high) 0.
Proof.
  intro C. assert (I : In (nth k (smooth high) 0) (selected (smooth high) (mask low high))) by (apply selected_in; try assumption; now exists k).
  destruct (jitter_of draw _ _ I) as (j & J). apply sort_in in J. fold (values smooth draw low high) in J.
  pose proof (asc_last _ 0 (values_asc smooth draw low high) _ J) as H. pose proof (draw_small j). lra.
Qed.
Lemma values_from x : In x (values smooth draw low high) -> exists k j, changed low high k /\ x = nth k (smooth high) 0 + draw j * / 10 ^ 9.
Proof.
  intro H. unfold values in H. apply (proj1 (sort_in _ _)) in H. apply jitter_in in H. destruct H as (j & y & I & ->). apply selected_in in I; try assumption. destruct I as (k & C & <-). now exists k, j.
Qed.
End Range.
Lemma raw_unfold smooth draw low high v0 r : values smooth draw low high = v0 :: r ->
  forall x, raw smooth draw low high x = interp_fill (v0 :: r) (linspace v0 (last (v0 :: r) 0) (length (v0 :: r))) x.
Proof. intros E x. unfold raw. rewrite E. reflexivity. Qed.

(** C107: changed cells step in the order of the smoothed high snapshot, a larger value at a higher redshift, unless they are
    within 1e-9 of the smallest one. *)
Theorem C107_order : forall smooth draw low high zh zl z out i j k, length low = length high -> length (smooth high) = length high ->
  (forall n, 0 <= draw n < 1) -> zl <= zh -> changed low high i -> changed low high j -> changed low high k ->
  nth k (smooth high) 0 + / 10 ^ 9 <= nth i (smooth high) 0 -> nth i (smooth high) 0 <= nth j (smooth high) 0 ->
  step_weighted_slice smooth draw low high zh zl z = Some out -> nth i out 0 <> nth i high 0 -> nth j out 0 = nth j low 0.
Proof.
  intros smooth draw low high zh zl z out i j k HL HS HD ZZ Ci Cj Ck KI IJ E ND.
  assert (N : values smooth draw low high <> []) by (apply some_value; try assumption; now exists i).
  destruct (slice_form smooth draw low high zh zl HL HS z N) as (o & X & _ & V). rewrite E in X. injection X as <-.
  pose proof (values_low smooth draw low high HL HS HD k Ck) as VL. pose proof (values_high smooth draw low high HL HS HD j Cj) as VH.
  pose proof (values_asc smooth draw low high) as A.
  assert (M : raw smooth draw low high (nth i (smooth high) 0) <= raw smooth draw low high (nth j (smooth high) 0)).
  { destruct (values smooth draw low high) as [|v0 r] eqn:EV; [congruence|]. cbn [hd] in VL. rewrite !(raw_unfold _ _ _ _ v0 r EV). apply interp_mono; [exact A|lra|exact IJ|exact VH]. }
  pose proof (span_spec smooth draw low high HL HS (outs_nonempty smooth draw low high HL HS N)) as (S0 & _).
  rewrite (V i (proj1 Ci)) in ND. rewrite (V j (proj1 Cj)). unfold step_at in *.
  destruct (Req_EM_T (span smooth draw low high) 0) as [Z|Z]; [congruence|].
  set (s := span smooth draw low high) in *. set (m := minimum (outs smooth draw low high)) in *.
  set (a := raw smooth draw low high (nth i (smooth high) 0)) in *. set (b := raw smooth draw low high (nth j (smooth high) 0)) in *.
  assert (T : zl + (a - m) / s * (zh - zl) <= zl + (b - m) / s * (zh - zl)).
  { apply Rplus_le_compat_l, Rmult_le_compat_r; [lra|]. unfold Rdiv. apply Rmult_le_compat_r; [left; apply Rinv_0_lt_compat; lra|lra]. }
  destruct (Rlt_dec z (zl + (a - m) / s * (zh - zl))) as [H|H]; [|congruence].
  destruct (Rlt_dec z (zl + (b - m) / s * (zh - zl))) as [G|G]; [reflexivity|lra].
Qed.
Print Assumptions C107_order.

(** C107: if the smoothed high snapshot is uniform (a box that is still neutral, for instance) and no random number is
    zero, nothing is interpolated: the result is the high snapshot at every redshift. *)
Theorem C107_uniform : forall smooth draw low high zh zl z c, length low = length high -> length (smooth high) = length high ->
  (forall n, 0 < draw n < 1) -> (exists i, changed low high i) -> (forall i, (i < length high)%nat -> nth i (smooth high) 0 = c) ->
  step_weighted_slice smooth draw low high zh zl z = Some high.
Proof.
  intros smooth draw low high zh zl z c HL HS HD C U.
  assert (N : values smooth draw low high <> []) by now apply some_value.
  destruct (slice_form smooth draw low high zh zl HL HS z N) as (o & X & LO & V). rewrite X. f_equal.
  apply (nth_ext _ _ 0 0); [exact LO|]. intros i Hi. rewrite LO in Hi. rewrite (V i Hi).
  assert (R0 : forall i, (i < length high)%nat -> raw smooth draw low high (nth i (smooth high) 0) = 0).
  { intros n Hn. rewrite U by exact Hn. destruct (values smooth draw low high) as [|v0 r] eqn:EV; [congruence|]. rewrite (raw_unfold _ _ _ _ v0 r EV).
    apply interp_out. left. destruct (values_from smooth draw low high HL HS v0) as (k & j & Ck & ->); [rewrite EV; left; reflexivity|].
    rewrite U by apply Ck. assert (0 < draw j * / 10 ^ 9) by (apply Rmult_lt_0_compat; [apply HD|apply Rinv_0_lt_compat, pow_lt; lra]). lra. }
  destruct (span_spec smooth draw low high HL HS (outs_nonempty smooth draw low high HL HS N)) as (S0 & (i0 & L0 & E0) & (i1 & L1 & E1) & B).
  assert (Z : span smooth draw low high = 0) by (rewrite <- E1, <- E0, !R0 by assumption; ring).
  unfold step_at. destruct (Req_EM_T (span smooth draw low high) 0); [reflexivity|contradiction].
Qed.
Print Assumptions C107_uniform.

(** C107: the changed cell of the smallest smoothed value [m] (any cell below it, too) falls below the interpolation range
    and is given the value 0. For positive values it steps last, as it should: at the low end. For values below -1e-9, as of a
    signal in absorption, it steps first: it has the low value throughout the bracket. *)
Theorem C107_smallest : forall smooth draw low high zh zl z out k, length low = length high -> length (smooth high) = length high ->
  (forall n, 0 < draw n < 1) -> changed low high k -> (forall i, changed low high i -> nth k (smooth high) 0 <= nth i (smooth high) 0) ->
  step_weighted_slice smooth draw low high zh zl z = Some out ->
  ((forall i, (i < length high)%nat -> 0 <= nth i (smooth high) 0) -> zl <= z -> nth k out 0 = nth k high 0) /\
  ((forall i, (i < length high)%nat -> nth i (smooth high) 0 < - / 10 ^ 9) -> out <> high -> z < zh -> nth k out 0 = nth k low 0).
Proof.
  intros smooth draw low high zh zl z out k HL HS HD Ck MIN E.
  assert (HD' : forall n, 0 <= draw n < 1) by (intro n; specialize (HD n); lra).
  assert (N : values smooth draw low high <> []) by (apply some_value; try assumption; now exists k).
  destruct (slice_form smooth draw low high zh zl HL HS z N) as (o & X & LO & V). rewrite E in X. injection X as <-.
  pose proof (values_asc smooth draw low high) as A.
  destruct (span_spec smooth draw low high HL HS (outs_nonempty smooth draw low high HL HS N)) as (S0 & (i0 & L0 & E0) & (i1 & L1 & E1) & B).
  assert (RK : raw smooth draw low high (nth k (smooth high) 0) = 0).
  { destruct (values smooth draw low high) as [|v0 r] eqn:EV; [congruence|]. rewrite (raw_unfold _ _ _ _ v0 r EV).
    apply interp_out. left. destruct (values_from smooth draw low high HL HS v0) as (n & j & Cn & ->); [rewrite EV; left; reflexivity|].
    specialize (MIN n Cn). assert (0 < draw j * / 10 ^ 9) by (apply Rmult_lt_0_compat; [apply HD|apply Rinv_0_lt_compat, pow_lt; lra]). lra. }
  split.
  - intros POS Hz. rewrite (V k (proj1 Ck)). unfold step_at. destruct (Req_EM_T (span smooth draw low high) 0) as [Z|Z]; [reflexivity|].
    assert (M0 : minimum (outs smooth draw low high) = 0).
    { apply Rle_antisym; [pose proof (B k (proj1 Ck)) as Bk; rewrite RK in Bk; lra|]. rewrite <- E0.
      destruct (values smooth draw low high) as [|v0 r] eqn:EV; [congruence|]. rewrite (raw_unfold _ _ _ _ v0 r EV).
      set (x := nth i0 (smooth high) 0). destruct (Rlt_dec x v0) as [H|H]; [rewrite interp_out by (now left); lra|].
      destruct (Rlt_dec (last (v0 :: r) 0) x) as [G|G]; [rewrite interp_out by (now right); lra|].
      apply Rle_trans with v0; [|apply interp_first; [exact A|lra]].
      destruct (values_from smooth draw low high HL HS v0) as (n & j & Cn & ->); [rewrite EV; left; reflexivity|].
      pose proof (POS n (proj1 Cn)). pose proof (draw_small draw HD' j). lra. }
    rewrite RK, M0. replace (zl + (0 - 0) / span smooth draw low high * (zh - zl)) with zl by (field; exact Z).
    destruct (Rlt_dec z zl); [lra|reflexivity].
  - intros NEG ND Hz. rewrite (V k (proj1 Ck)). unfold step_at.
    destruct (Req_EM_T (span smooth draw low high) 0) as [Z|Z].
    { exfalso. apply ND. apply (nth_ext _ _ 0 0); [exact LO|]. intros i Hi. rewrite LO in Hi. rewrite (V i Hi). unfold step_at.
      destruct (Req_EM_T (span smooth draw low high) 0); [reflexivity|contradiction]. }
    assert (UP : forall i, (i < length high)%nat -> raw smooth draw low high (nth i (smooth high) 0) <= 0).
    { intros i Hi. destruct (values smooth draw low high) as [|v0 r] eqn:EV; [congruence|]. rewrite (raw_unfold _ _ _ _ v0 r EV).
      set (x := nth i (smooth high) 0). destruct (Rlt_dec x v0) as [H|H]; [rewrite interp_out by (now left); lra|].
      destruct (Rlt_dec (last (v0 :: r) 0) x) as [G|G]; [rewrite interp_out by (now right); lra|].
      assert (LN : last (v0 :: r) 0 < 0).
      { destruct (values_from smooth draw low high HL HS (last (v0 :: r) 0)) as (n & j & Cn & ->); [rewrite EV; apply last_in|].
        pose proof (NEG n (proj1 Cn)). pose proof (draw_small draw HD' j). lra. }
      apply Rle_trans with (last (v0 :: r) 0); [|lra].
      apply Rle_trans with (interp_fill (v0 :: r) (linspace v0 (last (v0 :: r) 0) (length (v0 :: r))) (last (v0 :: r) 0)).
      - apply interp_mono; [exact A|lra|lra|lra].
      - clear -A. rewrite interp_in by (split; [apply (asc_last _ 0 A); left; reflexivity|apply Rle_refl]).
        (* value at the last node *)
        assert (G : forall us l a, asc (a :: l) -> length us = length (a :: l) -> (forall u0, In u0 us -> u0 <= last us 0) -> np_interp (combine (a :: l) us) (last (a :: l) 0) <= last us 0).
        { intros us. induction us as [|u0 us IH]; intros l a S' L U; [discriminate|]. destruct l as [|b l]; destruct us as [|u1 us]; try discriminate.
          - cbn. lra.
          - rewrite !last_cons_cons. cbn [combine].
            change (np_interp ((a, u0) :: (b, u1) :: combine l us) (last (b :: l) 0)) with (if Rle_dec b (last (b :: l) 0) then np_interp (combine (b :: l) (u1 :: us)) (last (b :: l) 0) else if Req_EM_T a (last (b :: l) 0) then u0 else (u1 - u0) / (b - a) * (last (b :: l) 0 - a) + u0).
            destruct (Rle_dec b (last (b :: l) 0)) as [H|H].
            + apply IH; [apply S'|cbn [length] in *; lia|]. intros w I. rewrite <- (last_cons_cons u0 u1 us). apply U. now right.
            + exfalso. apply H. destruct S' as [_ S']. apply (asc_last (b :: l) 0 S'). left. reflexivity. }
        set (us := linspace v0 (last (v0 :: r) 0) (length (v0 :: r))).
        assert (LE : last us 0 <= last (v0 :: r) 0).
        { unfold us, linspace. cbn [length]. rewrite seq_S, map_app. cbn [map]. rewrite last_last. rewrite Nat.sub_succ, Nat.sub_0_r, Nat.add_0_l.
          destruct r as [|b r]; [cbn; lra|]. right. field. apply not_0_INR. discriminate. }
        apply Rle_trans with (last us 0); [|exact LE]. apply G; [exact A|apply linspace_length|].
        apply asc_last. apply linspace_asc. apply (asc_last _ 0 A). left. reflexivity. }
    assert (SP : 0 - minimum (outs smooth draw low high) = span smooth draw low high).
    { apply Rle_antisym; [pose proof (B k (proj1 Ck)) as Bk; rewrite RK in Bk; lra|]. rewrite <- E1. pose proof (UP i1 L1). lra. }
    rewrite RK, SP. replace (zl + span smooth draw low high / span smooth draw low high * (zh - zl)) with zh by (field; exact Z).
    destruct (Rlt_dec z zh); [reflexivity|lra].
Qed.
Print Assumptions C107_smallest.

(** A slice of three changed cells meets the hypotheses. *)
Lemma sat_changed (low high : list R) i : (i < length high)%nat -> 1 <= Rabs (nth i high 0 - nth i low 0) -> changed low high i.
Proof. intros H G. split; [exact H|lra]. Qed.
Example C107_sat : let low := [5; 5; 5] in let high := [1; 2; 3] in let draw := fun _ : nat => / 2 in
  (exists out, step_weighted_slice (fun l => l) draw low high 9 8 8 = Some out /\ nth 0 out 0 = 1) /\
  step_weighted_slice (fun l => l) draw low high 9 8 9 = Some high /\
  step_weighted_slice (fun l => l) draw high high 9 8 8 = None.
Proof.
  intros low high draw.
  assert (C : forall i, (i < 3)%nat -> changed low high i).
  { intros [|[|[|i]]] H; try lia; apply sat_changed; cbn [nth length low high]; try lia; rewrite Rabs_left by lra; lra. }
  split; [|split].
  - destruct (C107_steps (fun l => l) draw low high 9 8 eq_refl eq_refl ltac:(lra) (ex_intro _ 0%nat (C 0%nat ltac:(lia)))) as (tr & _ & _ & F).
    destruct (F 8) as (out & E & _). exists out. split; [exact E|].
    destruct (C107_smallest (fun l => l) draw low high 9 8 8 out 0 eq_refl eq_refl) as [P _].
    + intro n. unfold draw. lra.
    + apply C. lia.
    + intros i [H _]. cbn [length high] in H. destruct i as [|[|[|i]]]; cbn [nth high]; try lra. lia.
    + exact E.
    + cbn [nth high] in P. apply P; [|lra]. intros i H. cbn [length high] in H. destruct i as [|[|[|i]]]; cbn [nth]; try lra. lia.
  - apply C107_ends; try reflexivity; try lra. exists 0%nat. apply C. lia.
  - apply C107_raises; try reflexivity. intros i _. rewrite Rminus_eq_0, Rabs_R0. lra.
Qed.
(** With negative values the cell that should step last is the first. *)
Theorem C107_order_refuted : exists smooth draw low high zh zl z out i j, length low = length high /\ length (smooth high) = length high /\
  (forall n, 0 < draw n < 1) /\ zl < z < zh /\ changed low high i /\ changed low high j /\ nth i (smooth high) 0 < nth j (smooth high) 0 /\
  step_weighted_slice smooth draw low high zh zl z = Some out /\ nth i out 0 = nth i low 0 /\ nth j out 0 = nth j high 0 /\ nth i out 0 <> nth i high 0 /\ nth j out 0 <> nth j low 0.
Proof.
  set (low := [5; 5]). set (high := [-2; -1]). set (draw := fun _ : nat => / 2).
  assert (C : forall i, (i < 2)%nat -> changed low high i).
  { intros [|[|i]] H; try lia; apply sat_changed; cbn [nth length low high]; try lia; rewrite Rabs_left by lra; lra. }
  destruct (C107_steps (fun l => l) draw low high 9 8 eq_refl eq_refl ltac:(lra) (ex_intro _ 0%nat (C 0%nat ltac:(lia)))) as (tr & B & D & F).
  destruct (F (17 / 2)) as (out & E & LO & V).
  assert (P : 0 < / 10 ^ 9) by (apply Rinv_0_lt_compat, pow_lt; lra).
  assert (P1 : / 10 ^ 9 < 1) by (rewrite <- Rinv_1; apply Rinv_lt_contravar; [rewrite Rmult_1_l; apply pow_lt; lra|]; cbn [pow]; lra).
  assert (HD : forall n, 0 < draw n < 1) by (intro n; unfold draw; lra).
  assert (NV : values (fun l => l) draw low high <> []) by (apply some_value; try reflexivity; exists 0%nat; apply C; lia).
  (* the first cell falls below the range and the second does not *)
  assert (R1 : exists i, (i < 2)%nat /\ nth i out 0 <> nth i high 0).
  { exists 0%nat. split; [lia|]. intro X.
    assert (out <> high -> False).
    { intro ND. destruct (C107_smallest (fun l => l) draw low high 9 8 (17 / 2) out 0 eq_refl eq_refl HD (C 0%nat ltac:(lia))) as [_ G].
      - intros i [H _]. cbn [length high] in H. destruct i as [|[|i]]; cbn [nth high]; try lra. lia.
      - exact E.
      - rewrite G in X; [cbn [nth low high] in X; lra| |exact ND|lra]. intros i H. cbn [length high] in H. destruct i as [|[|i]]; cbn [nth high]; try lra. lia. }
    assert (HH : forall i, tr i = None).
    { destruct D as [D|(D & (i & Hi & T) & (j & Hj & T'))]; [exact D|]. exfalso. apply H. intro EQ.
      pose proof (V j Hj) as Vj. rewrite T', EQ in Vj. destruct (Rlt_dec (17 / 2) 9) as [_|N]; [|lra].
      cbn [length high] in Hj. destruct j as [|[|j]]; cbn [nth low high] in Vj; try lra. lia. }
    (* but the two outputs differ *)
    pose proof (slice_form (fun l => l) draw low high 9 8 eq_refl eq_refl 0 NV) as (o & Eo & _ & Vo).
    destruct (F 0) as (o' & Eo' & _ & Vo'). rewrite Eo in Eo'. injection Eo' as <-. specialize (Vo 0%nat ltac:(cbn; lia)). rewrite (Vo' 0%nat ltac:(cbn; lia)), HH in Vo.
    unfold step_at in Vo. destruct (Req_EM_T (span (fun l => l) draw low high) 0) as [Z|Z].
    - destruct (span_spec (fun l => l) draw low high eq_refl eq_refl (outs_nonempty (fun l => l) draw low high eq_refl eq_refl NV)) as (_ & _ & _ & Q).
      pose proof (Q 0%nat ltac:(cbn; lia)) as Q0. pose proof (Q 1%nat ltac:(cbn; lia)) as Q1. rewrite Z in Q0, Q1.
      pose proof (values_asc (fun l => l) draw low high) as A. pose proof (values_from (fun l => l) draw low high eq_refl eq_refl) as VF.
      pose proof (values_low (fun l => l) draw low high eq_refl eq_refl (fun n => conj (Rlt_le _ _ (proj1 (HD n))) (proj2 (HD n))) 0%nat (C 0%nat ltac:(lia))) as VL.
      pose proof (values_high (fun l => l) draw low high eq_refl eq_refl (fun n => conj (Rlt_le _ _ (proj1 (HD n))) (proj2 (HD n))) 1%nat (C 1%nat ltac:(lia))) as VH.
      assert (T0 : raw (fun l => l) draw low high (-2) = 0 /\ raw (fun l => l) draw low high (-1) < 0).
      { assert (EV : values (fun l => l) draw low high = [-2 + / 2 * / 10 ^ 9; -1 + / 2 * / 10 ^ 9]).
        { unfold values, mask, low, high. cbn [combine map fst snd].
          destruct (Rlt_dec (1 / 1000) (Rabs (-2 - 5))) as [_|N]; [|rewrite Rabs_left in N; lra].
          destruct (Rlt_dec (1 / 1000) (Rabs (-1 - 5))) as [_|N]; [|rewrite Rabs_left in N; lra].
          cbn [selected combine filter snd map fst jitter seq length sort fold_right insert]. unfold draw.
          match goal with |- context [if ?c then _ else _] => destruct c as [_|N] end; [reflexivity|exfalso; lra]. }
        rewrite !(raw_unfold _ _ _ _ _ _ EV). split.
        - apply interp_out. left. lra.
        - rewrite interp_in by (cbn [last]; lra). unfold linspace. cbn [length Nat.sub seq map combine last np_interp INR].
          destruct (Rle_dec (-1 + / 2 * / 10 ^ 9) (-1)); [lra|]. destruct (Req_EM_T (-2 + / 2 * / 10 ^ 9) (-1)); [lra|].
          set (e := / 2 * / 10 ^ 9) in *. replace (-2 + e + 1 * ((-1 + e - (-2 + e)) / 1) - (-2 + e + 0 * ((-1 + e - (-2 + e)) / 1))) with 1 by field.
          replace (-1 + e - (-2 + e)) with 1 by ring. unfold Rdiv. rewrite Rinv_1. lra. }
      cbn [nth high] in Q0, Q1. destruct T0 as [T0 T1]. rewrite T0 in Q0. lra.
    - destruct (Rlt_dec 0 (8 + (raw (fun l => l) draw low high (nth 0 high 0) - minimum (outs (fun l => l) draw low high)) / span (fun l => l) draw low high * (9 - 8))) as [_|N]; [cbn [nth low high] in Vo; lra|].
      apply N. destruct (span_spec (fun l => l) draw low high eq_refl eq_refl (outs_nonempty (fun l => l) draw low high eq_refl eq_refl NV)) as (S0 & _ & _ & Q).
      pose proof (Q 0%nat ltac:(cbn; lia)) as Q0.
      assert (0 <= (raw (fun l => l) draw low high (nth 0 high 0) - minimum (outs (fun l => l) draw low high)) / span (fun l => l) draw low high) by (apply Rmult_le_pos; [apply Q0|left; apply Rinv_0_lt_compat; lra]). lra. }
  assert (ND : out <> high) by (destruct R1 as (i & _ & N); congruence).
  assert (K0 : nth 0 out 0 = nth 0 low 0).
  { apply (proj2 (C107_smallest (fun l => l) draw low high 9 8 (17 / 2) out 0 eq_refl eq_refl HD (C 0%nat ltac:(lia))
      ltac:(intros i [H _]; cbn [length high] in H; destruct i as [|[|i]]; cbn [nth high]; lra || lia) E)); [|exact ND|lra].
    intros i H. cbn [length high] in H. destruct i as [|[|i]]; cbn [nth high]; try lra. lia. }
  assert (T0 : exists t, tr 0%nat = Some t /\ 8 < t).
  { rewrite (V 0%nat ltac:(cbn; lia)) in K0. destruct (tr 0%nat) as [t|]; [|cbn [nth low high] in K0; lra]. exists t. split; [reflexivity|].
    destruct (Rlt_dec (17 / 2) t); [lra|cbn [nth low high] in K0; lra]. }
  assert (K1 : nth 1 out 0 = nth 1 high 0).
  { destruct D as [D|(_ & (i & Hi & T) & _)]; [destruct T0 as (t & T & _); rewrite D in T; discriminate|].
    cbn [length high] in Hi. destruct i as [|[|i]]; [destruct T0 as (t & T' & L); rewrite T in T'; injection T' as <-; lra| |lia].
    rewrite (V 1%nat ltac:(cbn; lia)), T. destruct (Rlt_dec (17 / 2) 8); [lra|reflexivity]. }
  exists (fun l => l), draw, low, high, 9, 8, (17 / 2), out, 0%nat, 1%nat.
  split; [reflexivity|]. split; [reflexivity|]. split; [exact HD|]. split; [lra|]. split; [apply C; lia|]. split; [apply C; lia|]. split; [cbn; lra|].
  split; [exact E|]. split; [exact K0|]. split; [exact K1|]. rewrite K0, K1. cbn [nth low high]. lra.
Qed.
Print Assumptions C107_order_refuted.
Example C107_steps_sat : exists (smooth : list R -> list R) (low : list R) (high : list R) (zh : R) (zl : R), length low = length high /\ length (smooth high) = length high /\ zl <= zh /\ (exists i, changed low high i).
Proof. exists (fun l => l), [5; 5; 5], [1; 2; 3], 9, 8. split; [reflexivity|]. split; [reflexivity|]. split; [lra|]. exists 0%nat. apply sat_changed; cbn [nth length]; [lia|]. rewrite Rabs_left by lra. lra. Qed.
Example C107_ends_sat : exists (smooth : list R -> list R) (low : list R) (high : list R) (zh : R) (zl : R), length low = length high /\ length (smooth high) = length high /\ zl <= zh /\ (exists i, changed low high i).
Proof. exists (fun l => l), [5; 5; 5], [1; 2; 3], 9, 8. split; [reflexivity|]. split; [reflexivity|]. split; [lra|]. exists 0%nat. apply sat_changed; cbn [nth length]; [lia|]. rewrite Rabs_left by lra. lra. Qed.
Example C107_uniform_sat : exists (smooth : list R -> list R) (draw : nat -> R) (low : list R) (high : list R) (c : R), length low = length high /\ length (smooth high) = length high /\ (forall n, 0 < draw n < 1) /\ (exists i, changed low high i) /\ (forall i, (i < length high)%nat -> nth i (smooth high) 0 = c).
Proof. exists (fun l => map (fun _ => 2) l), (fun _ => / 2), [5; 5; 5], [1; 2; 3], 2. split; [reflexivity|]. split; [reflexivity|]. split; [intro; lra|]. split; [exists 0%nat; apply sat_changed; cbn [nth length]; [lia|]; rewrite Rabs_left by lra; lra|]. intros [|[|[|i]]] H; cbn in H; try lia; reflexivity. Qed.
Example C107_smallest_sat : exists (smooth : list R -> list R) (draw : nat -> R) (low : list R) (high : list R) (zh : R) (zl : R) (z : R) (out : list R) (k : nat), length low = length high /\ length (smooth high) = length high /\ (forall n, 0 < draw n < 1) /\ changed low high k /\ ((forall i, changed low high i -> nth k (smooth high) 0 <= nth i (smooth high) 0)) /\ step_weighted_slice smooth draw low high zh zl z = Some out.
Proof. destruct C107_sat as ((out & E & _) & _). exists (fun l => l), (fun _ => / 2), [5; 5; 5], [1; 2; 3], 9, 8, 8, out, 0%nat.
split; [reflexivity|]. split; [reflexivity|]. split; [intro; lra|]. split; [apply sat_changed; cbn [nth length]; [lia|]; rewrite Rabs_left by lra; lra|]. split; [|exact E].
intros i [H _]. cbn in H. destruct i as [|[|[|i]]]; cbn; try lia; lra. Qed.
Example C107_monotone_sat : exists (smooth : list R -> list R) (draw : nat -> R) (low : list R) (high : list R) (zh : R) (zl : R) (z : R) (z' : R) (out : list R) (out' : list R) (i : nat), length low = length high /\ length (smooth high) = length high /\ z <= z' /\ step_weighted_slice smooth draw low high zh zl z = Some out /\ step_weighted_slice smooth draw low high zh zl z' = Some out' /\ (i < length high)%nat /\ nth i out 0 <> nth i low 0.
Proof. destruct C107_sat as ((out & E & V) & E9 & _). exists (fun l => l), (fun _ => / 2), [5; 5; 5], [1; 2; 3], 9, 8, 8, 9, out, [1; 2; 3], 0%nat.
split; [reflexivity|]. split; [reflexivity|]. split; [lra|]. split; [exact E|]. split; [exact E9|]. split; [cbn; lia|]. rewrite V. cbn. lra. Qed.
