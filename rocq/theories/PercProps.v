(** C33: the percolation cluster. *)
From Coq Require Import List Arith ZArith Bool Lia.
From Coq Require Import Relations.Relation_Operators Sorting.Permutation.
From Verif Require Import FofModel FofSpec FofProofs FofProps PercModel PercSpec.
Import ListNotations.
Local Open Scope nat_scope.

(** * Label 1 is the component of the first cell *)
Lemma fold_visit_keep poss g ts : forall s c, lab s c <> 0 -> lab (fold_left (visit poss g) ts s) c = lab s c.
Proof.
  induction ts as [|t ts IH]; intros s c H; [reflexivity|]. cbn [fold_left].
  assert (K : lab (visit poss g s t) c = lab s c).
  { unfold visit. destruct (mem_coord t poss && Nat.eqb (lab s t) 0) eqn:E; [|reflexivity]. cbn [lab].
    apply set_other. intros ->. apply andb_true_iff in E as [_ E]. apply Nat.eqb_eq in E. contradiction. }
  rewrite IH; [exact K|]. rewrite K. exact H.
Qed.
Lemma drain_keep nbrs poss fuel : forall late g s s' late' c, drain nbrs poss fuel late g s = Some (s', late') ->
  lab s c <> 0 -> lab s' c = lab s c.
Proof.
  induction fuel as [|fuel IH]; intros late g s s' late' c E H; cbn [drain] in E; destruct (queue s) as [|p q] eqn:Q.
  - injection E as <- _. reflexivity.
  - destruct late as [|[|] late]; try discriminate. injection E as <- _. reflexivity.
  - injection E as <- _. reflexivity.
  - assert (D : drain nbrs poss fuel (tl late) g (recursive_search nbrs poss g p (St (lab s) q (size s))) = Some (s', late') -> lab s' c = lab s c).
    { intro E'. unfold recursive_search in E'. pose proof (fold_visit_keep poss g (nbrs p) (St (lab s) q (size s)) c H) as K.
      cbn [lab] in K. rewrite (IH _ _ _ _ _ c E'); [exact K|]. rewrite K. exact H. }
    destruct late as [|[|] late]; auto. injection E as <- _. reflexivity.
Qed.
Lemma groups_keep nbrs poss iter : forall late m q g sizes m' sizes' c,
  groups nbrs poss late iter m q g sizes = Some (m', sizes') -> m c <> 0 -> m' c = m c.
Proof.
  induction iter as [|p iter IH]; intros late m q g sizes m' sizes' c E H; cbn [groups] in E.
  - injection E as <- _. reflexivity.
  - destruct (Nat.eqb_spec (m p) 0) as [Z|Z]; [|eapply IH; eauto].
    destruct (drain nbrs poss (S (length q + length poss)) late g (St (set_label m p g) (q ++ [p]) 1)) as [[s late']|] eqn:D; [|discriminate].
    assert (K : set_label m p g c = m c) by (apply set_other; intros ->; contradiction).
    assert (K2 : lab s c = m c).
    { rewrite (drain_keep _ _ _ _ _ _ _ _ c D); cbn [lab]; rewrite K; auto. }
    rewrite (IH _ _ _ _ _ _ _ c E); rewrite K2; auto.
Qed.
Lemma label_first r shape A m sizes p rest : label r shape A = Some (m, sizes) -> where_above shape A = p :: rest -> m p = 1.
Proof.
  unfold label. intros E W. rewrite W in E. cbn [groups] in E. cbn [Nat.eqb] in E.
  match type of E with match ?d with _ => _ end = _ => destruct d as [[s late']|] eqn:D; [|discriminate] end.
  assert (K0 : set_label (fun _ => 0) p 1 p = 1) by apply set_same.
  assert (K : lab s p = 1) by (rewrite (drain_keep _ _ _ _ _ _ _ _ p D); cbn [lab]; rewrite K0; auto).
  rewrite (groups_keep _ _ _ _ _ _ _ _ _ _ p E); rewrite K; auto.
Qed.

(** * C order *)
Inductive chain : list coord -> Prop :=
| chain_nil : chain []
| chain_cons c l : (forall d, In d l -> before c d) -> chain l -> chain (c :: l).
Lemma chain_app l1 l2 : chain l1 -> chain l2 -> (forall a b, In a l1 -> In b l2 -> before a b) -> chain (l1 ++ l2).
Proof.
  intros H1 H2. induction H1 as [|c l Hc H1 IH]; intro H; [exact H2|]. cbn [app]. constructor.
  - intros d Hd. apply in_app_or in Hd as [Hd|Hd]; [auto|]. apply H; [now left|exact Hd].
  - apply IH. intros a b Ha Hb. apply H; [now right|exact Hb].
Qed.
Lemma chain_map x l : chain l -> chain (map (cons x) l).
Proof.
  induction 1 as [|c l Hc H IH]; cbn [map]; constructor; [|exact IH].
  intros d Hd. apply in_map_iff in Hd as (e & <- & He). cbn [before]. right. auto.
Qed.
Lemma chain_all shape : chain (all_coords shape).
Proof.
  induction shape as [|n shape IH]; cbn [all_coords]; [constructor; [intros d []|constructor]|].
  generalize 0 as a. induction n as [|n IHn]; intro a; cbn [seq flat_map]; [constructor|].
  apply chain_app; [apply chain_map, IH|apply IHn|]. intros u w Hu Hw.
  apply in_map_iff in Hu as (u' & <- & _). apply in_flat_map in Hw as (i & Hi & Hw). apply in_map_iff in Hw as (w' & <- & _).
  apply in_seq in Hi. cbn [before]. left. lia.
Qed.
Lemma chain_filter f l : chain l -> chain (filter f l).
Proof.
  induction 1 as [|c l Hc H IH]; cbn [filter]; [constructor|]. destruct (f c); [|exact IH]. constructor; [|exact IH].
  intros d Hd. apply filter_In in Hd as [Hd _]. auto.
Qed.
Lemma head_first shape A p rest : where_above shape A = p :: rest -> first_cell shape A p.
Proof.
  intro W. split.
  - apply where_spec. rewrite W. now left.
  - intros c Hc. apply where_spec in Hc. pose proof (chain_filter A _ (chain_all shape)) as C. unfold where_above in W, Hc.
    rewrite W in C, Hc. destruct Hc as [->|Hc]; [now left|right]. inversion C; subst. auto.
Qed.
Lemma before_irrefl a : ~ before a a.
Proof. induction a as [|x a IH]; cbn [before]; [tauto|]. intros [H|[_ H]]; [lia|auto]. Qed.
Lemma before_asym a : forall b, before a b -> before b a -> False.
Proof.
  induction a as [|x a IH]; intros [|y b]; cbn [before]; try tauto. intros [H|[H H']] [K|[K K']]; try lia. eauto.
Qed.
Lemma first_unique shape A f g : first_cell shape A f -> first_cell shape A g -> f = g.
Proof.
  intros [F1 F2] [G1 G2]. destruct (F2 g G1) as [|B1]; [congruence|]. destruct (G2 f F1) as [|B2]; [congruence|].
  exfalso. eapply before_asym; eauto.
Qed.

(** * The labels in use *)
Lemma in_unique shape m g : In g (unique_labels shape m) <-> exists c, In c (all_coords shape) /\ m c = g.
Proof.
  unfold unique_labels. rewrite filter_In, in_seq, existsb_exists. split.
  - intros [_ (c & Hc & E)]. apply Nat.eqb_eq in E. eauto.
  - intros (c & Hc & E). split; [|exists c; split; [exact Hc|now apply Nat.eqb_eq]].
    assert (g <= list_max (map m (all_coords shape))); [|lia].
    pose proof (proj1 (list_max_le (map m (all_coords shape)) _) (Nat.le_refl _)) as F. rewrite Forall_forall in F.
    apply F. apply in_map_iff. eauto.
Qed.
Lemma unique_prefix shape m n : (forall c, In c (all_coords shape) -> m c <= n) ->
  unique_labels shape m = filter (fun g => existsb (fun c => Nat.eqb (m c) g) (all_coords shape)) (seq 0 (S n)).
Proof.
  intro H. unfold unique_labels. set (f := fun g => existsb _ _).
  assert (L : list_max (map m (all_coords shape)) <= n).
  { apply list_max_le. apply Forall_forall. intros k Hk. apply in_map_iff in Hk as (c & <- & Hc). auto. }
  set (k := list_max (map m (all_coords shape))) in *.
  replace (S n) with (S k + (n - k)) by lia. rewrite seq_app, filter_app.
  replace (filter f (seq (0 + S k) (n - k))) with (@nil nat); [now rewrite app_nil_r|].
  symmetry. assert (G : forall u, (forall x, In x u -> k < x) -> filter f u = []).
  { induction u as [|x u IH]; intro Hu; [reflexivity|]. cbn [filter]. replace (f x) with false.
    - apply IH. intros y Hy. apply Hu. now right.
    - symmetry. apply not_true_is_false. intro E. apply existsb_exists in E as (c & Hc & E). apply Nat.eqb_eq in E.
      specialize (Hu x (or_introl eq_refl)).
      pose proof (proj1 (list_max_le (map m (all_coords shape)) k) (Nat.le_refl _)) as F. rewrite Forall_forall in F.
      specialize (F (m c) (in_map m _ _ Hc)). lia. }
  apply G. intros x Hx. apply in_seq in Hx. lia.
Qed.

Lemma rolled_in shape axis c : Forall (fun n => 0 < n) shape -> in_shape shape c -> in_shape shape (rolled shape axis c).
Proof.
  intros P H. revert axis P. induction H as [|n x shape c Hx H IH]; intros axis P; [constructor|].
  inversion P as [|? ? P1 P2]; subst. cbn [rolled]. destruct axis as [|a].
  - constructor; [apply Z.mod_pos_bound; lia|exact H].
  - constructor; [exact Hx|exact (IH a P2)].
Qed.

Lemma wraps_spec nx ny nz (marked : coord -> bool) K : 0 < nx -> 0 < ny -> 0 < nz ->
  (forall c, In c K <-> in_shape [nx; ny; nz] c /\ marked c = true) ->
  (wraps [nx; ny; nz] marked 0 || wraps [nx; ny; nz] marked 1 || wraps [nx; ny; nz] marked 2) = true <->
  exists c d, In c K /\ In d K /\ step_below nx ny nz c d.
Proof.
  intros Hx Hy Hz HK. assert (P : Forall (fun n => 0 < n) [nx; ny; nz]) by (repeat constructor; assumption).
  rewrite !orb_true_iff. unfold wraps. rewrite !existsb_exists. split.
  - intro H. assert (W : exists axis c, axis < 3 /\ In c (all_coords [nx; ny; nz]) /\ marked c && marked (rolled [nx; ny; nz] axis c) = true).
    { destruct H as [[(c & H)|(c & H)]|(c & H)]; [exists 0, c|exists 1, c|exists 2, c]; (split; [lia|exact H]). }
    destruct W as (axis & c & Ha & Hc & E). apply andb_true_iff in E as [E1 E2]. apply all_coords_spec in Hc.
    exists c, (rolled [nx; ny; nz] axis c). split; [now apply HK|]. split; [apply HK; split; [now apply rolled_in|assumption]|].
    inversion Hc as [|? x ? c1 _ H1]; subst. inversion H1 as [|? y ? c2 _ H2]; subst. inversion H2 as [|? z ? c3 _ H3]; subst.
    inversion H3; subst. exists x, y, z. split; [reflexivity|].
    destruct axis as [|[|[|]]]; [now left|right; now left|right; now right|lia].
  - intros (c & d & Hc & Hd & x & y & z & Ecd & D); subst c. apply HK in Hc as [C1 C2]. apply HK in Hd as [D1 D2].
    apply all_coords_spec in C1.
    destruct D as [D|[D|D]]; subst d; [left; left|left; right|right]; exists [x; y; z]; (split; [exact C1|]); cbn [rolled]; rewrite C2, D2; reflexivity.
Qed.

(** The cluster that is looked at is the component of the first region cell in C order. Its
    size is returned if two of its cells are next to each other along an axis, anywhere in
    the periodic box; otherwise 0. An empty region gives 0, a full box its size. *)
Theorem C33_percolation : forall r nx ny nz A, 1 <= r -> 0 < nx -> 0 < ny -> 0 < nz ->
  let shape := [nx; ny; nz] in
  exists k, find_percolation_cluster r shape A = Some k /\
  ((forall c, in_shape shape c -> A c = false) -> k = 0) /\
  ((forall c, in_shape shape c -> A c = true) -> k = nx * ny * nz) /\
  ((exists c, in_shape shape c /\ A c = true) -> (exists c, in_shape shape c /\ A c = false) ->
   exists f K, first_cell shape A f /\ component_of r shape A f K /\
     ((exists c d, In c K /\ In d K /\ step_below nx ny nz c d) -> k = length K) /\
     (~ (exists c d, In c K /\ In d K /\ step_below nx ny nz c d) -> k = 0)).
Proof.
  intros r nx ny nz A Hr Hx Hy Hz shape.
  assert (P : Forall (fun n => 0 < n) shape) by (repeat constructor; assumption).
  destruct (label_ok r shape A) as (m & sizes & EL & L).
  destruct (C17_fof_sizes r shape A) as (m' & sizes' & EF & _).
  assert (m' = m) by (unfold fof in EF; rewrite EL in EF; injection EF as <- _; reflexivity). subst m'.
  unfold find_percolation_cluster. rewrite EF. clear EF.
  pose proof L as (L1 & L2 & L3 & L4).
  set (z := [0%Z; 0%Z; 0%Z]). assert (Hzc : in_shape shape z) by (repeat constructor; lia).
  rewrite (unique_prefix shape m (length sizes)) by (intros; apply L3). cbn [seq filter].
  set (has := fun g => existsb (fun c => Nat.eqb (m c) g) (all_coords shape)).
  assert (HAS : forall g, has g = true <-> exists c, in_shape shape c /\ m c = g).
  { intro g. unfold has. rewrite existsb_exists. split; intros (c & A1 & A2); exists c.
    - apply all_coords_spec in A1. apply Nat.eqb_eq in A2. auto.
    - split; [now apply all_coords_spec|now apply Nat.eqb_eq]. }
  assert (POS : forall g, 1 <= g <= length sizes -> has g = true).
  { intros g Hg. destruct (L4 g Hg) as (cs & _ & Hne & _ & Hcs). destruct cs as [|c cs]; [contradiction|].
    apply HAS. exists c. assert (m c = g) by (apply Hcs; now left). split; [|assumption]. apply L1. lia. }
  assert (FP : filter has (seq 1 (length sizes)) = seq 1 (length sizes)).
  { assert (G : forall u, (forall x, In x u -> 1 <= x <= length sizes) -> filter has u = u).
    { induction u as [|x u IH]; intro Hu; [reflexivity|]. cbn [filter]. rewrite (POS x) by (apply Hu; now left).
      rewrite IH; [reflexivity|]. intros y Hy'. apply Hu. now right. }
    apply G. intros x Hx'. apply in_seq in Hx'. lia. }
  change (if existsb (fun c => Nat.eqb (m c) 0) (all_coords shape) then 0 :: filter has (seq 1 (length sizes)) else filter has (seq 1 (length sizes)))
    with (if has 0 then 0 :: filter has (seq 1 (length sizes)) else filter has (seq 1 (length sizes))).
  rewrite FP.
  assert (LEN : length (all_coords shape) = nx * ny * nz).
  { assert (AL : forall s, length (all_coords s) = fold_right Nat.mul 1 s).
    { induction s as [|n s IH]; [reflexivity|]. cbn [all_coords fold_right].
      assert (FL : forall u, length (flat_map (fun i => map (cons (Z.of_nat i)) (all_coords s)) u) = length u * fold_right Nat.mul 1 s).
      { induction u as [|i u IHu]; [reflexivity|]. cbn [flat_map length Nat.mul]. rewrite app_length, map_length, IHu. f_equal. exact IH. }
      rewrite FL, seq_length. reflexivity. }
    rewrite AL. cbn [fold_right shape]. lia. }
  destruct (has 0) eqn:H0.
  - apply HAS in H0 as (c0 & C0 & E0).
    assert (A0 : A c0 = false).
    { destruct (A c0) eqn:Q; [|reflexivity]. exfalso. assert (m c0 <> 0) by (apply L1; split; assumption). contradiction. }
    destruct (length sizes) as [|n] eqn:LS.
    + cbn [seq]. exists 0. split; [reflexivity|]. split; [auto|]. split.
      * intro H. rewrite H in A0 by assumption. discriminate.
      * intros (c & Hc & Ac) _. exfalso. assert (m c <> 0) by (apply L1; split; assumption). specialize (L3 c). lia.
    + cbn [seq]. cbn [length shape Nat.ltb Nat.leb].
      destruct (where_above shape A) as [|f rest] eqn:W.
      { exfalso. destruct (L4 1 ltac:(lia)) as (cs & _ & Hne & _ & Hcs). destruct cs as [|c cs]; [contradiction|].
        assert (m c = 1) by (apply Hcs; now left). assert (Hcc : m c <> 0) by lia. apply L1 in Hcc. apply where_spec in Hcc. rewrite W in Hcc. contradiction. }
      pose proof (head_first _ _ _ _ W) as FC. pose proof (label_first _ _ _ _ _ _ _ EL W) as F1.
      set (marked := fun c => Nat.eqb (m c) 1). set (K := filter marked (all_coords shape)).
      assert (HK : forall c, In c K <-> in_shape shape c /\ marked c = true) by (intro c; unfold K; rewrite filter_In, all_coords_spec; tauto).
      assert (CO : component_of r shape A f K).
      { split; [apply NoDup_filter, all_coords_nodup|]. intro c. rewrite HK. unfold marked. rewrite Nat.eqb_eq. split.
        - intros [I E]. assert (Hc : cell_of shape A c) by (apply L1; lia). split; [exact Hc|].
          apply (L2 f c); [apply FC|exact Hc|congruence].
        - intros [Hc R]. split; [apply Hc|]. apply (L2 f c) in R; [congruence|apply FC|exact Hc]. }
      pose proof (wraps_spec nx ny nz marked K Hx Hy Hz HK) as WS. fold shape in WS.
      destruct (wraps shape marked 0 || wraps shape marked 1 || wraps shape marked 2) eqn:WW.
      * exists (length K). split; [reflexivity|]. split.
        { intro H. exfalso. destruct FC as [[F2 F3] _]. rewrite H in F3 by assumption. discriminate. }
        split; [intro H; rewrite H in A0 by assumption; discriminate|]. intros _ _. exists f, K.
        split; [exact FC|]. split; [exact CO|]. split; [reflexivity|]. intro N. exfalso. apply N, WS. reflexivity.
      * exists 0. split; [reflexivity|]. split; [reflexivity|].
        split; [intro H; rewrite H in A0 by assumption; discriminate|]. intros _ _. exists f, K.
        split; [exact FC|]. split; [exact CO|]. split; [|reflexivity]. intro N. apply WS in N. discriminate.
  - assert (ALL : forall c, in_shape shape c -> A c = true).
    { intros c Hc. destruct (m c) as [|k] eqn:Q.
      - exfalso. assert (has 0 = true); [|congruence]. apply HAS. eauto.
      - apply (L1 c). lia. }
    assert (ONE : length sizes = 1).
    { apply labelling_components in L.
      assert (CT : components r shape (fun _ => true) (length sizes)).
      { assert (CE : forall c, cell_of shape A c <-> cell_of shape (fun _ => true) c).
        { intro c. unfold cell_of. split; intros [B1 B2]; split; auto. }
        assert (CC : forall c d, connected r (cell_of shape A) c d <-> connected r (cell_of shape (fun _ => true)) c d).
        { intros c d. unfold connected. split; intro H; (induction H as [a b (B1 & B2 & B3)|a|a b e _ I1 _ I2];
            [apply rt_step; split; [now apply CE|split; [now apply CE|exact B3]]|apply rt_refl|eapply rt_trans; eauto]). }
        destruct L as (reps & R1 & R2 & R3 & R4 & R5). exists reps. split; [exact R1|]. split; [exact R2|]. split; [|split].
        - intros c Hc. now apply CE, R3.
        - intros c d Hc Hd R. apply R4; auto. now apply CC.
        - intros c Hc. apply CE in Hc. destruct (R5 c Hc) as (d & D1 & D2). exists d. split; [exact D1|now apply CC]. }
      exact (components_unique _ _ _ _ _ CT (full_components r shape Hr P)). }
    rewrite ONE. cbn [seq Nat.eqb]. exists (nx * ny * nz). split; [now rewrite LEN|]. split.
    + intro H. specialize (H z Hzc). rewrite ALL in H by exact Hzc. discriminate.
    + split; [reflexivity|]. intros _ (c & Hc & E). rewrite ALL in E by exact Hc. discriminate.
Qed.
Print Assumptions C33_percolation.
Example C33_percolation_sat : exists (r : nat) (nx : nat) (ny : nat) (nz : nat), 1 <= r /\ 0 < nx /\ 0 < ny /\ 0 < nz.
Proof. exists 1%nat, 3%nat, 4%nat, 5%nat. repeat split; lia. Qed.

Lemma pred_mod_neq n x : 2 <= n -> (0 <= x < Z.of_nat n)%Z -> ((x - 1) mod Z.of_nat n)%Z <> x.
Proof.
  intros Hn Hx. destruct (Z.eq_dec x 0) as [->|N].
  - replace ((0 - 1) mod Z.of_nat n)%Z with (Z.of_nat n - 1)%Z; [lia|].
    apply Z.mod_unique_pos with (q := (-1)%Z); lia.
  - rewrite Z.mod_small; lia.
Qed.
(** With face connectivity in a box at least two cells wide, being reported therefore only
    means having at least two cells. *)
Theorem C33_reported_iff_two_cells : forall nx ny nz A k f K, 2 <= nx -> 2 <= ny -> 2 <= nz ->
  let shape := [nx; ny; nz] in
  find_percolation_cluster 1 shape A = Some k ->
  (exists c, in_shape shape c /\ A c = false) -> first_cell shape A f -> component_of 1 shape A f K ->
  k = if 2 <=? length K then length K else 0.
Proof.
  intros nx ny nz A k f K Hx Hy Hz shape E OUT F CO.
  destruct (C33_percolation 1 nx ny nz A (Nat.le_refl _) ltac:(lia) ltac:(lia) ltac:(lia)) as (k' & E' & _ & _ & H).
  fold shape in E', H. rewrite E in E'. injection E' as <-.
  destruct (H (ex_intro _ f (proj1 F)) OUT) as (f' & K' & F' & CO' & T1 & T2).
  pose proof (first_unique _ _ _ _ F F') as <-.
  assert (PL : Permutation K K').
  { apply NoDup_Permutation; [apply CO|apply CO'|]. intro c. rewrite (proj2 CO c), (proj2 CO' c). reflexivity. }
  rewrite (Permutation_length PL). destruct CO' as [ND HK].
  assert (Ff : In f K') by (apply HK; split; [apply F|apply rt_refl]).
  destruct (Nat.leb_spec 2 (length K')) as [L|L].
  - apply T1.
    (* another cell, hence a first step of the chain *)
    assert (ST : forall a b, connected 1 (cell_of shape A) a b -> a <> b -> In a K' ->
              exists c d, In c K' /\ In d K' /\ c <> d /\ neighbours 1 c d).
    { intros a b R. induction R as [a b (B1 & B2 & B3)|a|a b c R1 I1 R2 I2]; intros N Ha.
      - exists a, b. split; [exact Ha|]. split; [|auto]. apply HK. split; [exact B2|]. apply HK in Ha as [_ Ha].
        eapply rt_trans; [exact Ha|]. apply rt_step. split; [exact B1|]. split; assumption.
      - contradiction.
      - destruct (coord_dec a b) as [->|Nab]; [auto|]. auto. }
    assert (OT : exists b, In b K' /\ b <> f).
    { destruct K' as [|u [|w K']]; cbn [length] in L; try lia. inversion ND as [|? ? N1 N2]; subst.
      destruct (coord_dec u f) as [->|Nu]; [exists w|exists u].
      - split; [right; now left|]. intros ->. apply N1. now left.
      - split; [now left|exact Nu]. }
    destruct OT as (b & Hb & Nb). destruct (ST f b (proj2 (proj1 (HK b) Hb)) (not_eq_sym Nb) Ff) as (c & d & Hc & Hd & Ncd & [Q1 Q2]).
    (* neighbours differing in exactly one coordinate, by one *)
    pose proof (proj1 (HK c) Hc) as [[Sc _] _]. pose proof (proj1 (HK d) Hd) as [[Sd _] _].
    unfold in_shape, shape in Sc, Sd.
    inversion Sc as [|? x ? c1 Bx H1]; subst. inversion H1 as [|? y ? c2 By H2]; subst. inversion H2 as [|? z ? c3 Bz H3]; subst. inversion H3; subst.
    inversion Sd as [|? x' ? d1 Bx' H1']; subst. inversion H1' as [|? y' ? d2 By' H2']; subst. inversion H2' as [|? z' ? d3 Bz' H3']; subst. inversion H3'; subst.
    inversion Q1 as [|? ? ? ? D1 Q1']; subst. inversion Q1' as [|? ? ? ? D2 Q1'']; subst. inversion Q1'' as [|? ? ? ? D3 _]; subst.
    cbn [differ] in Q2. clear - Q2 D1 D2 D3 Bx By Bz Bx' By' Bz' Ncd Hc Hd.
    destruct (Z.eqb_spec x x') as [<-|Nx], (Z.eqb_spec y y') as [<-|Ny], (Z.eqb_spec z z') as [<-|Nz]; try lia.
    + contradiction.
    + destruct (Z_lt_le_dec z' z) as [O|O].
      * exists [x; y; z], [x; y; z']. split; [exact Hc|]. split; [exact Hd|]. exists x, y, z. split; [reflexivity|].
        right; right. repeat f_equal. rewrite Z.mod_small; lia.
      * exists [x; y; z'], [x; y; z]. split; [exact Hd|]. split; [exact Hc|]. exists x, y, z'. split; [reflexivity|].
        right; right. repeat f_equal. rewrite Z.mod_small; lia.
    + destruct (Z_lt_le_dec y' y) as [O|O].
      * exists [x; y; z], [x; y'; z]. split; [exact Hc|]. split; [exact Hd|]. exists x, y, z. split; [reflexivity|].
        right; left. repeat f_equal. rewrite Z.mod_small; lia.
      * exists [x; y'; z], [x; y; z]. split; [exact Hd|]. split; [exact Hc|]. exists x, y', z. split; [reflexivity|].
        right; left. repeat f_equal. rewrite Z.mod_small; lia.
    + destruct (Z_lt_le_dec x' x) as [O|O].
      * exists [x; y; z], [x'; y; z]. split; [exact Hc|]. split; [exact Hd|]. exists x, y, z. split; [reflexivity|].
        left. repeat f_equal. rewrite Z.mod_small; lia.
      * exists [x'; y; z], [x; y; z]. split; [exact Hd|]. split; [exact Hc|]. exists x', y, z. split; [reflexivity|].
        left. repeat f_equal. rewrite Z.mod_small; lia.
  - apply T2. intros (c & d & Hc & Hd & x & y & z & Ecd & D); subst c.
    assert (K1 : K' = [[x; y; z]]).
    { destruct K' as [|u [|w K']]; cbn [length] in L; try lia; [contradiction|]. destruct Hc as [->|[]]. reflexivity. }
    rewrite K1 in Hd. destruct Hd as [<-|[]].
    pose proof (proj1 (HK [x; y; z]) Hc) as [[Sc _] _].
    inversion Sc as [|? ? ? ? Bx H1]; subst. inversion H1 as [|? ? ? ? By H2]; subst. inversion H2 as [|? ? ? ? Bz _]; subst.
    destruct D as [D|[D|D]]; injection D as D.
    + exact (pred_mod_neq _ x Hx Bx (eq_sym D)) || exact (pred_mod_neq _ x Hx Bx D).
    + exact (pred_mod_neq _ y Hy By (eq_sym D)) || exact (pred_mod_neq _ y Hy By D).
    + exact (pred_mod_neq _ z Hz Bz (eq_sym D)) || exact (pred_mod_neq _ z Hz Bz D).
Qed.
Print Assumptions C33_reported_iff_two_cells.

(** So "reported only if the cluster reaches across the box" is false both ways: two cells
    in the middle are reported, and a column through the whole box behind a single earlier
    cell is not. *)
Theorem C33_spanning_refuted :
  find_percolation_cluster 1 [4; 4; 4] (fun c => coord_eqb c [1; 1; 1]%Z || coord_eqb c [1; 1; 2]%Z) = Some 2 /\
  find_percolation_cluster 1 [4; 4; 4] (fun c => coord_eqb c [0; 0; 0]%Z || (Z.eqb (nth 0 c 0%Z) 2 && Z.eqb (nth 1 c 0%Z) 2)) = Some 0.
Proof. split; vm_compute; reflexivity. Qed.
Print Assumptions C33_spanning_refuted.

(** Data with fewer than three dimensions raise unless all or no cells are in the region. *)
Theorem C33_flat_data_raise : forall r shape A, length shape < 3 ->
  (exists c, in_shape shape c /\ A c = true) -> (exists c, in_shape shape c /\ A c = false) ->
  find_percolation_cluster r shape A = None.
Proof.
  intros r shape A D (a & Ia & Ta) (b & Ib & Fb). unfold find_percolation_cluster, fof.
  destruct (label_ok r shape A) as (m & sizes & -> & L1 & _).
  assert (Ua : In (m a) (unique_labels shape m)) by (apply in_unique; exists a; split; [now apply all_coords_spec|reflexivity]).
  assert (Ub : In (m b) (unique_labels shape m)) by (apply in_unique; exists b; split; [now apply all_coords_spec|reflexivity]).
  assert (Na : m a <> 0) by (apply L1; split; assumption).
  assert (Nb : m b = 0).
  { destruct (m b) eqn:Q; [reflexivity|]. exfalso. assert (H : m b <> 0) by lia. apply L1 in H as [_ H]. congruence. }
  destruct (unique_labels shape m) as [|v [|w l]]; [contradiction| |].
  - destruct Ua as [Ua|[]], Ub as [Ub|[]]. lia.
  - destruct (Nat.ltb_spec (length shape) 3); [reflexivity|lia].
Qed.
Print Assumptions C33_flat_data_raise.
Example C33_flat_data_raise_sat : exists (shape : list nat) (A : list Z -> bool), length shape < 3 /\ (exists c, in_shape shape c /\ A c = true) /\ (exists c, in_shape shape c /\ A c = false).
Proof. exists [2; 2], (fun c => match c with [0%Z; 0%Z] => true | _ => false end). split; [cbn; lia|]. split; [exists [0%Z; 0%Z]|exists [1%Z; 0%Z]]; (split; [repeat constructor; lia|reflexivity]). Qed.

Example C33_sat : let A := fun c => coord_eqb c [1; 1; 1]%Z || coord_eqb c [1; 1; 2]%Z in
  find_percolation_cluster 1 [4; 4; 4] A = Some 2 /\ (exists c, in_shape [4; 4; 4] c /\ A c = false) /\
  first_cell [4; 4; 4] A [1; 1; 1]%Z.
Proof.
  cbv zeta. split; [vm_compute; reflexivity|]. split; [exists [0; 0; 0]%Z; split; [repeat constructor; lia|reflexivity]|].
  apply (head_first _ _ _ [[1; 1; 2]%Z]). vm_compute. reflexivity.
Qed.
