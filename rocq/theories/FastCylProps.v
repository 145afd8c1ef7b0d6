(** C99: the fast cylindrical spectrum. *)
From Coq Require Import String List Arith Reals Bool Lra Lia.
From Verif Require Import RLib SpecModel WindowModel FastCylModel.
Import ListNotations.
Local Open Scope R_scope.

Definition nsum (l : list nat) : nat := fold_right Nat.add 0%nat l.
Definition b2n (b : bool) : nat := if b then 1%nat else 0%nat.
Definition hits (c : nat -> R) (w : R) (n : nat) (x : option R) : nat := nsum (map (fun i => b2n (near (c i) w x)) (seq 0 n)).

Lemma rleb_spec : forall a b, rleb a b = true <-> a <= b.
Proof. intros. unfold rleb. destruct (Rle_dec a b); split; intro; auto; try discriminate; contradiction. Qed.
Lemma near_edges : forall lo hi n i x, lo <= hi -> near (centre lo hi n i) (width lo hi n) (Some x) = true <-> edge lo hi n i <= x <= edge lo hi n (S i).
Proof.
  intros lo hi n i x H. unfold near. rewrite rleb_spec. unfold centre, width, edge. rewrite S_INR. set (d := (hi - lo) / INR n). cbn [INR].
  split; intro A.
  - assert (- ((lo + 1 * d - (lo + 0 * d)) / 2) <= x - (lo + INR i * d + (lo + (INR i + 1) * d)) / 2 <= (lo + 1 * d - (lo + 0 * d)) / 2).
    { split; [pose proof (Rcase_abs (x - (lo + INR i * d + (lo + (INR i + 1) * d)) / 2)); unfold Rabs in A; destruct (Rcase_abs _); lra|unfold Rabs in A; destruct (Rcase_abs _); lra]. }
    lra.
  - unfold Rabs. destruct (Rcase_abs _); lra.
Qed.

(** ** How many of the [n] bins hold a point [u], in units of the bin width. *)
Definition cnt (n : nat) (u : R) : nat := nsum (map (fun i => b2n (rleb (INR i) u && rleb u (INR (S i)))) (seq 0 n)).
Lemma nsum_app : forall a b, nsum (a ++ b) = (nsum a + nsum b)%nat.
Proof. induction a; intros; cbn [app nsum fold_right]; [reflexivity|]. fold (nsum (a0 ++ b)) (nsum a0). rewrite IHa. lia. Qed.
Lemma cnt_S : forall n u, cnt (S n) u = (cnt n u + b2n (rleb (INR n) u && rleb u (INR (S n))))%nat.
Proof. intros. unfold cnt. rewrite seq_S, map_app, nsum_app. cbn [map nsum fold_right Nat.add]. lia. Qed.
Lemma in_unit : forall i u, b2n (rleb (INR i) u && rleb u (INR (S i))) = 1%nat <-> INR i <= u <= INR (S i).
Proof. intros. rewrite <- !rleb_spec. destruct (rleb (INR i) u), (rleb u (INR (S i))); cbn; split; intro; try lia; try (split; congruence); destruct H; congruence. Qed.
Lemma b2n_01 : forall b, b2n b = 0%nat \/ b2n b = 1%nat. Proof. destruct b; auto. Qed.
Lemma cnt_between : forall n j u, INR j < u < INR (S j) -> cnt n u = if (j <? n)%nat then 1%nat else 0%nat.
Proof.
  induction n; intros j u H; [reflexivity|]. rewrite cnt_S, (IHn j u H).
  destruct (Nat.ltb_spec j n), (Nat.ltb_spec j (S n)); try lia.
  - destruct (b2n_01 (rleb (INR n) u && rleb u (INR (S n)))) as [->|E]; [reflexivity|]. apply in_unit in E. apply le_INR in H0. lra.
  - assert (j = n) by lia. subst. rewrite (proj2 (in_unit n u)); [reflexivity|lra].
  - destruct (b2n_01 (rleb (INR n) u && rleb u (INR (S n)))) as [->|E]; [reflexivity|]. apply in_unit in E. assert (L : (S n <= j)%nat) by lia. apply le_INR in L. lra.
Qed.
Lemma cnt_int : forall n j, cnt n (INR j) = ((if j <? n then 1 else 0) + (if (1 <=? j) && (j <=? n) then 1 else 0))%nat.
Proof.
  induction n; intros j; [destruct j; reflexivity|]. rewrite cnt_S, IHn.
  assert (E : b2n (rleb (INR n) (INR j) && rleb (INR j) (INR (S n))) = if (n =? j)%nat || (j =? S n)%nat then 1%nat else 0%nat).
  { destruct (b2n_01 (rleb (INR n) (INR j) && rleb (INR j) (INR (S n)))) as [E|E]; rewrite E.
    - destruct (Nat.eqb_spec n j), (Nat.eqb_spec j (S n)); cbn; try reflexivity; exfalso; assert (b2n (rleb (INR n) (INR j) && rleb (INR j) (INR (S n))) = 1%nat); try lia; apply in_unit; subst; split; apply le_INR; lia.
    - apply in_unit in E. destruct E as [E1 E2]. apply INR_le in E1, E2. destruct (Nat.eqb_spec n j), (Nat.eqb_spec j (S n)); cbn; lia. }
  rewrite E. destruct (Nat.ltb_spec j n), (Nat.ltb_spec j (S n)), (Nat.leb_spec 1 j), (Nat.leb_spec j n), (Nat.leb_spec j (S n)), (Nat.eqb_spec n j), (Nat.eqb_spec j (S n)); cbn; lia.
Qed.
Lemma floor_nat : forall u, 0 <= u -> exists j, u = INR j \/ INR j < u < INR (S j).
Proof.
  intros u H. destruct (archimed u) as [A B]. assert (P : (0 <= up u - 1)%Z). { assert (0 < up u)%Z by (apply lt_IZR; lra). lia. }
  exists (Z.to_nat (up u - 1)). rewrite S_INR, INR_IZR_INZ, Z2Nat.id, minus_IZR by exact P. destruct (Req_dec u (IZR (up u) - 1)); [left; lra|right; lra].
Qed.

(** ** A point counts twice on an inner edge, else once. *)
Definition on_inner_edge (lo hi : R) (n : nat) (x : R) : Prop := exists j, (1 <= j < n)%nat /\ x = lo + INR j * (hi - lo) / INR n.
Lemma hits_spec : forall lo hi n x, (1 <= n)%nat -> lo < hi -> lo <= x <= hi ->
  (on_inner_edge lo hi n x -> hits (centre lo hi n) (width lo hi n) n (Some x) = 2%nat) /\
  (~ on_inner_edge lo hi n x -> hits (centre lo hi n) (width lo hi n) n (Some x) = 1%nat).
Proof.
  intros lo hi n x N L X. assert (N0 : 0 < INR n) by (apply lt_0_INR; lia). set (u := (x - lo) * INR n / (hi - lo)).
  assert (D : 0 < (hi - lo) / INR n) by (apply Rdiv_lt_0_compat; lra).
  assert (U : x = lo + u * ((hi - lo) / INR n)) by (unfold u; field; lra).
  assert (C : hits (centre lo hi n) (width lo hi n) n (Some x) = cnt n u).
  { unfold hits, cnt. apply (f_equal nsum). apply map_ext. intro i. apply (f_equal b2n). apply eq_true_iff_eq. rewrite near_edges by lra. rewrite andb_true_iff, !rleb_spec. unfold edge. rewrite U. split; intros [A B]; split.
    - apply (Rmult_le_reg_r ((hi - lo) / INR n)); [exact D|lra].
    - apply (Rmult_le_reg_r ((hi - lo) / INR n)); [exact D|lra].
    - apply Rplus_le_compat_l, Rmult_le_compat_r; lra.
    - apply Rplus_le_compat_l, Rmult_le_compat_r; lra. }
  assert (U0 : 0 <= u). { apply (Rmult_le_reg_r ((hi - lo) / INR n)); [exact D|lra]. }
  assert (U1 : u <= INR n). { apply (Rmult_le_reg_r ((hi - lo) / INR n)); [exact D|]. replace (INR n * ((hi - lo) / INR n)) with (hi - lo) by (field; lra). lra. }
  assert (UE : forall j, u = INR j <-> x = lo + INR j * (hi - lo) / INR n).
  { intro j. split; intro E; [rewrite U, E; field; lra|unfold u; rewrite E; field; lra]. }
  rewrite C. destruct (floor_nat u U0) as [j [E|E]].
  - rewrite E, cnt_int. assert (J : (j <= n)%nat) by (apply INR_le; lra). split; intro I.
    + destruct I as [k [K1 K2]]. apply UE in K2. assert (INR j = INR k) by lra. apply INR_eq in H. subst k. destruct (Nat.ltb_spec j n), (Nat.leb_spec 1 j), (Nat.leb_spec j n); cbn; lia.
    + assert (~ (1 <= j < n)%nat). { intro K. apply I. exists j. split; [exact K|apply UE; exact E]. } destruct (Nat.ltb_spec j n), (Nat.leb_spec 1 j), (Nat.leb_spec j n); cbn; lia.
  - rewrite (cnt_between n j u E). split; intro I.
    + destruct I as [k [K1 K2]]. apply UE in K2. destruct E as [E1 E2]. rewrite K2 in E1, E2. apply INR_lt in E1, E2. lia.
    + destruct (Nat.ltb_spec j n) as [K|K]; [reflexivity|]. apply le_INR in K. lra.
Qed.
Lemma hits_out : forall lo hi n x, (1 <= n)%nat -> lo <= hi -> x < lo -> hits (centre lo hi n) (width lo hi n) n (Some x) = 0%nat.
Proof.
  intros lo hi n x N L X. unfold hits. assert (forall l, nsum (map (fun i => b2n (near (centre lo hi n i) (width lo hi n) (Some x))) l) = 0%nat); [|auto].
  induction l as [|i l IH]; [reflexivity|]. cbn [map]. change (b2n (near (centre lo hi n i) (width lo hi n) (Some x)) + nsum (map (fun i => b2n (near (centre lo hi n i) (width lo hi n) (Some x))) l) = 0)%nat. rewrite IH.
  destruct (near _ _ _) eqn:E; [|reflexivity]. apply near_edges in E; [|exact L]. unfold edge in E. pose proof (pos_INR i). assert (0 <= (hi - lo) / INR n) by (apply Rmult_le_pos; [lra|apply Rlt_le, Rinv_0_lt_compat, lt_0_INR; lia]). nra.
Qed.
Lemma hits_none : forall c w n, hits c w n None = 0%nat.
Proof. intros. unfold hits. induction (seq 0 n); [reflexivity|exact IHl]. Qed.

(** ** Total of a table of counts. *)
Lemma nsum_plus : forall {A} (f g : A -> nat) l, nsum (map (fun x => (f x + g x)%nat) l) = (nsum (map f l) + nsum (map g l))%nat.
Proof. induction l; [reflexivity|]. cbn [map nsum fold_right]. fold (nsum (map (fun x => (f x + g x)%nat) l)) (nsum (map f l)) (nsum (map g l)). rewrite IHl. lia. Qed.
Lemma nsum_swap : forall {A B} (f : A -> B -> nat) la lb, nsum (map (fun a => nsum (map (f a) lb)) la) = nsum (map (fun b => nsum (map (fun a => f a b) la)) lb).
Proof.
  induction la; intros; cbn [map nsum fold_right]; [induction lb; cbn [map nsum fold_right]; auto|].
  fold (nsum (map (fun a => nsum (map (f a) lb)) la)). rewrite IHla, <- nsum_plus. reflexivity.
Qed.
Lemma nsum_scale : forall {A} (f : A -> nat) c l, nsum (map (fun x => (c * f x)%nat) l) = (c * nsum (map f l))%nat.
Proof. induction l; cbn [map nsum fold_right]; [lia|]. fold (nsum (map (fun x => (c * f x)%nat) l)) (nsum (map f l)). rewrite IHl. lia. Qed.
Lemma nsum_ext : forall {A} (f g : A -> nat) l, (forall x, In x l -> f x = g x) -> nsum (map f l) = nsum (map g l).
Proof. intros. apply (f_equal nsum). apply map_ext_in. assumption. Qed.
Lemma filter_nsum : forall {A} (f : A -> bool) l, length (filter f l) = nsum (map (fun x => b2n (f x)) l).
Proof. induction l; [reflexivity|]. cbn [filter map nsum fold_right]. fold (nsum (map (fun x => b2n (f x)) l)). destruct (f a); cbn [length b2n]; lia. Qed.
Lemma b2n_and : forall a b, b2n (a && b) = (b2n a * b2n b)%nat. Proof. destruct a, b; reflexivity. Qed.
Definition total_count (r : result) : nat := nsum (map (fun row => nsum (map snd row)) (ps r)).
Lemma table_count : forall n m (p : nat -> mode -> bool) (q : nat -> mode -> bool) modes,
  nsum (map (fun row => nsum (map snd row)) (table n m (fun i j => cell_of (fun x => p i x && q j x) modes))) =
  nsum (map (fun x => (nsum (map (fun i => b2n (p i x)) (seq 0 n)) * nsum (map (fun j => b2n (q j x)) (seq 0 m)))%nat) modes).
Proof.
  intros. unfold table. rewrite map_map.
  transitivity (nsum (map (fun i => nsum (map (fun x => nsum (map (fun j => (b2n (p i x) * b2n (q j x))%nat) (seq 0 m))) modes)) (seq 0 n))).
  { apply nsum_ext. intros i _. rewrite map_map. unfold cell_of. cbn [snd]. rewrite <- nsum_swap. apply nsum_ext. intros j _. rewrite filter_nsum. apply nsum_ext. intros x _. apply b2n_and. }
  rewrite nsum_swap. apply nsum_ext. intros x _. rewrite (nsum_ext _ (fun i => (nsum (map (fun j => b2n (q j x)) (seq 0 m)) * b2n (p i x))%nat)).
  - rewrite nsum_scale. lia.
  - intros i _. rewrite nsum_scale. lia.
Qed.

(** ** Smallest non-zero and largest value. *)
Definition least (k : R) (l : list R) : Prop := In k l /\ forall y, In y l -> k <= y.
Definition most (k : R) (l : list R) : Prop := In k l /\ forall y, In y l -> y <= k.
Lemma rmin_least : forall l x, least (rmin x l) (x :: l).
Proof.
  induction l as [|a l IH]; intros x; [split; [left; reflexivity|intros y [->|[]]; cbn; lra]|]. unfold rmin in *. cbn [fold_left]. destruct (IH (Rmin x a)) as [I L]. split.
  - destruct I as [I|I]; [|right; right; exact I]. rewrite <- I. unfold Rmin. destruct (Rle_dec x a); [left|right; left]; reflexivity.
  - intros y [<-|[<-|Y]]; [| |apply L; right; exact Y]; eapply Rle_trans; try (apply L; left; reflexivity); [apply Rmin_l|apply Rmin_r].
Qed.
Lemma rmax_most : forall l x, most (rmax x l) (x :: l).
Proof.
  induction l as [|a l IH]; intros x; [split; [left; reflexivity|intros y [->|[]]; cbn; lra]|]. unfold rmax in *. cbn [fold_left]. destruct (IH (Rmax x a)) as [I L]. split.
  - destruct I as [I|I]; [|right; right; exact I]. rewrite <- I. unfold Rmax. destruct (Rle_dec x a); [right; left|left]; reflexivity.
  - intros y [<-|[<-|Y]]; [| |apply L; right; exact Y]; eapply Rle_trans; try (apply L; left; reflexivity); [apply Rmax_l|apply Rmax_r].
Qed.
Lemma nonzero_in : forall k l, In k (nonzero l) <-> In k l /\ k <> 0.
Proof. intros. unfold nonzero. rewrite filter_In. destruct (Req_EM_T k 0); split; intros [A B]; split; auto; try discriminate; contradiction. Qed.
Lemma range_spec : forall l a b, range_of l = Some (a, b) -> least a (nonzero l) /\ most b l.
Proof.
  intros l a b H. unfold range_of in H. destruct (nonzero l) as [|x r] eqn:E; [discriminate|]. destruct l as [|y t]; [discriminate|]. injection H. intros <- <-. split; [apply rmin_least|apply rmax_most].
Qed.
Lemma log10_le : forall a b, 0 < a -> a <= b -> log10 a <= log10 b.
Proof.
  intros a b A B. unfold log10. apply Rmult_le_compat_r; [apply Rlt_le, Rinv_0_lt_compat; rewrite <- ln_1; apply ln_increasing; lra|]. destruct B as [B|B]; [left; apply ln_increasing; assumption|right; congruence].
Qed.
Lemma across_nonneg : forall nu q, 0 <= across nu q.
Proof. intros [|[|]] q; cbn [across]; apply sqrt_pos. Qed.
Lemma par_nonneg : forall nu q, 0 <= par nu q. Proof. intros. apply Rabs_pos. Qed.

(** * Which modes are counted, and how often *)
(** [times]: twice for a mode on an inner edge, once for another. [places a b n x t]. *)
Definition places (lo hi : R) (n : nat) (x : R) (t : nat) : Prop := (on_inner_edge lo hi n x -> t = 2%nat) /\ (~ on_inner_edge lo hi n x -> t = 1%nat).
Lemma hits_axis : forall s l a b n k, (1 <= n)%nat -> (forall y, In y l -> 0 <= y) -> range_of l = Some (a, b) -> edge_of s a < edge_of s b -> In k l ->
  let t := hits (centre (edge_of s a) (edge_of s b) n) (width (edge_of s a) (edge_of s b) n) n (coord s k) in
  (k = 0 -> t = 0%nat) /\ (k <> 0 -> places (edge_of s a) (edge_of s b) n (edge_of s k) t).
Proof.
  intros s l a b n k N P H L K t. destruct (range_spec _ _ _ H) as [[A1 A2] [B1 B2]]. apply nonzero_in in A1. destruct A1 as [A1 A3]. pose proof (P a A1) as A0. assert (A4 : 0 < a) by lra. split; intro Z0; subst t.
  - subst k. destruct s; cbn [coord].
    + destruct (Req_EM_T 0 0); [apply hits_none|contradiction].
    + apply hits_out; [exact N|lra|exact A4].
  - assert (K1 : a <= k) by (apply A2; apply nonzero_in; auto). pose proof (B2 k K) as K2. replace (coord s k) with (Some (edge_of s k)).
    + apply hits_spec; [exact N|exact L|]. destruct s; cbn [edge_of] in *; [split; apply log10_le; lra|lra].
    + destruct s; cbn [coord edge_of]; [|reflexivity]. destruct (Req_EM_T k 0); [contradiction|reflexivity].
Qed.
Theorem C99_counts : forall s nu n m modes r, by_number s nu n m modes = Some r ->
  exists a b c d, least a (nonzero (map (across nu) modes)) /\ most b (map (across nu) modes) /\ least c (nonzero (map (par nu) modes)) /\ most d (map (par nu) modes) /\
  (edge_of s a < edge_of s b -> edge_of s c < edge_of s d ->
   exists t : mode -> nat, total_count r = nsum (map t modes) /\
     forall q, In q modes -> ((across nu q = 0 \/ par nu q = 0) -> t q = 0%nat) /\
       (across nu q <> 0 -> par nu q <> 0 -> exists u v, t q = (u * v)%nat /\ places (edge_of s a) (edge_of s b) n (edge_of s (across nu q)) u /\ places (edge_of s c) (edge_of s d) m (edge_of s (par nu q)) v)).
Proof.
  intros s nu n m modes r H. unfold by_number in H. destruct (Nat.eqb n 0 || Nat.eqb m 0) eqn:NM; [discriminate|]. apply orb_false_iff in NM. destruct NM as [NN MM]. apply Nat.eqb_neq in NN, MM.
  destruct (range_of (map (across nu) modes)) as [[a b]|] eqn:E1; [|discriminate]. destruct (range_of (map (par nu) modes)) as [[c d]|] eqn:E2; [|discriminate].
  exists a, b, c, d. destruct (range_spec _ _ _ E1), (range_spec _ _ _ E2). repeat (split; [assumption|]). intros L1 L2. injection H. intro Hr. subst r.
  eexists. split; [unfold total_count; cbn [ps]; apply table_count|]. intros q Q. cbn beta.
  change ((across nu q = 0 \/ par nu q = 0 -> (hits (centre (edge_of s a) (edge_of s b) n) (width (edge_of s a) (edge_of s b) n) n (coord s (across nu q)) * hits (centre (edge_of s c) (edge_of s d) m) (width (edge_of s c) (edge_of s d) m) m (coord s (par nu q)))%nat = 0%nat) /\
    (across nu q <> 0 -> par nu q <> 0 -> exists u v, (hits (centre (edge_of s a) (edge_of s b) n) (width (edge_of s a) (edge_of s b) n) n (coord s (across nu q)) * hits (centre (edge_of s c) (edge_of s d) m) (width (edge_of s c) (edge_of s d) m) m (coord s (par nu q)))%nat = (u * v)%nat /\ places (edge_of s a) (edge_of s b) n (edge_of s (across nu q)) u /\ places (edge_of s c) (edge_of s d) m (edge_of s (par nu q)) v)).
  assert (P1 : forall y, In y (map (across nu) modes) -> 0 <= y) by (intros y Y; apply in_map_iff in Y; destruct Y as [z [<- _]]; apply across_nonneg).
  assert (P2 : forall y, In y (map (par nu) modes) -> 0 <= y) by (intros y Y; apply in_map_iff in Y; destruct Y as [z [<- _]]; apply par_nonneg).
  destruct (hits_axis s _ a b n (across nu q) ltac:(lia) P1 E1 L1 (in_map _ _ _ Q)) as [A1 A2]. destruct (hits_axis s _ c d m (par nu q) ltac:(lia) P2 E2 L2 (in_map _ _ _ Q)) as [B1 B2].
  split.
  - intros [Z0|Z0]; [rewrite (A1 Z0); reflexivity|rewrite (B1 Z0); lia].
  - intros Z1 Z2. eexists. eexists. split; [reflexivity|]. split; [apply A2, Z1|apply B2, Z2].
Qed.
Print Assumptions C99_counts.

(** ** Each cell: the modes off the axes whose coordinates lie between the two edges, both included. *)
Definition node (lo hi : R) (n i : nat) : R := lo + INR i * (hi - lo) / INR n.
Lemma near_axis : forall s l a b n i k, (1 <= n)%nat -> (forall y, In y l -> 0 <= y) -> range_of l = Some (a, b) -> In k l ->
  near (centre (edge_of s a) (edge_of s b) n i) (width (edge_of s a) (edge_of s b) n) (coord s k) = true <-> k <> 0 /\ node (edge_of s a) (edge_of s b) n i <= edge_of s k <= node (edge_of s a) (edge_of s b) n (S i).
Proof.
  intros s l a b n i k N P H K. destruct (range_spec _ _ _ H) as [[A1 A2] [B1 B2]]. apply nonzero_in in A1. destruct A1 as [A1 A3]. pose proof (P a A1) as A0. pose proof (B2 a A1) as AB.
  assert (L : edge_of s a <= edge_of s b) by (destruct s; cbn [edge_of]; [apply log10_le; lra|lra]).
  assert (E : forall i, edge (edge_of s a) (edge_of s b) n i = node (edge_of s a) (edge_of s b) n i). { intro j. unfold edge, node. field. apply not_0_INR. lia. }
  destruct (Req_EM_T k 0) as [Z0|Z0].
  - split; [|intros [C _]; contradiction]. intro C. exfalso. subst k. destruct s; cbn [coord] in C; [destruct (Req_EM_T 0 0); [discriminate|contradiction]|].
    apply near_edges in C; [|exact L]. cbn [edge_of] in *. unfold edge in C. pose proof (pos_INR i). assert (0 <= (b - a) / INR n) by (apply Rmult_le_pos; [lra|apply Rlt_le, Rinv_0_lt_compat, lt_0_INR; lia]). nra.
  - replace (coord s k) with (Some (edge_of s k)). { rewrite near_edges by exact L. rewrite !E. tauto. } destruct s; cbn [coord edge_of]; [|reflexivity]. destruct (Req_EM_T k 0); [contradiction|reflexivity].
Qed.
Theorem C99_cells : forall s nu n m modes r i j (sel : mode -> bool) a b c d, by_number s nu n m modes = Some r -> (i < n)%nat -> (j < m)%nat ->
  least a (nonzero (map (across nu) modes)) -> most b (map (across nu) modes) -> least c (nonzero (map (par nu) modes)) -> most d (map (par nu) modes) ->
  (forall q, In q modes -> sel q = true <->
     (across nu q <> 0 /\ node (edge_of s a) (edge_of s b) n i <= edge_of s (across nu q) <= node (edge_of s a) (edge_of s b) n (S i)) /\
     (par nu q <> 0 /\ node (edge_of s c) (edge_of s d) m j <= edge_of s (par nu q) <= node (edge_of s c) (edge_of s d) m (S j))) ->
  let chosen := filter sel modes in
  snd (nth j (nth i (ps r) []) (None, 0%nat)) = length chosen /\
  (forall v, fst (nth j (nth i (ps r) []) (None, 0%nat)) = Some v -> v * INR (length chosen) = rsum (map power chosen)).
Proof.
  intros s nu n m modes r i j sel a b c d H I J La Mb Lc Md S0 chosen. unfold by_number in H. destruct (Nat.eqb n 0 || Nat.eqb m 0); [discriminate|].
  destruct (range_of (map (across nu) modes)) as [[a' b']|] eqn:E1; [|discriminate]. destruct (range_of (map (par nu) modes)) as [[c' d']|] eqn:E2; [|discriminate].
  assert (Ul : forall x y l, least x l -> least y l -> x = y) by (intros x y l [X1 X2] [Y1 Y2]; apply Rle_antisym; [apply X2, Y1|apply Y2, X1]).
  assert (Um : forall x y l, most x l -> most y l -> x = y) by (intros x y l [X1 X2] [Y1 Y2]; apply Rle_antisym; [apply Y2, X1|apply X2, Y1]).
  destruct (range_spec _ _ _ E1) as [R1 R2], (range_spec _ _ _ E2) as [R3 R4]. assert (a' = a) by (eapply Ul; eassumption). assert (b' = b) by (eapply Um; eassumption). assert (c' = c) by (eapply Ul; eassumption). assert (d' = d) by (eapply Um; eassumption). subst a' b' c' d'.
  injection H. intro Hr. subst r. cbn [ps]. unfold table. set (f := fun i j : nat => cell_of (fun q : mode => near (centre (edge_of s a) (edge_of s b) n i) (width (edge_of s a) (edge_of s b) n) (coord s (across nu q)) && near (centre (edge_of s c) (edge_of s d) m j) (width (edge_of s c) (edge_of s d) m) (coord s (par nu q))) modes).
  assert (G : nth j (nth i (map (fun i => map (f i) (seq 0 m)) (seq 0 n)) []) (None, 0%nat) = f i j).
  { rewrite (nth_indep _ [] (map (f 0%nat) (seq 0 m))) by (rewrite map_length, seq_length; exact I). rewrite (map_nth (fun i => map (f i) (seq 0 m))), seq_nth by exact I. rewrite (nth_indep _ (None, 0%nat) (f (0 + i)%nat 0%nat)) by (rewrite map_length, seq_length; exact J). rewrite (map_nth (f (0 + i)%nat)), seq_nth by exact J. reflexivity. }
  change (snd (nth j (nth i (map (fun i => map (f i) (seq 0 m)) (seq 0 n)) []) (None, 0%nat)) = length chosen /\ (forall v, fst (nth j (nth i (map (fun i => map (f i) (seq 0 m)) (seq 0 n)) []) (None, 0%nat)) = Some v -> v * INR (length chosen) = rsum (map power chosen))).
  rewrite G. unfold f, cell_of. cbn [fst snd].
  assert (P1 : forall y, In y (map (across nu) modes) -> 0 <= y) by (intros y Y; apply in_map_iff in Y; destruct Y as [z [<- _]]; apply across_nonneg).
  assert (P2 : forall y, In y (map (par nu) modes) -> 0 <= y) by (intros y Y; apply in_map_iff in Y; destruct Y as [z [<- _]]; apply par_nonneg).
  match goal with |- context [filter ?g modes] => assert (F : filter g modes = chosen) end.
  { apply filter_ext_in. intros q Q. apply eq_true_iff_eq. rewrite andb_true_iff. rewrite (S0 q Q). rewrite (near_axis s _ a b n i (across nu q) ltac:(lia) P1 E1 (in_map _ _ _ Q)), (near_axis s _ c d m j (par nu q) ltac:(lia) P2 E2 (in_map _ _ _ Q)). tauto. }
  rewrite F. split; [reflexivity|]. intros v V. destruct chosen as [|x l] eqn:C; [discriminate|]. injection V. intros <-. unfold Rdiv. rewrite Rmult_assoc, Rinv_l; [apply Rmult_1_r|]. apply not_0_INR. cbn. lia.
Qed.
Print Assumptions C99_cells.

(** * The values *)
(** A cell is the mean of its modes: within their range, and undefined exactly if it has none. *)
Definition cells_of (r : result) : list (option R * nat) := concat (ps r).
Lemma cell_bounds : forall sel modes lo hi, (forall q, In q modes -> lo <= power q <= hi) ->
  match fst (cell_of sel modes) with Some v => (1 <= snd (cell_of sel modes))%nat /\ lo <= v <= hi | None => snd (cell_of sel modes) = 0%nat end.
Proof.
  intros sel modes lo hi H. unfold cell_of. cbn [fst snd]. assert (F : forall q, In q (filter sel modes) -> lo <= power q <= hi) by (intros q Q; apply filter_In in Q; apply H; tauto).
  destruct (filter sel modes) as [|x l] eqn:E; [reflexivity|]. split; [cbn; lia|]. set (y := x :: l) in *. assert (N : 0 < INR (length y)) by (apply lt_0_INR; cbn; lia).
  assert (A : INR (length y) * lo <= rsum (map power y)). { rewrite <- rsum_const. apply rsum_le. intros; apply F; assumption. }
  assert (B : rsum (map power y) <= INR (length y) * hi). { rewrite <- rsum_const. apply rsum_le. intros; apply F; assumption. }
  split; [apply (Rmult_le_reg_r (INR (length y))); [exact N|]|apply (Rmult_le_reg_r (INR (length y))); [exact N|]]; unfold Rdiv; rewrite Rmult_assoc, Rinv_l, Rmult_1_r by lra; lra.
Qed.
Theorem C99_averages : forall s nu n m modes r lo hi, by_number s nu n m modes = Some r -> (forall q, In q modes -> lo <= power q <= hi) ->
  length (ps r) = n /\ length (kper r) = n /\ length (kpar r) = m /\ Forall (fun row => length row = m) (ps r) /\
  Forall (fun c => match fst c with Some v => (1 <= snd c)%nat /\ lo <= v <= hi | None => snd c = 0%nat end) (cells_of r).
Proof.
  intros s nu n m modes r lo hi H B. unfold by_number in H. destruct (Nat.eqb n 0 || Nat.eqb m 0); [discriminate|]. destruct (range_of (map (across nu) modes)) as [[a b]|]; [|discriminate]. destruct (range_of (map (par nu) modes)) as [[c d]|]; [|discriminate].
  injection H. intros <-. cbn [ps kper kpar]. unfold table. rewrite !map_length, !seq_length. repeat (split; [reflexivity|]). split.
  - apply Forall_forall. intros row I. apply in_map_iff in I. destruct I as [i [<- _]]. rewrite map_length, seq_length. reflexivity.
  - apply Forall_forall. intros x I. apply in_concat in I. destruct I as [row [I J]]. cbn [ps] in I. apply in_map_iff in I. destruct I as [i [<- _]]. apply in_map_iff in J. destruct J as [j [<- _]]. apply cell_bounds. exact B.
Qed.
Print Assumptions C99_averages.
(** The centres returned are the middles of the bins, evenly spaced in the coordinate that is binned. *)
Lemma edge_back : forall s x, edge_of s (back s x) = x.
Proof.
  intros [] x; cbn [edge_of back]; [|reflexivity]. unfold log10, Rpower. rewrite ln_exp. field. assert (ln 1 < ln 10) by (apply ln_increasing; lra). rewrite ln_1 in *. lra.
Qed.
Theorem C99_centres : forall s nu n m modes r, by_number s nu n m modes = Some r ->
  exists a b c d, least a (nonzero (map (across nu) modes)) /\ most b (map (across nu) modes) /\ least c (nonzero (map (par nu) modes)) /\ most d (map (par nu) modes) /\
  (forall i, (i < n)%nat -> edge_of s (nth i (kper r) 0) = edge_of s a + (2 * INR i + 1) * (edge_of s b - edge_of s a) / (2 * INR n)) /\
  (forall j, (j < m)%nat -> edge_of s (nth j (kpar r) 0) = edge_of s c + (2 * INR j + 1) * (edge_of s d - edge_of s c) / (2 * INR m)).
Proof.
  intros s nu n m modes r H. unfold by_number in H. destruct (Nat.eqb n 0 || Nat.eqb m 0) eqn:NM; [discriminate|]. apply orb_false_iff in NM. destruct NM as [NN MM]. apply Nat.eqb_neq in NN, MM. destruct (range_of (map (across nu) modes)) as [[a b]|] eqn:E; [|discriminate]. destruct (range_of (map (par nu) modes)) as [[c d]|] eqn:F; [|discriminate].
  exists a, b, c, d. destruct (range_spec _ _ _ E), (range_spec _ _ _ F). repeat (split; [assumption|]). injection H. intro Hr. subst r. cbn [kper kpar].
  assert (G : forall lo hi n i, n <> 0%nat -> (i < n)%nat -> edge_of s (nth i (map (fun i => back s (centre lo hi n i)) (seq 0 n)) 0) = lo + (2 * INR i + 1) * (hi - lo) / (2 * INR n)).
  { intros lo hi k i K I. rewrite (nth_indep _ 0 (back s (centre lo hi k 0))) by (rewrite map_length, seq_length; exact I). rewrite (map_nth (fun i => back s (centre lo hi k i))), seq_nth by exact I. rewrite edge_back. unfold centre, edge. rewrite S_INR. cbn [Nat.add]. field. apply not_0_INR. exact K. }
  split; intros; apply G; assumption.
Qed.
Print Assumptions C99_centres.

(** * The line-of-sight axis *)
Definition swap02 (q : mode) : mode := Mode (kz q) (ky q) (kx q) (power q).
Definition swap12 (q : mode) : mode := Mode (kx q) (kz q) (ky q) (power q).
Lemma cell_map : forall f sel modes, (forall q, power (f q) = power q) -> cell_of sel (map f modes) = cell_of (fun q => sel (f q)) modes.
Proof.
  intros f sel modes P. unfold cell_of. assert (E : filter sel (map f modes) = map f (filter (fun q => sel (f q)) modes)). { induction modes; [reflexivity|]. cbn [map filter]. destruct (sel (f a)); cbn [map]; rewrite IHmodes; reflexivity. }
  rewrite E, map_length, map_map. rewrite (map_ext (fun x => power (f x)) power) by exact P. destruct (filter (fun q => sel (f q)) modes); reflexivity.
Qed.
Lemma by_number_map : forall s nu nu' n m f modes, (forall q, power (f q) = power q) -> (forall q, across nu' (f q) = across nu q) -> (forall q, par nu' (f q) = par nu q) ->
  by_number s nu' n m (map f modes) = by_number s nu n m modes.
Proof.
  intros s nu nu' n m f modes P A B. unfold by_number. rewrite !map_map. rewrite (map_ext (fun x => across nu' (f x)) (across nu)) by exact A. rewrite (map_ext (fun x => par nu' (f x)) (par nu)) by exact B.
  destruct (Nat.eqb n 0 || Nat.eqb m 0); [reflexivity|]. destruct (range_of (map (across nu) modes)) as [[a b]|]; [|reflexivity]. destruct (range_of (map (par nu) modes)) as [[c d]|]; [|reflexivity].
  apply f_equal. apply (f_equal (fun t => Result t _ _)). unfold table. apply map_ext. intro i. apply map_ext. intro j. rewrite cell_map by exact P. unfold cell_of.
  rewrite (filter_ext (fun q => near _ _ (coord s (across nu' (f q))) && near _ _ (coord s (par nu' (f q)))) (fun q => near (centre (edge_of s a) (edge_of s b) n i) (width (edge_of s a) (edge_of s b) n) (coord s (across nu q)) && near (centre (edge_of s c) (edge_of s d) m j) (width (edge_of s c) (edge_of s d) m) (coord s (par nu q)))); [reflexivity|].
  intro q. rewrite A, B. reflexivity.
Qed.
Theorem C99_axis : forall s n m modes, by_number s 2 n m (map swap02 modes) = by_number s 0 n m modes /\ by_number s 2 n m (map swap12 modes) = by_number s 1 n m modes.
Proof.
  intros. split; apply by_number_map; try reflexivity. intro q. cbn [across swap02 kx ky kz]. apply (f_equal sqrt). ring.
Qed.
Print Assumptions C99_axis.

(** * Explicit edges *)
(** One row and one column too many, always undefined. *)
Theorem C99_edges_shape : forall nu per pa modes r, by_edges nu per pa modes = Some r ->
  length (ps r) = S (length (kper r)) /\ Forall (fun row => length row = S (length (kpar r))) (ps r) /\
  (forall j, nth j (nth (length (kper r)) (ps r) []) (None, 0%nat) = (None, 0%nat)) /\ (forall i, nth (length (kpar r)) (nth i (ps r) []) (None, 0%nat) = (None, 0%nat)).
Proof.
  intros nu per pa modes r H. unfold by_edges in H. destruct (Nat.leb_spec 2 (length per)) as [P|P]; [|discriminate]. destruct (Nat.leb_spec 2 (length pa)) as [Q|Q]; [|discriminate]. injection H. intros <-. cbn [ps kper kpar].
  unfold table. rewrite !map_length, !seq_length. split; [lia|]. split.
  { apply Forall_forall. intros row I. apply in_map_iff in I. destruct I as [i [<- _]]. rewrite map_length, seq_length. lia. }
  assert (G : forall (f : nat -> nat -> option R * nat) n m i j, (i < n -> j < m -> f i j = (None, 0))%nat -> nth j (nth i (map (fun i => map (f i) (seq 0 m)) (seq 0 n)) []) (None, 0%nat) = (None, 0%nat)).
  { intros f n m i j F. destruct (lt_dec i n) as [I|I]; [|rewrite (nth_overflow _ [] (n := i)) by (rewrite map_length, seq_length; lia); destruct j; reflexivity].
    rewrite (nth_indep _ [] (map (f 0%nat) (seq 0 m))) by (rewrite map_length, seq_length; exact I). rewrite (map_nth (fun i => map (f i) (seq 0 m))), seq_nth by exact I. cbn [Nat.add].
    destruct (lt_dec j m) as [J|J]; [|rewrite nth_overflow by (rewrite map_length, seq_length; lia); reflexivity]. rewrite (nth_indep _ (None, 0%nat) (f i 0%nat)) by (rewrite map_length, seq_length; exact J). rewrite (map_nth (f i)), seq_nth by exact J. apply F; assumption. }
  split; [intro j|intro i]; apply G; intros I J.
  - rewrite (proj2 (Nat.ltb_ge (length per - 1) (length per - 1)) (le_n _)). reflexivity.
  - rewrite (proj2 (Nat.ltb_ge (length pa - 1) (length pa - 1)) (le_n _)). rewrite andb_false_r. reflexivity.
Qed.
Print Assumptions C99_edges_shape.
(** Every bin has the width of the first: modes of a wider second bin are lost, though they lie between its edges. *)
Theorem C99_edges_refuted : forall e0 e1 e2 pa nu q, e0 < e1 -> 2 <= INR (length pa) -> e1 < across nu q -> across nu q < (e1 + e2) / 2 - (e1 - e0) / 2 ->
  e1 < across nu q < e2 /\ exists r, by_edges nu [e0; e1; e2] pa [q] = Some r /\ total_count r = 0%nat.
Proof.
  intros e0 e1 e2 pa nu q H P A B. split; [lra|]. assert (L : (2 <= length pa)%nat) by (apply INR_le; exact P). unfold by_edges. change (length [e0; e1; e2]) with 3%nat. rewrite (proj2 (Nat.leb_le 2 (length pa)) L). cbn [Nat.leb andb]. eexists. split; [reflexivity|].
  unfold total_count. cbn [ps]. unfold table. rewrite map_map. cbn [seq].
  assert (G : forall i, (i < 3)%nat -> forall l, nsum (map snd (map (fun j => if (Nat.ltb i (3 - 1) && Nat.ltb j (length pa - 1))%bool then cell_of (fun q => near (mid_of [e0; e1; e2] i) (nth 1 [e0; e1; e2] 0 - nth 0 [e0; e1; e2] 0) (Some (across nu q)) && near (mid_of pa j) (nth 1 pa 0 - nth 0 pa 0) (Some (par nu q))) [q] else (None, 0%nat)) l)) = 0%nat).
  { intros i I l. induction l as [|j l IH]; [reflexivity|]. cbn [map nsum fold_right] in *. fold (nsum (map snd (map (fun j => if (Nat.ltb i (3 - 1) && Nat.ltb j (length pa - 1))%bool then cell_of (fun q => near (mid_of [e0; e1; e2] i) (nth 1 [e0; e1; e2] 0 - nth 0 [e0; e1; e2] 0) (Some (across nu q)) && near (mid_of pa j) (nth 1 pa 0 - nth 0 pa 0) (Some (par nu q))) [q] else (None, 0%nat)) l))). rewrite IH.
    destruct (Nat.ltb i (3 - 1) && Nat.ltb j (length pa - 1)) eqn:E; [|reflexivity]. apply andb_true_iff in E. destruct E as [E _]. apply Nat.ltb_lt in E. unfold cell_of. cbn [filter snd].
    assert (F : near (mid_of [e0; e1; e2] i) (nth 1 [e0; e1; e2] 0 - nth 0 [e0; e1; e2] 0) (Some (across nu q)) = false).
    { apply not_true_iff_false. unfold near. rewrite rleb_spec. unfold mid_of. destruct i as [|[|i]]; [| |cbn in E; lia]; cbn [nth]; unfold Rabs; destruct (Rcase_abs _); lra. }
    rewrite F. reflexivity. }
  cbn [map nsum fold_right]. rewrite !G by lia. reflexivity.
Qed.
Print Assumptions C99_edges_refuted.

(** * Calls that fail, and the caller's array *)
Theorem C99_raises : forall spectrum d w b binning nu table_window phase scale,
  snd (power_spect_2d spectrum d (Table table_window) b binning nu) = None /\ snd (power_spect_2d spectrum d w OtherNumber binning nu) = None /\
  (forall n m, snd (power_spect_2d spectrum d w (Ints n m) None nu) = None) /\ phase_call phase scale = None.
Proof. intros. unfold power_spect_2d. destruct (fast_window d w) eqn:E; cbn; repeat split; reflexivity. Qed.
Print Assumptions C99_raises.
(** A named taper is applied once more in every call. *)
Theorem C99_taper_stays : forall spectrum d b binning nu i, floating d = true -> (3 <= length (dims d))%nat ->
  let d1 := fst (power_spect_2d spectrum d (Name "Tukey") b binning nu) in let d2 := fst (power_spect_2d spectrum d1 (Name "tukey") b binning nu) in
  content d2 i = content d i * tukey (last (dims d) 0%nat) (last i 0%nat) ^ 2 /\
  content (fst (power_spect_2d spectrum d (Name "BlackmanHarris") b binning nu)) i = content d i * blackmanharris (last (dims d) 0%nat) (last i 0%nat).
Proof.
  intros spectrum d b binning nu i F L. split.
  2: { unfold power_spect_2d, fast_window. change (lower "BlackmanHarris") with "blackmanharris"%string. change (String.eqb "blackmanharris" "blackmanharris") with true. unfold multiply. rewrite F, (proj2 (Nat.leb_le 3 _) L). reflexivity. }
  unfold power_spect_2d, fast_window. change (lower "Tukey") with "tukey"%string. change (lower "tukey") with "tukey"%string. change (String.eqb "tukey" "blackmanharris") with false. change (String.eqb "tukey" "tukey") with true. unfold multiply. rewrite F, (proj2 (Nat.leb_le 3 _) L). cbn [andb fst floating dims content]. rewrite (proj2 (Nat.leb_le 3 _) L). cbn [andb fst content]. unfold last_axis. ring.
Qed.
Print Assumptions C99_taper_stays.
(** * [dimensional_power] *)
Theorem C99_dimensional : forall spectrum i p k, nth_error spectrum i = Some (Some p, k) ->
  exists v, nth_error (dimensional_power spectrum) i = Some (Some v, k) /\ v * (2 * PI ^ 2) = p * k ^ 3.
Proof.
  intros spectrum i p k H. unfold dimensional_power. erewrite map_nth_error by exact H. cbn [fst snd option_map]. eexists. split; [reflexivity|]. field. apply PI_neq0.
Qed.
Print Assumptions C99_dimensional.

(** * Instance: two modes inside, one on an inner edge, one on the axis. *)
Example C99_sat : exists r, by_number Linear 2 2 1 [Mode 1 0 1 5; Mode 2 0 1 7; Mode 3 0 2 9; Mode 0 0 1 4] = Some r /\ total_count r = 4%nat /\ on_inner_edge 1 3 2 2.
Proof.
  assert (S0 : forall x, 0 <= x -> sqrt (x ^ 2 + 0 ^ 2) = x). { intros x X. replace (x ^ 2 + 0 ^ 2) with (x * x) by ring. apply sqrt_square. exact X. }
  assert (ON : on_inner_edge 1 3 2 2). { exists 1%nat. split; [lia|]. cbn. lra. }
  assert (R1 : range_of (map (across 2) [Mode 1 0 1 5; Mode 2 0 1 7; Mode 3 0 2 9; Mode 0 0 1 4]) = Some (1, 3)).
  { cbn [map across kx ky kz]. rewrite !S0 by lra. unfold range_of, nonzero. cbn [filter]. repeat (destruct (Req_EM_T _ _); [lra|]). destruct (Req_EM_T 0 0); [|contradiction]. unfold rmin, rmax. cbn [fold_left]. rewrite (Rmin_left 1 2), (Rmin_left 1 3), (Rmax_right 1 2), (Rmax_right 2 3), (Rmax_left 3 0) by lra. reflexivity. }
  assert (R2 : range_of (map (par 2) [Mode 1 0 1 5; Mode 2 0 1 7; Mode 3 0 2 9; Mode 0 0 1 4]) = Some (1, 2)).
  { unfold par. cbn [map along kz]. rewrite !(Rabs_pos_eq 1), !(Rabs_pos_eq 2) by lra. unfold range_of, nonzero. cbn [filter]. repeat (destruct (Req_EM_T _ _); [lra|]). unfold rmin, rmax. cbn [fold_left]. rewrite (Rmin_left 1 1), (Rmin_left 1 2), (Rmin_left 1 1), (Rmax_left 1 1), (Rmax_right 1 2), (Rmax_left 2 1) by lra. reflexivity. }
  destruct (by_number Linear 2 2 1 [Mode 1 0 1 5; Mode 2 0 1 7; Mode 3 0 2 9; Mode 0 0 1 4]) as [r|] eqn:E; [|unfold by_number in E; rewrite R1, R2 in E; cbn in E; discriminate].
  exists r. split; [reflexivity|]. split; [|exact ON]. unfold by_number in E. rewrite R1, R2 in E. cbn [Nat.eqb orb] in E. injection E. intro Hr. subst r. unfold total_count. cbn [ps]. rewrite table_count.
  assert (H1 : forall x, 1 <= x <= 3 -> x <> 2 -> hits (centre 1 3 2) (width 1 3 2) 2 (Some x) = 1%nat).
  { intros x X N. apply (hits_spec 1 3 2 x ltac:(lia) ltac:(lra) X). intros [j [J1 J2]]. assert (j = 1)%nat by lia. subst j. cbn in J2. lra. }
  assert (H2 : hits (centre 1 3 2) (width 1 3 2) 2 (Some 2) = 2%nat) by (apply (hits_spec 1 3 2 2); [lia|lra|lra|exact ON]).
  assert (H3 : forall x, 1 <= x <= 2 -> hits (centre 1 2 1) (width 1 2 1) 1 (Some x) = 1%nat).
  { intros x X. apply (hits_spec 1 2 1 x ltac:(lia) ltac:(lra) X). intros [j [J1 J2]]. lia. }
  assert (H4 : hits (centre 1 3 2) (width 1 3 2) 2 (Some 0) = 0%nat) by (apply hits_out; [lia|lra|lra]).
  transitivity (nsum (map (fun q => (hits (centre 1 3 2) (width 1 3 2) 2 (Some (across 2 q)) * hits (centre 1 2 1) (width 1 2 1) 1 (Some (par 2 q)))%nat) [Mode 1 0 1 5; Mode 2 0 1 7; Mode 3 0 2 9; Mode 0 0 1 4])); [reflexivity|].
  cbn [map]. unfold par. cbn [across along kx ky kz]. rewrite !S0 by lra. rewrite !(Rabs_pos_eq 1), !(Rabs_pos_eq 2) by lra.
  rewrite H2, H4, !H1, !H3 by lra. reflexivity.
Qed.
