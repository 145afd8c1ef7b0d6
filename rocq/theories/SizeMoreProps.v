(** More of C32: the edges of the size distributions and the entries of [get_distribution]. *)
From Coq Require Import List Arith ZArith Reals Bool Lia Lra.
From Verif Require Import RLib SizeDistModel SizeDistSpec SizeDistProps.
Import ListNotations.
Local Open Scope R_scope.

Lemma edges_step : forall n x l i, (1 <= n)%nat -> (i < n)%nat ->
  let e := outer_edges x l in let edges := snd (histogram n x l) in
  length edges = S n /\ nth (S i) edges 0 = nth i edges 0 + (snd e - fst e) / INR n /\ 0 < (snd e - fst e) / INR n.
Proof.
  intros n x l i Hn Hi. cbv zeta. unfold histogram. cbn [snd]. destruct (outer_spec x l) as [O _].
  split; [unfold linspace_edges; now rewrite map_length, seq_length|]. split.
  - rewrite !edge_nth by lia. rewrite S_INR. ring.
  - apply Rdiv_lt_0_compat; [lra|]. apply lt_0_INR. lia.
Qed.

(** The edges of both curves grow by a constant factor above 1, also if all volumes are equal. *)
Theorem C32_geometric : forall v vs res n null V PV Rr PR, 0 < res -> (1 <= n)%nat ->
  dist_from_volumes v vs res n null = (V, PV, Rr, PR) ->
  exists p q, 1 < p /\ 1 < q /\ 0 < nth 0 V 0 /\ 0 < nth 0 Rr 0 /\
    forall i, (i < n)%nat -> nth (S i) V 0 = p * nth i V 0 /\ nth (S i) Rr 0 = q * nth i Rr 0.
Proof.
  intros v vs res n null V PV Rr PR Hr Hn E. unfold dist_from_volumes in E.
  assert (EV : map (fun e => pow10 e * res ^ 3) (snd (histogram n (log10 v) (map log10 vs))) = V)
    by (apply (f_equal (fun q => fst (fst (fst q)))) in E; exact E).
  assert (ER : map (fun e => pow10 e * res) (snd (histogram n (log10 (radius_of v)) (map (fun u => log10 (radius_of u)) vs))) = Rr)
    by (apply (f_equal (fun q => snd (fst q))) in E; exact E).
  clear E.
  assert (G : forall x l s, 0 < s -> exists p, 1 < p /\ 0 < nth 0 (map (fun e => pow10 e * s) (snd (histogram n x l))) 0 /\
     forall i, (i < n)%nat -> nth (S i) (map (fun e => pow10 e * s) (snd (histogram n x l))) 0 = p * nth i (map (fun e => pow10 e * s) (snd (histogram n x l))) 0).
  { intros x l s Hs. exists (pow10 ((snd (outer_edges x l) - fst (outer_edges x l)) / INR n)).
    assert (L : forall i, (i <= n)%nat -> nth i (map (fun e => pow10 e * s) (snd (histogram n x l))) 0 = pow10 (nth i (snd (histogram n x l)) 0) * s).
    { intros i Hi. destruct (edges_step n x l 0 Hn ltac:(lia)) as [Le _].
      rewrite (nth_indep _ 0 (pow10 0 * s)) by (rewrite map_length, Le; lia). apply (map_nth (fun e => pow10 e * s)). }
    split; [|split].
    - destruct (edges_step n x l 0 Hn ltac:(lia)) as [_ [_ P]]. replace 1 with (pow10 0) by (unfold pow10; apply Rpower_O; lra).
      apply (proj1 (pow10_lt _ _)). exact P.
    - rewrite L by lia. apply Rmult_lt_0_compat; [apply pow10_pos|exact Hs].
    - intros i Hi. rewrite !L by lia. destruct (edges_step n x l i Hn Hi) as [_ [-> _]]. unfold pow10. rewrite Rpower_plus. ring. }
  destruct (G (log10 v) (map log10 vs) (res ^ 3)) as (p & P1 & P2 & P3); [apply pow_lt; exact Hr|].
  destruct (G (log10 (radius_of v)) (map (fun u => log10 (radius_of u)) vs) res Hr) as (q & Q1 & Q2 & Q3).
  rewrite EV in P2, P3. rewrite ER in Q2, Q3. exists p, q. auto 8.
Qed.
Print Assumptions C32_geometric.
Example C32_geometric_sat : exists (v : R) (vs : list R) (res : R) (n : nat) (null : option R) (V : list R) (PV : list R) (Rr : list R) (PR : list R), 0 < res /\ (1 <= n)%nat /\ dist_from_volumes v vs res n null = (V, PV, Rr, PR).
Proof. destruct (dist_from_volumes 8 [27; 8; 64] (1/2) 5 None) as [[[V PV] Rr] PR] eqn:E. exists 8, [27; 8; 64], (1/2), 5%nat, None, V, PV, Rr, PR.
split; [lra|]. split; [lia|exact E]. Qed.

Lemma population_ln : forall n edges i l s, (S i < length edges)%nat -> 0 < s -> (forall u, In u l -> 0 < u) ->
  length (filter (in_bin n edges i) (map ln l)) = population (map (fun e => exp e * s) edges) n i (map (fun u => u * s) l).
Proof.
  intros n edges i l s Hi Hs H. unfold population, count_in.
  rewrite !(nth_indep (map _ edges) 0 (exp 0 * s)) by (rewrite map_length; lia).
  rewrite !(map_nth (fun e => exp e * s)).
  induction l as [|u l IH]; [reflexivity|]. cbn [map filter].
  assert (Hu : 0 < u) by (apply H; left; auto).
  assert (LT : forall a, a < ln u <-> exp a * s < u * s).
  { intros a. rewrite <- (exp_ln u Hu) at 2. split; intro K.
    - apply Rmult_lt_compat_r; [exact Hs|]. now apply exp_increasing.
    - apply Rmult_lt_reg_r in K; [|exact Hs]. now apply exp_lt_inv. }
  assert (GT : forall a, ln u < a <-> u * s < exp a * s).
  { intros a. rewrite <- (exp_ln u Hu) at 2. split; intro K.
    - apply Rmult_lt_compat_r; [exact Hs|]. now apply exp_increasing.
    - apply Rmult_lt_reg_r in K; [|exact Hs]. now apply exp_lt_inv. }
  assert (E : in_bin n edges i (ln u) =
    (if Rle_dec (exp (nth i edges 0) * s) (u * s) then
       if Nat.eqb (S i) n then (if Rle_dec (u * s) (exp (nth (S i) edges 0) * s) then true else false)
       else (if Rlt_dec (u * s) (exp (nth (S i) edges 0) * s) then true else false)
     else false)).
  { unfold in_bin. destruct (Rle_dec (nth i edges 0) (ln u)) as [A|A], (Rle_dec (exp (nth i edges 0) * s) (u * s)) as [B|B]; cbn [andb].
    - destruct (Nat.eqb (S i) n).
      + destruct (Rle_dec (ln u) (nth (S i) edges 0)) as [C|C], (Rle_dec (u * s) (exp (nth (S i) edges 0) * s)) as [D|D]; auto; exfalso.
        * apply D. apply Rnot_lt_le. intro K. apply LT in K. lra.
        * apply C. apply Rnot_lt_le. intro K. apply LT in K. lra.
      + destruct (Rlt_dec (ln u) (nth (S i) edges 0)) as [C|C], (Rlt_dec (u * s) (exp (nth (S i) edges 0) * s)) as [D|D]; auto; exfalso.
        * apply D. now apply GT.
        * apply C. now apply GT.
    - exfalso. apply B. apply Rnot_lt_le. intro K. apply GT in K. lra.
    - exfalso. apply A. apply Rnot_lt_le. intro K. apply GT in K. lra.
    - reflexivity. }
  rewrite E. specialize (IH (fun w Hw => H w (or_intror Hw))).
  match goal with |- context [if ?c then ln u :: _ else _] => destruct c end; cbn [length]; rewrite IH; reflexivity.
Qed.

(** [get_distribution]: entry i of the curve is the fraction of the labels whose volume is in
    bin i, the last entry is 0; the edges grow by a constant factor, and from the smallest to
    the largest volume unless all are equal. *)
Theorem C32_distribution_bins : forall array res n sizes dist vols, (1 <= n)%nat -> 0 < res ->
  get_distribution array res n = Some (sizes, dist, vols) ->
  length vols = S n /\ nth n dist 0 = 0 /\
  (forall i, (i < n)%nat -> nth i dist 0 = INR (population vols n i (map (fun s => INR s * res) sizes)) / INR (length sizes)) /\
  (exists p, 1 < p /\ forall i, (i < n)%nat -> nth (S i) vols 0 = p * nth i vols 0) /\
  ((exists s t, In s sizes /\ In t sizes /\ s <> t) ->
   exists s t, In s sizes /\ In t sizes /\ (forall u, In u sizes -> (s <= u <= t)%nat) /\ nth 0 vols 0 = INR s * res /\ nth n vols 0 = INR t * res).
Proof.
  intros array res n sizes dist vols Hn Hr H. unfold get_distribution in H.
  destruct (existsb (Nat.eqb 0) (label_sizes array)) eqn:X; [discriminate|].
  destruct (map (fun s => ln (INR s)) (label_sizes array)) as [|x l] eqn:Q; [discriminate|].
  set (h := histogram n x l) in H. assert (E1 : label_sizes array = sizes) by congruence.
  assert (E2 : map (fun c => c / rsum (map INR (fst h) ++ [0])) (map INR (fst h) ++ [0]) = dist) by congruence.
  assert (E3 : map (fun e => exp e * res) (snd h) = vols) by congruence. clear H.
  assert (Pos : forall s, In s sizes -> 0 < INR s).
  { intros s Hs. rewrite <- E1 in Hs. apply lt_0_INR. destruct s; [|lia]. exfalso.
    assert (existsb (Nat.eqb 0) (label_sizes array) = true) by (apply existsb_exists; exists 0%nat; auto). congruence. }
  rewrite E1 in Q.
  assert (ML : map ln (map INR sizes) = x :: l) by (rewrite map_map; exact Q).
  destruct (edges_step n x l 0 Hn ltac:(lia)) as [LE _]. fold h in LE.
  assert (LC : length (fst h) = n) by (unfold h, histogram; cbn [fst]; now rewrite map_length, seq_length).
  assert (LS : length sizes = length (x :: l)) by (rewrite <- Q, map_length; reflexivity).
  assert (S1 : forall u, rsum (map INR u ++ [0]) = INR (list_sum u)).
  { intros u. rewrite rsum_app. replace (rsum [0]) with 0 by (cbn; ring).
    induction u as [|a u IH]; [cbn; ring|]. unfold list_sum, rsum in *. simpl. rewrite plus_INR. simpl in IH. lra. }
  assert (NP : 0 < INR (length (x :: l))) by (apply lt_0_INR; cbn; lia).
  assert (T : rsum (map INR (fst h) ++ [0]) = INR (length (x :: l))) by (rewrite S1; unfold h; now rewrite histogram_total).
  rewrite T in E2.
  assert (VN : forall i, (i <= n)%nat -> nth i vols 0 = exp (nth i (snd h) 0) * res).
  { intros i Hi. rewrite <- E3. rewrite (nth_indep _ 0 (exp 0 * res)) by (rewrite map_length, LE; lia). apply (map_nth (fun e => exp e * res)). }
  split; [rewrite <- E3, map_length; exact LE|]. split; [|split; [|split]].
  - rewrite <- E2. rewrite (nth_indep _ 0 (0 / INR (length (x :: l)))) by (rewrite map_length, app_length, map_length, LC; cbn; lia).
    rewrite (map_nth (fun c => c / INR (length (x :: l)))), app_nth2 by (rewrite map_length, LC; lia).
    rewrite map_length, LC, Nat.sub_diag. cbn [nth]. field. lra.
  - intros i Hi. rewrite <- E2. rewrite (nth_indep _ 0 (0 / INR (length (x :: l)))) by (rewrite map_length, app_length, map_length, LC; cbn; lia).
    rewrite (map_nth (fun c => c / INR (length (x :: l)))), app_nth1 by (rewrite map_length, LC; exact Hi).
    rewrite LS. f_equal. rewrite (nth_indep _ 0 (INR 0)) by (rewrite map_length, LC; exact Hi). rewrite map_nth. f_equal.
    rewrite <- E3. replace (map (fun s => INR s * res) sizes) with (map (fun u => u * res) (map INR sizes)) by (rewrite map_map; reflexivity).
    rewrite <- population_ln; [|rewrite LE; lia|exact Hr|].
    2:{ intros u Hu. apply in_map_iff in Hu as (s & <- & Hs). auto. }
    rewrite ML. unfold h, histogram. cbn [fst snd]. set (edges := linspace_edges n _ _).
    set (F := fun i => length (filter (in_bin n edges i) (x :: l))).
    rewrite (nth_indep _ 0%nat (F 0%nat)) by (rewrite map_length, seq_length; exact Hi). rewrite (map_nth F), seq_nth by exact Hi. reflexivity.
  - exists (exp ((snd (outer_edges x l) - fst (outer_edges x l)) / INR n)). split.
    + destruct (edges_step n x l 0 Hn ltac:(lia)) as [_ [_ P]]. rewrite <- exp_0. now apply exp_increasing.
    + intros i Hi. rewrite !VN by lia. destruct (edges_step n x l i Hn Hi) as [_ [Es _]]. fold h in Es. rewrite Es, exp_plus. ring.
  - intros (s0 & t0 & Hs0 & Ht0 & Ne).
    assert (IX : forall s, In s sizes -> In (ln (INR s)) (x :: l)) by (intros s Hs; rewrite <- Q; apply (in_map (fun s => ln (INR s))); exact Hs).
    pose proof (rmin_in l x) as I1. pose proof (rmax_in l x) as I2. rewrite <- Q in I1, I2.
    apply in_map_iff in I1 as (s & A1 & A2). apply in_map_iff in I2 as (t & B1 & B2).
    assert (Mono : forall a b, In a sizes -> In b sizes -> ln (INR a) <= ln (INR b) -> (a <= b)%nat).
    { intros a b Ha Hb K. apply INR_le. apply Rnot_lt_le. intro C. apply ln_increasing in C; [lra|auto]. }
    assert (B : forall u, In u sizes -> (s <= u <= t)%nat).
    { intros u Hu. split; apply Mono; auto; [rewrite A1; apply rmin_le|rewrite B1; apply rmax_ge]; auto. }
    exists s, t. split; [exact A2|]. split; [exact B2|]. split; [exact B|].
    assert (O : outer_edges x l = (ln (INR s), ln (INR t))).
    { unfold outer_edges. rewrite <- A1, <- B1. destruct (Req_EM_T (ln (INR s)) (ln (INR t))) as [K|]; [exfalso|reflexivity].
      assert ((s <= t)%nat /\ (t <= s)%nat) by (split; apply Mono; auto; lra). pose proof (B s0 Hs0). pose proof (B t0 Ht0). lia. }
    rewrite !VN by lia. unfold h, histogram. cbn [snd]. rewrite O. cbn [fst snd]. rewrite !edge_nth by lia.
    assert (0 < INR n) by (apply lt_0_INR; lia). split.
    + simpl (INR 0). replace (ln (INR s) + 0 * _) with (ln (INR s)) by ring. rewrite exp_ln by auto. reflexivity.
    + replace (ln (INR s) + INR n * ((ln (INR t) - ln (INR s)) / INR n)) with (ln (INR t)) by (field; lra). rewrite exp_ln by auto. reflexivity.
Qed.
Print Assumptions C32_distribution_bins.
Example C32_distribution_bins_sat : exists (array : list nat) (res : R) (n : nat) (sizes : list nat) (dist : list R) (vols : list R), (1 <= n)%nat /\ 0 < res /\ get_distribution array res n = Some (sizes, dist, vols).
Proof. eexists [1; 0; 1; 2]%nat, (1/2), 5%nat, _, _, _. split; [lia|]. split; [lra|]. reflexivity. Qed.

(** Without [null_factor] the null value is a thousandth of the smallest non-empty fraction. *)
Theorem C32_null_value : forall v vs res n V PV Rr PR,
  (forall u, In u (v :: vs) -> 0 < u) -> 0 < res -> (1 <= n)%nat ->
  dist_from_volumes v vs res n None = (V, PV, Rr, PR) ->
  let c := fun i => population V n i (map (fun u => u * res ^ 3) (v :: vs)) in
  exists i, (i < n)%nat /\ c i <> 0%nat /\ nth n PV 0 = INR (c i) / INR (length (v :: vs)) / 1000 /\
    forall j, (j < n)%nat -> c j <> 0%nat -> (c i <= c j)%nat.
Proof.
  intros v vs res n V PV Rr PR Hp Hr Hn E c.
  destruct (C32_dist_from_volumes v vs res n None V PV Rr PR Hp Hr Hn E) as (_ & _ & _ & _ & TOT & nv & [N1 N2] & EN & EL & _). fold c in TOT, N2, EN.
  assert (NP : 0 < INR (length (v :: vs))) by (apply lt_0_INR; cbn; lia).
  assert (PVd : exists d, length d = n /\ (forall i, (i < n)%nat -> nth i d 0 = INR (c i) / INR (length (v :: vs))) /\ nv = dummy None (d ++ [0])).
  { exists (tl PR). unfold dist_from_volumes in E.
    assert (EPR : dummy None (0 :: fractions (fst (histogram n (log10 (radius_of v)) (map (fun u => log10 (radius_of u)) vs)))) :: tl (0 :: fractions (fst (histogram n (log10 (radius_of v)) (map (fun u => log10 (radius_of u)) vs)))) = PR)
      by (apply (f_equal snd) in E; exact E).
    destruct (C32_dist_from_volumes v vs res n None V PV Rr PR Hp Hr Hn) as (_ & _ & _ & LR & _ & nv' & _ & EN' & EL' & ER'); [exact E|].
    fold c in EN'. assert (Qn : nv' = nv) by congruence. rewrite Qn in ER'. clear Qn.
    rewrite <- EPR in LR, ER' |- *. cbn [tl length nth] in LR, ER' |- *. split; [lia|]. split.
    - intros i Hi. destruct (EN' i Hi) as [_ K]. rewrite <- EPR in K. exact K.
    - rewrite <- ER'. unfold dummy, nonzero. rewrite filter_app. cbn [filter]. destruct (Req_EM_T 0 0); [|congruence]. rewrite app_nil_r. reflexivity. }
  destruct PVd as (d & Ld & Hd & Ev). unfold dummy in Ev.
  destruct (nonzero (d ++ [0])) as [|y r] eqn:F; [lra|].
  pose proof (rmin_in r y) as I. rewrite <- F in I. apply filter_In in I as [I1 I2].
  assert (NZ : rmin y r <> 0) by (destruct (Req_EM_T (rmin y r) 0); [discriminate|assumption]).
  apply in_app_or in I1. destruct I1 as [I1|[I1|[]]]; [|exfalso; apply NZ; now symmetry].
  apply (In_nth _ _ 0) in I1 as (i & Hi & Ei). rewrite Ld in Hi. rewrite Hd in Ei by exact Hi.
  assert (Ci : c i <> 0%nat) by (intro C; rewrite C in Ei; apply NZ; rewrite <- Ei; change (INR 0) with 0; unfold Rdiv; apply Rmult_0_l).
  exists i. split; [exact Hi|]. split; [exact Ci|]. split; [rewrite EL, Ev, Ei; reflexivity|].
  intros j Hj Cj. specialize (N2 j Hj Cj). rewrite Ev, <- Ei in N2. apply INR_le.
  apply (Rmult_le_reg_r (/ INR (length (v :: vs)))); [apply Rinv_0_lt_compat; exact NP|]. change (population V n j (map (fun u => u * res ^ 3) (v :: vs))) with (c j) in N2. unfold Rdiv in N2. set (a := INR (c i) * / INR (length (v :: vs))) in *. set (b := INR (c j) * / INR (length (v :: vs))) in *. lra.
Qed.
Print Assumptions C32_null_value.
Example C32_null_value_sat : exists (v : R) (vs : list R) (res : R) (n : nat) (V : list R) (PV : list R) (Rr : list R) (PR : list R), ((forall u, In u (v :: vs) -> 0 < u)) /\ 0 < res /\ (1 <= n)%nat /\ dist_from_volumes v vs res n None = (V, PV, Rr, PR).
Proof. destruct (dist_from_volumes 8 [27; 8; 64] (1/2) 5 None) as [[[V PV] Rr] PR] eqn:E. exists 8, [27; 8; 64], (1/2), 5%nat, V, PV, Rr, PR.
split; [intros u H; cbn in H; intuition lra|]. split; [lra|]. split; [lia|exact E]. Qed.

(** Labels 1 (one cell) and 2 (three cells), two bins. *)
Example C32_bins_sat : exists sizes dist vols, get_distribution [1; 0; 2; 2; 2]%nat 1 2 = Some (sizes, dist, vols) /\
  sizes = [1; 3]%nat /\ (exists s t, In s sizes /\ In t sizes /\ s <> t).
Proof. do 3 eexists. split; [reflexivity|]. split; [reflexivity|]. exists 1%nat, 3%nat. cbn. repeat split; auto; lia. Qed.

(** If all volumes are equal, both curves cover one decade centred on that volume and on its
    radius: the radius edges are then not the radii of the volume edges. *)
Lemma outer_equal x l : (forall y, In y l -> y = x) -> outer_edges x l = (x - 1 / 2, x + 1 / 2).
Proof.
  intro H. unfold outer_edges, rmin, rmax.
  assert (A : fold_right Rmin x l = x). { induction l as [|y l IH]; [reflexivity|]. cbn. rewrite IH by (intros; apply H; now right). rewrite (H y) by now left. apply Rmin_left. lra. }
  assert (B : fold_right Rmax x l = x). { clear A. induction l as [|y l IH]; [reflexivity|]. cbn. rewrite IH by (intros; apply H; now right). rewrite (H y) by now left. apply Rmax_left. lra. }
  rewrite A, B. destruct (Req_EM_T x x); [reflexivity|contradiction].
Qed.
Lemma pow10_half : pow10 (1 / 2) = sqrt 10.
Proof. unfold pow10. replace (1 / 2) with (/ 2) by lra. apply Rpower_sqrt. lra. Qed.
Lemma pow10_log10 x : 0 < x -> pow10 (log10 x) = x.
Proof.
  intro H. unfold pow10, log10, Rpower. replace (ln x / ln 10 * ln 10) with (ln x); [apply exp_ln; exact H|]. field. assert (0 < ln 10) by (rewrite <- ln_1; apply ln_increasing; lra). lra.
Qed.
Lemma equal_ends n x l : (1 <= n)%nat -> (forall y, In y l -> y = x) ->
  length (snd (histogram n x l)) = S n /\ nth 0 (snd (histogram n x l)) 0 = x - 1 / 2 /\ nth n (snd (histogram n x l)) 0 = x + 1 / 2.
Proof.
  intros Hn H. unfold histogram. cbn [snd]. rewrite (outer_equal x l H). cbn [fst snd]. split; [unfold linspace_edges; now rewrite map_length, seq_length|].
  rewrite !edge_nth by lia. cbn [INR]. assert (0 < INR n) by (apply lt_0_INR; lia). split; [lra|field; lra].
Qed.
Theorem C32_equal_edges : forall v vs res n null V PV Rr PR, 0 < v -> (forall u, In u vs -> u = v) -> (1 <= n)%nat ->
  dist_from_volumes v vs res n null = (V, PV, Rr, PR) ->
  let r := Rpower (v * 3 / 4 / PI) (1 / 3) in
  nth 0 V 0 = v * res ^ 3 / sqrt 10 /\ nth n V 0 = v * res ^ 3 * sqrt 10 /\ nth 0 Rr 0 = r * res / sqrt 10 /\ nth n Rr 0 = r * res * sqrt 10.
Proof.
  intros v vs res n null V PV Rr PR Hv Hu Hn E r. unfold dist_from_volumes in E.
  assert (EV : map (fun e => pow10 e * res ^ 3) (snd (histogram n (log10 v) (map log10 vs))) = V)
    by (apply (f_equal (fun q => fst (fst (fst q)))) in E; exact E).
  assert (ER : map (fun e => pow10 e * res) (snd (histogram n (log10 (radius_of v)) (map (fun u => log10 (radius_of u)) vs))) = Rr)
    by (apply (f_equal (fun q => snd (fst q))) in E; exact E).
  clear E. subst V Rr.
  destruct (equal_ends n (log10 v) (map log10 vs) Hn) as (L1 & A1 & B1). { intros y I. apply in_map_iff in I. destruct I as (u & <- & I). now rewrite (Hu u I). }
  destruct (equal_ends n (log10 (radius_of v)) (map (fun u => log10 (radius_of u)) vs) Hn) as (L2 & A2 & B2). { intros y I. apply in_map_iff in I. destruct I as (u & <- & I). now rewrite (Hu u I). }
  assert (Q : 0 < sqrt 10) by (apply sqrt_lt_R0; lra).
  assert (Rp : 0 < radius_of v) by (unfold radius_of, Rpower; apply exp_pos).
  assert (U : forall x, pow10 (x + 1 / 2) = pow10 x * sqrt 10) by (intro x; rewrite <- pow10_half; unfold pow10; apply Rpower_plus).
  assert (D : forall x, pow10 (x - 1 / 2) = pow10 x / sqrt 10). { intro x. rewrite <- pow10_half. unfold pow10, Rminus. rewrite Rpower_plus, Rpower_Ropp. reflexivity. }
  assert (M : forall (c : R) (l : list R) i, (i < length l)%nat -> nth i (map (fun e => pow10 e * c) l) 0 = pow10 (nth i l 0) * c).
  { intros c l i I. rewrite (nth_indep _ 0 ((fun e => pow10 e * c) 0)) by (now rewrite map_length). now rewrite (map_nth (fun e => pow10 e * c)). }
  rewrite !M by lia. rewrite A1, B1, A2, B2, !U, !D, (pow10_log10 v Hv), (pow10_log10 _ Rp). fold (radius_of v) in r. unfold r.
  split; [field; lra|]. split; [ring|]. split; [field; lra|ring].
Qed.
Print Assumptions C32_equal_edges.
Example C32_equal_edges_sat : exists v vs res V PV Rr PR, 0 < v /\ (forall u, In u vs -> u = v) /\ dist_from_volumes v vs res 4 None = (V, PV, Rr, PR).
Proof. exists 2, [2; 2], 3. do 4 eexists. split; [lra|]. split; [intros u [<-|[<-|[]]]; reflexivity|]. unfold dist_from_volumes. cbv zeta. reflexivity. Qed.
