(** C116: the curve of [plot_fof_sizes], and what slices, histograms, corner and forest plots show. *)
From Coq Require Import String List Arith ZArith Reals Bool Lia Lra Sorting.Permutation Sorting.Sorted.
From Verif Require Import RLib SizeDistModel SizeDistSpec SizeDistProps SizeMoreProps PlotModel.
Import ListNotations.
Local Open Scope R_scope.

(** * Sizes of regions *)
(** The weight the curve gives to bin [i]: its population times its lower edge. *)
Definition weight (edges sizes : list R) (n i : nat) : R := INR (population edges n i sizes) * nth i edges 0.
Lemma nth_map_seq : forall (f : nat -> R) n i, (i < n)%nat -> nth i (map f (seq 0 n)) 0 = f i.
Proof. intros f n i H. rewrite (nth_indep _ 0 (f 0%nat)) by (rewrite map_length, seq_length; exact H). rewrite (map_nth f), seq_nth by exact H. reflexivity. Qed.
Lemma nth_map_R : forall (f : R -> R) l i, (i < length l)%nat -> nth i (map f l) 0 = f (nth i l 0).
Proof. intros f l i H. rewrite (nth_indep _ 0 (f 0)) by (rewrite map_length; exact H). apply map_nth. Qed.
Lemma rsum_scale : forall l t, rsum (map (fun y => y / t) l) = rsum l / t.
Proof. intros l t. unfold rsum. induction l as [|x l IH]; cbn [map fold_right]; [unfold Rdiv; ring|rewrite IH; unfold Rdiv; ring]. Qed.
Lemma fof_weights : forall v vs n, (1 <= n)%nat -> (forall u, In u (v :: vs) -> 0 < u) ->
  let ht := histogram n (log10 v) (map log10 vs) in let xx := map pow10 (snd ht) in
  length xx = S n /\ map (fun i => INR (nth i (fst ht) 0%nat) * nth i xx 0) (seq 0 n) = map (weight xx (v :: vs) n) (seq 0 n).
Proof.
  intros v vs n Hn H ht xx. assert (L : length (snd ht) = S n) by (unfold ht, histogram; cbn [snd]; unfold linspace_edges; rewrite map_length, seq_length; reflexivity).
  split; [unfold xx; rewrite map_length; exact L|]. apply map_ext_in. intros i I. apply in_seq in I. unfold weight. f_equal. f_equal. unfold ht at 1, histogram. cbn [fst].
  set (F := fun i => length (filter (in_bin n (linspace_edges n (fst (outer_edges (log10 v) (map log10 vs))) (snd (outer_edges (log10 v) (map log10 vs)))) i) (log10 v :: map log10 vs))). rewrite (nth_indep _ 0%nat (F 0%nat)) by (rewrite map_length, seq_length; lia). rewrite (map_nth F), seq_nth by lia. unfold F. cbn [Nat.add].
  change (log10 v :: map log10 vs) with (map log10 (v :: vs)). change (linspace_edges n _ _) with (snd ht). rewrite (population_log n (snd ht) i (v :: vs) 1) by (try exact H; try lra; rewrite L; lia). unfold xx. rewrite (map_ext (fun e => pow10 e * 1) pow10) by (intro; ring). rewrite (map_ext (fun u => u * 1) (fun u => u)), map_id by (intro; ring). reflexivity.
Qed.
(** The populations count every size once. *)
Lemma fof_populations : forall v vs n, (1 <= n)%nat -> (forall u, In u (v :: vs) -> 0 < u) ->
  let xx := map pow10 (snd (histogram n (log10 v) (map log10 vs))) in
  (forall u, In u (v :: vs) -> exists i, (i < n)%nat /\ nth i xx 0 <= u <= nth (S i) xx 0) /\
  (exists p, 1 < p /\ (forall i, (i < n)%nat -> nth (S i) xx 0 = p * nth i xx 0)) /\ (forall i, (i <= n)%nat -> 0 < nth i xx 0).
Proof.
  intros v vs n Hn H xx. pose proof (edges_step n (log10 v) (map log10 vs)) as ES. destruct (outer_spec (log10 v) (map log10 vs)) as [O1 O2]. set (e := outer_edges (log10 v) (map log10 vs)) in *.
  assert (L : length (snd (histogram n (log10 v) (map log10 vs))) = S n) by (destruct (ES 0%nat Hn ltac:(lia)) as [L _]; exact L). split; [|split].
  - intros u Hu. specialize (O2 (log10 u) ltac:(change (log10 v :: map log10 vs) with (map log10 (v :: vs)); apply in_map; exact Hu)). pose proof (one_bin n (fst e) (snd e) (log10 u) Hn O1 O2) as OB. destruct (filter _ (seq 0 n)) as [|i r] eqn:F; [discriminate|]. assert (I : In i (filter (fun i => in_bin n (linspace_edges n (fst e) (snd e)) i (log10 u)) (seq 0 n))) by (rewrite F; left; reflexivity). apply filter_In in I. destruct I as [I B]. apply in_seq in I. exists i. split; [lia|]. apply in_bin_iff in B. unfold xx. rewrite !nth_map_R by (rewrite L; lia). unfold histogram. cbn [snd]. fold e. rewrite <- (pow10_log10 u) by (apply H; exact Hu). split; apply (proj1 (pow10_le _ _)); [apply B|]. destruct B as [_ B]. destruct (Nat.eqb (S i) n); lra.
  - exists (pow10 ((snd e - fst e) / INR n)). split.
    + replace 1 with (pow10 0) by (unfold pow10; apply Rpower_O; lra). apply (proj1 (pow10_lt _ _)). destruct (ES 0%nat Hn ltac:(lia)) as (_ & _ & Q). exact Q.
    + intros i Hi. unfold xx. rewrite !nth_map_R by (rewrite L; lia). destruct (ES i Hn Hi) as (_ & E & _). cbv zeta in E. fold e in E. rewrite E. unfold pow10. rewrite Rpower_plus. ring.
  - intros i Hi. unfold xx. rewrite nth_map_R by (rewrite L; lia). apply pow10_pos.
Qed.
Lemma rsum_le : forall (f g : nat -> R) l, (forall i, In i l -> f i <= g i) -> rsum (map f l) <= rsum (map g l).
Proof. intros f g l H. unfold rsum. induction l as [|i l IH]; cbn [map fold_right]; [lra|]. pose proof (H i (or_introl eq_refl)). specialize (IH (fun j J => H j (or_intror J))). lra. Qed.
Lemma rsum_plus : forall (f g : nat -> R) l, rsum (map (fun i => f i + g i) l) = rsum (map f l) + rsum (map g l).
Proof. intros f g l. unfold rsum. induction l as [|i l IH]; cbn [map fold_right]; [ring|rewrite IH; ring]. Qed.
(** Sum over bins of the sizes they hold. *)
Lemma by_bins : forall (P : nat -> R -> bool) xs is, (forall x, In x xs -> length (filter (fun i => P i x) is) = 1%nat) -> rsum (map (fun i => rsum (filter (P i) xs)) is) = rsum xs.
Proof.
  induction xs as [|x xs IH]; intros is H.
  - clear. change (rsum (map (fun _ : nat => 0) is) = 0). unfold rsum. induction is as [|i is IH]; [reflexivity|]. cbn [map fold_right]. rewrite IH. ring.
  - rewrite (map_ext _ (fun i => (if P i x then x else 0) + rsum (filter (P i) xs))) by (intro i; cbn [filter]; destruct (P i x); unfold rsum; cbn [fold_right]; ring). rewrite rsum_plus, IH by (intros; apply H; right; assumption).
    specialize (H x (or_introl eq_refl)). assert (E : rsum (map (fun i => if P i x then x else 0) is) = INR (length (filter (fun i => P i x) is)) * x). { clear. unfold rsum. induction is as [|i is IH]; [cbn; ring|]. cbn [map fold_right filter]. rewrite IH. destruct (P i x); cbn [length]; rewrite ?S_INR; ring. }
    rewrite E, H. unfold rsum. cbn [fold_right]. simpl INR. ring.
Qed.
Definition held (edges : list R) (n i : nat) (x : R) : bool := if Rle_dec (nth i edges 0) x then if Nat.eqb (S i) n then (if Rle_dec x (nth (S i) edges 0) then true else false) else (if Rlt_dec x (nth (S i) edges 0) then true else false) else false.
Lemma held_one : forall v vs n u, (1 <= n)%nat -> (forall u, In u (v :: vs) -> 0 < u) -> In u (v :: vs) ->
  length (filter (fun i => held (map pow10 (snd (histogram n (log10 v) (map log10 vs)))) n i u) (seq 0 n)) = 1%nat.
Proof.
  intros v vs n u Hn H Hu. destruct (outer_spec (log10 v) (map log10 vs)) as [O1 O2]. specialize (O2 (log10 u) ltac:(change (log10 v :: map log10 vs) with (map log10 (v :: vs)); apply in_map; exact Hu)). rewrite <- (one_bin n _ _ (log10 u) Hn O1 O2). f_equal. apply filter_ext_in. intros i I. apply in_seq in I. apply eq_true_iff_eq. rewrite in_bin_iff. unfold held.
  assert (L : length (snd (histogram n (log10 v) (map log10 vs))) = S n) by (unfold histogram; cbn [snd]; unfold linspace_edges; rewrite map_length, seq_length; reflexivity). rewrite !nth_map_R by (rewrite L; lia). unfold histogram. cbn [snd]. set (E := linspace_edges _ _ _).
  assert (A : forall e, e <= log10 u <-> pow10 e <= u) by (intro e; rewrite pow10_le, pow10_log10 by (apply H; exact Hu); tauto). assert (B : forall e, log10 u <= e <-> u <= pow10 e) by (intro e; rewrite pow10_le, pow10_log10 by (apply H; exact Hu); tauto). assert (C : forall e, log10 u < e <-> u < pow10 e) by (intro e; rewrite pow10_lt, pow10_log10 by (apply H; exact Hu); tauto).
  rewrite A. destruct (Rle_dec (pow10 (nth i E 0)) u) as [D|D]; [|split; [discriminate|tauto]]. destruct (Nat.eqb (S i) n); [rewrite B; destruct (Rle_dec u (pow10 (nth (S i) E 0)))|rewrite C; destruct (Rlt_dec u (pow10 (nth (S i) E 0)))]; (split; [try discriminate; tauto|try tauto]).
Qed.
Lemma population_held : forall edges n i l, population edges n i l = length (filter (held edges n i) l).
Proof. reflexivity. Qed.
(** Taking the lower edge of its bin for each region underestimates the total size, by less than the ratio of two edges. *)
Theorem C116_fof_volume : forall LB v vs n boxsize normalize xx zz d, (1 <= n)%nat -> (forall u, In u (v :: vs) -> 0 < u) ->
  plot_fof_sizes LB v vs n boxsize normalize = (xx, zz, d) ->
  exists p, 1 < p /\ (forall i, (i < n)%nat -> nth (S i) xx 0 = p * nth i xx 0) /\
  rsum (map (weight xx (v :: vs) n) (seq 0 n)) <= rsum (v :: vs) <= p * rsum (map (weight xx (v :: vs) n) (seq 0 n)).
Proof.
  intros LB v vs n bs nm xx zz d Hn H E. unfold plot_fof_sizes in E. cbv zeta in E. assert (X : xx = map pow10 (snd (histogram n (log10 v) (map log10 vs)))) by congruence. clear E. destruct (fof_populations v vs n Hn H) as (_ & (p & P1 & P2) & P3). rewrite <- X in *. exists p. split; [exact P1|]. split; [exact P2|].
  pose proof (by_bins (held xx n) (v :: vs) (seq 0 n) ltac:(intros u Hu; rewrite X; apply held_one; assumption)) as B. rewrite <- B at 1 2.
  assert (G : forall i, (i < n)%nat -> forall l, (forall u, In u l -> held xx n i u = true) -> INR (length l) * nth i xx 0 <= rsum l <= p * (INR (length l) * nth i xx 0)). { intros i Hi l. induction l as [|u l IH]; intro A; [unfold rsum; cbn; lra|]. specialize (IH (fun w W => A w (or_intror W))). specialize (A u (or_introl eq_refl)). unfold held in A. cbn [length]. rewrite S_INR. unfold rsum in *. cbn [fold_right]. pose proof (P2 i Hi). destruct (Rle_dec (nth i xx 0) u); [|discriminate]. assert (u <= p * nth i xx 0). { destruct (Nat.eqb (S i) n); [destruct (Rle_dec u (nth (S i) xx 0)); [lra|discriminate]|destruct (Rlt_dec u (nth (S i) xx 0)); [lra|discriminate]]. } lra. }
  assert (K : forall i, In i (seq 0 n) -> weight xx (v :: vs) n i <= rsum (filter (held xx n i) (v :: vs)) <= p * weight xx (v :: vs) n i). { intros i I. apply in_seq in I. unfold weight. rewrite population_held. apply G; [lia|]. intros u U. apply filter_In in U. apply U. }
  split; [apply rsum_le; intros i I; apply K, I|]. assert (S' : p * rsum (map (weight xx (v :: vs) n) (seq 0 n)) = rsum (map (fun i => p * weight xx (v :: vs) n i) (seq 0 n))) by (unfold rsum; generalize (seq 0 n); intro l; induction l as [|i l IH]; cbn [map fold_right]; [ring|rewrite <- IH; ring]). rewrite S'. apply rsum_le. intros i I. apply K, I.
Qed.
Print Assumptions C116_fof_volume.
Example C116_fof_volume_sat : exists (LB : R) (v : R) (vs : list R) (n : nat) (boxsize : option R) (normalize : string) (xx : list R) (zz : list R) (d : R), (1 <= n)%nat /\ ((forall u, In u (v :: vs) -> 0 < u)) /\ plot_fof_sizes LB v vs n boxsize normalize = (xx, zz, d).
Proof. destruct (plot_fof_sizes 100 8 [27; 8; 64] 5 (Some 200) "box") as [[xx zz] d] eqn:E. exists 100, 8, [27; 8; 64], 5%nat, (Some 200), "box"%string, xx, zz, d.
split; [lia|]. split; [intros u [<-|[<-|[<-|[<-|[]]]]]; lra|]. exact E. Qed.
Lemma least_tenth_spec : forall zz, (forall z, In z zz -> 0 <= z) -> (exists z, In z zz /\ z <> 0) -> 0 < least_tenth zz /\ (forall z, In z zz -> z <> 0 -> 10 * least_tenth zz <= z) /\ exists z, In z zz /\ z <> 0 /\ 10 * least_tenth zz = z.
Proof.
  intros zz P (z0 & I0 & N0). assert (F : forall z, In z (nonzero zz) <-> In z zz /\ z <> 0) by (intro z; unfold nonzero; rewrite filter_In; destruct (Req_EM_T z 0); intuition congruence). unfold least_tenth. destruct (nonzero zz) as [|x r] eqn:E; [exfalso; apply (proj2 (F z0)); split; assumption|].
  pose proof (proj1 (F _) (rmin_in r x)) as [M1 M2]. pose proof (P _ M1). split; [lra|]. split.
  - intros z I N. pose proof (rmin_le r x z (proj2 (F z) (conj I N))). lra.
  - exists (rmin x r). split; [exact M1|]. split; [exact M2|field].
Qed.
(** The curve itself. [T] is what the weights are divided by: their sum, or the volume of the box. Empty bins, and the last edge, show
    one tenth of the smallest value elsewhere. *)
Theorem C116_fof_curve : forall LB v vs n boxsize normalize xx zz d, (1 <= n)%nat -> (forall u, In u (v :: vs) -> 0 < u) ->
  let box := match boxsize with Some b => b | None => LB end in 0 < box ->
  plot_fof_sizes LB v vs n boxsize normalize = (xx, zz, d) ->
  let c := fun i => population xx n i (v :: vs) in
  let T := if String.eqb normalize "ionized" then rsum (map (weight xx (v :: vs) n) (seq 0 n)) else box ^ 3 in
  length xx = S n /\ length zz = S n /\ list_sum (map c (seq 0 n)) = length (v :: vs) /\ 0 < d /\ nth n zz 0 = d /\
  (forall i, (i < n)%nat -> nth i zz 0 = if Nat.eqb (c i) 0 then d else INR (c i) * nth i xx 0 / T) /\
  (forall i, (i < n)%nat -> c i <> 0%nat -> 10 * d <= nth i zz 0) /\ (exists i, (i < n)%nat /\ c i <> 0%nat /\ nth i zz 0 = 10 * d).
Proof.
  intros LB v vs n bs nm xx zz d Hn H box HB E c T. unfold plot_fof_sizes in E. cbv zeta in E. fold box in E. destruct (fof_weights v vs n Hn H) as [L W]. cbv zeta in L, W. assert (X : xx = map pow10 (snd (histogram n (log10 v) (map log10 vs)))) by congruence. rewrite W in E. rewrite <- X in E, L. clear W.
  assert (C1 : list_sum (map c (seq 0 n)) = length (v :: vs)). { unfold c. rewrite (map_ext _ (fun i => length (filter (held xx n i) (v :: vs)))) by reflexivity. apply sum_counts. intros u Hu. rewrite X. apply held_one; assumption. }
  destruct (fof_populations v vs n Hn H) as (_ & _ & XP). rewrite <- X in XP.
  set (ws := map (weight xx (v :: vs) n) (seq 0 n)) in *. assert (CE : exists i, (i < n)%nat /\ c i <> 0%nat). { assert (K : forall l, list_sum (map c l) <> 0%nat -> exists i, In i l /\ c i <> 0%nat). { induction l as [|i l IH]; intro K; [exfalso; apply K; reflexivity|]. destruct (Nat.eq_dec (c i) 0) as [Z|Z]; [|exists i; split; [left; reflexivity|exact Z]]. destruct IH as (j & J1 & J2); [intro F0; apply K; cbn [map]; unfold list_sum in *; cbn [fold_right]; rewrite Z, F0; reflexivity|]. exists j. split; [right; exact J1|exact J2]. } destruct (K (seq 0 n)) as (i & I & N); [rewrite C1; cbn; lia|]. exists i. apply in_seq in I. split; [lia|exact N]. }
  assert (WP : forall i, (i < n)%nat -> 0 <= weight xx (v :: vs) n i /\ (weight xx (v :: vs) n i <> 0 <-> c i <> 0%nat)). { intros i Hi. specialize (XP i ltac:(lia)). unfold weight. fold (c i). pose proof (pos_INR (c i)). split; [nra|]. split; intro N; [intro Z; apply N; rewrite Z; cbn; ring|]. apply Rmult_integral_contrapositive_currified; [apply not_0_INR; exact N|lra]. }
  assert (WS : forall w, In w ws -> 0 <= w) by (intros w I; apply in_map_iff in I; destruct I as (i & <- & I); apply in_seq in I; apply WP; lia).
  assert (TP : 0 < T). { unfold T. destruct (String.eqb nm "ionized"); [|apply pow_lt; exact HB]. fold ws. destruct CE as (i & Hi & N). destruct (WP i Hi) as [W0 W1]. apply W1 in N. assert (I : In (weight xx (v :: vs) n i) ws) by (apply in_map, in_seq; lia). revert WS I. generalize ws. intro l. unfold rsum. induction l as [|w l IH]; intros A I; [destruct I|]. cbn [fold_right]. assert (NN : forall l', (forall w, In w l' -> 0 <= w) -> 0 <= fold_right Rplus 0 l') by (clear; induction l' as [|w l IH]; intro A; cbn [fold_right]; [lra|]; pose proof (A w (or_introl eq_refl)); specialize (IH (fun z Z => A z (or_intror Z))); lra). destruct I as [->|I]; [pose proof (NN l (fun z Z => A z (or_intror Z))); lra|]. specialize (IH (fun z Z => A z (or_intror Z)) I). pose proof (A w (or_introl eq_refl)). lra. }
  assert (E2 : (if String.eqb nm "ionized" then map (fun y => y / rsum ws) ws else map (fun y => y / box ^ 3) ws) = map (fun y => y / T) ws) by (unfold T; destruct (String.eqb nm "ionized"); reflexivity). rewrite E2 in E. clear E2. set (q := map (fun y => y / T) ws) in *.
  assert (Q : forall i, (i < n)%nat -> nth i q 0 = weight xx (v :: vs) n i / T). { intros i Hi. unfold q, ws. rewrite nth_map_R by (rewrite map_length, seq_length; exact Hi). rewrite nth_map_seq by exact Hi. reflexivity. }
  assert (QL : length q = n) by (unfold q, ws; rewrite !map_length, seq_length; reflexivity).
  assert (QZ : forall i, (i < n)%nat -> (nth i q 0 <> 0 <-> c i <> 0%nat)). { intros i Hi. rewrite (Q i Hi). destruct (WP i Hi) as [_ <-]. unfold Rdiv. split; intros N Z; apply N; [rewrite Z; ring|]. apply Rmult_integral in Z. destruct Z as [Z|Z]; [exact Z|]. exfalso. apply (Rinv_neq_0_compat T); [lra|exact Z]. }
  assert (QI : forall i, (i < n)%nat -> In (nth i q 0) q) by (intros i Hi; apply nth_In; lia).
  destruct (least_tenth_spec q) as (D1 & D2 & D3).
  { intros z I. unfold q in I. apply in_map_iff in I. destruct I as (w & <- & I). unfold Rdiv; apply Rmult_le_pos; [apply WS, I|left; apply Rinv_0_lt_compat; exact TP]. }
  { destruct CE as (i & Hi & N). exists (nth i q 0). split; [apply QI, Hi|apply QZ; assumption]. }
  assert (ED : d = least_tenth q) by congruence. assert (EZ : zz = map (fun z => if Req_EM_T z 0 then d else z) q ++ [d]) by (rewrite ED; congruence). rewrite <- ED in D1, D2, D3. clear E.
  assert (ZL : length (map (fun z => if Req_EM_T z 0 then d else z) q) = n) by (rewrite map_length; exact QL).
  assert (ZN : forall i, (i < n)%nat -> nth i zz 0 = if Nat.eqb (c i) 0 then d else INR (c i) * nth i xx 0 / T). { intros i Hi. rewrite EZ, app_nth1 by lia. rewrite (nth_indep _ 0 ((fun z => if Req_EM_T z 0 then d else z) 0)) by lia. rewrite (map_nth (fun z => if Req_EM_T z 0 then d else z)). specialize (QZ i Hi). destruct (Req_EM_T (nth i q 0) 0) as [Z|Z], (Nat.eqb_spec (c i) 0) as [K|K]; try reflexivity; try tauto. rewrite (Q i Hi). reflexivity. }
  split; [exact L|]. split; [rewrite EZ, app_length, ZL; cbn; lia|]. split; [exact C1|]. split; [exact D1|]. split; [rewrite EZ, app_nth2, ZL, Nat.sub_diag by lia; reflexivity|]. split; [exact ZN|]. split.
  - intros i Hi N. rewrite (ZN i Hi). destruct (Nat.eqb_spec (c i) 0) as [K|K]; [contradiction|]. change (INR (c i) * nth i xx 0) with (weight xx (v :: vs) n i). rewrite <- (Q i Hi). apply D2; [apply QI, Hi|apply QZ; assumption].
  - destruct D3 as (z & I & N & Z). apply (In_nth _ _ 0) in I. destruct I as (i & Hi & I). rewrite QL in Hi. exists i. split; [exact Hi|]. assert (K : c i <> 0%nat) by (apply QZ; [exact Hi|rewrite I; exact N]). split; [exact K|]. rewrite (ZN i Hi). destruct (Nat.eqb_spec (c i) 0) as [K'|K']; [contradiction|]. change (INR (c i) * nth i xx 0) with (weight xx (v :: vs) n i). rewrite <- (Q i Hi), I, Z. reflexivity.
Qed.
Print Assumptions C116_fof_curve.
Example C116_fof_curve_sat : exists (LB : R) (v : R) (vs : list R) (n : nat) (boxsize : option R) (normalize : string) (xx : list R) (zz : list R) (d : R), (1 <= n)%nat /\ ((forall u, In u (v :: vs) -> 0 < u)) /\ let box := match boxsize with Some b => b | None => LB end in 0 < box /\ plot_fof_sizes LB v vs n boxsize normalize = (xx, zz, d).
Proof. destruct (plot_fof_sizes 100 8 [27; 8; 64] 5 (Some 200) "box") as [[xx zz] d] eqn:E. exists 100, 8, [27; 8; 64], 5%nat, (Some 200), "box"%string, xx, zz, d.
split; [lia|]. split; [intros u [<-|[<-|[<-|[<-|[]]]]]; lra|]. split; [lra|exact E]. Qed.
(** Normalised by the ionized volume the filled bins add up to one, so that the returned curve exceeds one by the values put into empty
    bins and at the last edge. *)
Theorem C116_fof_total : forall LB v vs n boxsize xx zz d, (1 <= n)%nat -> (forall u, In u (v :: vs) -> 0 < u) -> 0 < (match boxsize with Some b => b | None => LB end) ->
  plot_fof_sizes LB v vs n boxsize "ionized" = (xx, zz, d) ->
  rsum zz = 1 + d * INR (S (length (filter (fun i => Nat.eqb (population xx n i (v :: vs)) 0) (seq 0 n)))).
Proof.
  intros LB v vs n bs xx zz d Hn H HB E. destruct (C116_fof_curve LB v vs n bs "ionized" xx zz d Hn H HB E) as (L1 & L2 & C1 & D & ZL & ZN & _ & (i0 & I0 & I1 & I2)). cbn [String.eqb Ascii.eqb Bool.eqb] in *. set (c := fun i => population xx n i (v :: vs)) in *. set (T := rsum (map (weight xx (v :: vs) n) (seq 0 n))) in *.
  assert (TN : T <> 0). { intro Z. rewrite (ZN i0 I0), Z in I2. change (population xx n i0 (v :: vs)) with (c i0) in I2. destruct (Nat.eqb_spec (c i0) 0) as [K|K]; [contradiction|]. unfold Rdiv in I2. rewrite Rinv_0, Rmult_0_r in I2. lra. }
  assert (EZ : zz = map (fun i => nth i zz 0) (seq 0 (S n))). { apply (nth_ext _ _ 0 0); [rewrite map_length, seq_length; exact L2|]. intros i Hi. rewrite nth_map_seq by lia. reflexivity. }
  assert (RS : rsum zz = rsum (map (fun i => nth i zz 0) (seq 0 n)) + d). { rewrite EZ at 1. rewrite seq_S, map_app. unfold rsum. rewrite fold_right_app. cbn [map fold_right Nat.add]. rewrite ZL. generalize (map (fun i => nth i zz 0) (seq 0 n)). intro l. induction l as [|x l IH]; cbn [fold_right]; [ring|rewrite IH; ring]. }
  rewrite RS, (map_ext_in _ (fun i => (if Nat.eqb (c i) 0 then d else 0) + weight xx (v :: vs) n i / T)).
  - rewrite rsum_plus. assert (A : rsum (map (fun i => weight xx (v :: vs) n i / T) (seq 0 n)) = 1). { rewrite <- (map_map (weight xx (v :: vs) n) (fun y => y / T)), rsum_scale. fold T. field. exact TN. }
    rewrite A. assert (B : forall l, rsum (map (fun i => if Nat.eqb (c i) 0 then d else 0) l) = d * INR (length (filter (fun i => Nat.eqb (c i) 0) l))). { unfold rsum. induction l as [|i l IH]; [cbn; ring|]. cbn [map fold_right filter]. rewrite IH. destruct (Nat.eqb (c i) 0); cbn [length]; rewrite ?S_INR; ring. }
    rewrite B, S_INR. change (fun i => (population xx n i (v :: vs) =? 0)%nat) with (fun i => Nat.eqb (c i) 0). ring.
  - intros i I. apply in_seq in I. rewrite (ZN i) by lia. unfold weight. fold (c i). destruct (Nat.eqb_spec (c i) 0) as [K|K]; [rewrite K; unfold Rdiv; cbn [INR]; ring|ring].
Qed.
Print Assumptions C116_fof_total.
Example C116_fof_total_sat : exists (LB : R) (v : R) (vs : list R) (n : nat) (boxsize : option R) (xx : list R) (zz : list R) (d : R), (1 <= n)%nat /\ ((forall u, In u (v :: vs) -> 0 < u)) /\ 0 < (match boxsize with Some b => b | None => LB end) /\ plot_fof_sizes LB v vs n boxsize "ionized" = (xx, zz, d).
Proof. destruct (plot_fof_sizes 100 8 [27; 8; 64] 5 None "ionized") as [[xx zz] d] eqn:E. exists 100, 8, [27; 8; 64], 5%nat, None, xx, zz, d.
split; [lia|]. split; [intros u [<-|[<-|[<-|[<-|[]]]]]; lra|]. split; [lra|exact E]. Qed.

(** * Slices, histograms, corner and forest plots *)
(** Which cell each pixel shows. Negative slice numbers count from the end; any other axis or number fails. *)
Theorem C116_slice : forall V n0 n1 n2 (data : nat -> nat -> nat -> V) los num,
  let size := if Z.eqb los 0 then n0 else if Z.eqb los 1 then n1 else n2 in
  ((los < 0 \/ 2 < los)%Z -> plot_slice (n0, n1, n2) data los num = Failed "AssertionError") /\
  ((0 <= los <= 2)%Z -> ~ (- Z.of_nat size <= num < Z.of_nat size)%Z -> plot_slice (n0, n1, n2) data los num = Failed "IndexError") /\
  ((0 <= los <= 2)%Z -> (- Z.of_nat size <= num < Z.of_nat size)%Z ->
    let i := Z.to_nat (num mod Z.of_nat size) in (i < size)%nat /\
    (los = 0%Z -> plot_slice (n0, n1, n2) data los num = Image n1 n2 (fun r c => data i r c)) /\
    (los = 1%Z -> plot_slice (n0, n1, n2) data los num = Image n0 n2 (fun r c => data r i c)) /\
    (los = 2%Z -> plot_slice (n0, n1, n2) data los num = Image n0 n1 (fun r c => data r c i))).
Proof.
  intros V n0 n1 n2 data los num size. assert (PP : forall n, py_pos n num = if (Z.leb (- Z.of_nat n) num && Z.ltb num (Z.of_nat n))%bool then Some (Z.to_nat (num mod Z.of_nat n)) else None).
  { intro n. unfold py_pos. destruct (Z.leb_spec (- Z.of_nat n) num) as [A|A], (Z.ltb_spec num (Z.of_nat n)) as [B|B]; cbn [andb]; try reflexivity. f_equal. f_equal. destruct (Z.ltb_spec num 0) as [C|C]; [|rewrite Z.mod_small by lia; reflexivity]. rewrite <- (Z_mod_plus_full num 1 (Z.of_nat n)), Z.mod_small by lia. lia. }
  split; [|split].
  - intro H. unfold plot_slice. destruct (Z.eqb_spec los 0), (Z.eqb_spec los 1), (Z.eqb_spec los 2); try lia. reflexivity.
  - intros H N. unfold plot_slice. rewrite !PP. assert (C : forall n, n = size -> (Z.leb (- Z.of_nat n) num && Z.ltb num (Z.of_nat n))%bool = false) by (intros n ->; apply andb_false_iff; destruct (Z.leb_spec (- Z.of_nat size) num), (Z.ltb_spec num (Z.of_nat size)); try tauto; lia).
    unfold size in C. destruct (Z.eqb_spec los 0); [rewrite (C n0 eq_refl); reflexivity|]. destruct (Z.eqb_spec los 1); [rewrite (C n1 eq_refl); reflexivity|]. destruct (Z.eqb_spec los 2); [|lia]. rewrite (C n2 eq_refl). reflexivity.
  - intros H N i. split; [unfold i; pose proof (Z.mod_pos_bound num (Z.of_nat size)); lia|]. assert (C : forall n, n = size -> (Z.leb (- Z.of_nat n) num && Z.ltb num (Z.of_nat n))%bool = true) by (intros n ->; apply andb_true_iff; split; [apply Z.leb_le|apply Z.ltb_lt]; lia).
    unfold plot_slice. rewrite !PP. split; [|split]; intros ->; cbn [Z.eqb Pos.eqb] in *; cbn [size] in *; rewrite C by reflexivity; reflexivity.
Qed.
Print Assumptions C116_slice.
(** The axes run over the box whatever the shape. Columns are drawn at the comoving position of their cells in a box of that size; rows
    are drawn from the top, at the position counted from the far end, so that the vertical scale is right iff the cell is the middle one,
    or the caller passes [origin='lower']. *)
Theorem C116_slice_scale : forall LB rows cols r c, 0 < LB -> (r < rows)%nat -> (c < cols)%nat ->
  let place n i := (INR i + 1 / 2) * (LB / INR n) in
  (forall lower, fst (imshow_centre lower (slice_extent LB) rows cols r c) = place cols c) /\
  snd (imshow_centre true (slice_extent LB) rows cols r c) = place rows r /\
  snd (imshow_centre false (slice_extent LB) rows cols r c) = LB - place rows r /\
  snd (imshow_centre false (slice_extent LB) rows cols r c) = place rows (rows - 1 - r)%nat /\
  (snd (imshow_centre false (slice_extent LB) rows cols r c) = place rows r <-> (2 * r + 1 = rows)%nat).
Proof.
  intros LB rows cols r c HL Hr Hc place. assert (NR : 0 < INR rows) by (apply lt_0_INR; lia). unfold imshow_centre, slice_extent, place. cbn [fst snd]. split; [intros _; rewrite Rminus_0_r; ring|]. split; [rewrite Rminus_0_r; ring|]. split; [rewrite Rminus_0_r; ring|]. split.
  - rewrite minus_INR by lia. rewrite minus_INR by lia. simpl (INR 1). field. lra.
  - rewrite Rminus_0_r. split; intro E.
    + assert (M : INR (2 * r + 1) = INR rows). { rewrite plus_INR, mult_INR. simpl (INR 2). simpl (INR 1). assert (F : (LB - (INR r + 1 / 2) * (LB / INR rows)) * INR rows / LB = (INR r + 1 / 2) * (LB / INR rows) * INR rows / LB) by (rewrite E; reflexivity). replace ((LB - (INR r + 1 / 2) * (LB / INR rows)) * INR rows / LB) with (INR rows - (INR r + 1 / 2)) in F by (field; lra). replace ((INR r + 1 / 2) * (LB / INR rows) * INR rows / LB) with (INR r + 1 / 2) in F by (field; lra). lra. }
      apply INR_eq. exact M.
    + assert (M : INR rows = 2 * INR r + 1) by (rewrite <- E, plus_INR, mult_INR; simpl; ring). rewrite M in *. field. lra.
Qed.
Print Assumptions C116_slice_scale.
Example C116_slice_scale_sat : exists (LB : R) (rows : nat) (cols : nat) (r : nat) (c : nat), 0 < LB /\ (r < rows)%nat /\ (c < cols)%nat.
Proof. exists 100, 5%nat, 6%nat, 4%nat, 2%nat. repeat split; first [lra | lia | reflexivity | discriminate | congruence | auto]. Qed.
(** The caller's bins are never used: ionized fractions without bins get 29 equal bins over [0,1], everything else 30 bins. *)
Theorem C116_hist_refuted : (forall xfrac b, hist_bins xfrac (Some b) = Number 30) /\ hist_bins false None = Number 30 /\
  exists l, hist_bins true None = Edges l /\ length l = 30%nat /\ forall i, (i < 30)%nat -> nth i l 0 = INR i / 29.
Proof.
  split; [intros [|] b; reflexivity|]. split; [reflexivity|]. exists (linspace 0 1 30). split; [reflexivity|]. split; [reflexivity|]. intros i Hi. unfold linspace. rewrite nth_map_seq by exact Hi. change (30 - 1)%nat with 29%nat. replace (INR 29) with 29 by (cbn; ring). field.
Qed.
Print Assumptions C116_hist_refuted.
Lemma insert_desc_perm : forall x l, Permutation (insert_desc x l) (x :: l).
Proof. intros x l. induction l as [|y l IH]; [reflexivity|]. cbn [insert_desc]. destruct (Nat.ltb (snd x) (snd y)); [rewrite IH; apply perm_swap|reflexivity]. Qed.
Lemma order_perm : forall ks, Permutation (drawing_order ks) (combine (seq 0 (length ks)) ks).
Proof. intro ks. unfold drawing_order. generalize (combine (seq 0 (length ks)) ks). intro l. induction l as [|x l IH]; [reflexivity|]. cbn [fold_right]. rewrite insert_desc_perm, IH. reflexivity. Qed.
Lemma insert_desc_sorted : forall x l, StronglySorted (fun a b => (snd b <= snd a)%nat) l -> StronglySorted (fun a b => (snd b <= snd a)%nat) (insert_desc x l).
Proof.
  intros x l H. induction H as [|y l S IH F]; [repeat constructor|]. cbn [insert_desc]. destruct (Nat.ltb_spec (snd x) (snd y)) as [L|L].
  - constructor; [exact IH|]. apply (Permutation_Forall (Permutation_sym (insert_desc_perm x l))). constructor; [lia|exact F].
  - constructor; [constructor; assumption|]. constructor; [exact L|]. apply (Forall_impl _ (P := fun b => (snd b <= snd y)%nat)); [intros b B; lia|exact F].
Qed.
Lemma order_sorted : forall ks, StronglySorted (fun a b => (snd b <= snd a)%nat) (drawing_order ks).
Proof. intro ks. unfold drawing_order. generalize (combine (seq 0 (length ks)) ks). intro l. induction l as [|x l IH]; [constructor|]. apply insert_desc_sorted, IH. Qed.
Lemma insert_key_perm : forall A (x : nat * A) l, Permutation (insert_key x l) (x :: l).
Proof. intros A x l. induction l as [|y l IH]; [reflexivity|]. cbn [insert_key]. destruct (Nat.leb (fst x) (fst y)); [reflexivity|rewrite IH; apply perm_swap]. Qed.
Lemma insert_key_sorted : forall A (x : nat * A) l, StronglySorted (fun a b => (fst a <= fst b)%nat) l -> StronglySorted (fun a b => (fst a <= fst b)%nat) (insert_key x l).
Proof.
  intros A x l H. induction H as [|y l S IH F]; [repeat constructor|]. cbn [insert_key]. destruct (Nat.leb_spec (fst x) (fst y)) as [L|L].
  - constructor; [constructor; assumption|]. constructor; [exact L|]. apply (Forall_impl _ (P := fun b => (fst y <= fst b)%nat)); [intros b B; lia|exact F].
  - constructor; [exact IH|]. apply (Permutation_Forall (Permutation_sym (insert_key_perm A x l))). constructor; [lia|exact F].
Qed.
Lemma sorted_unique : forall A (l m : list (nat * A)), StronglySorted (fun a b => (fst a < fst b)%nat) l -> StronglySorted (fun a b => (fst a <= fst b)%nat) m -> Permutation m l -> m = l.
Proof.
  intros A l m Hl. revert m. induction Hl as [|x l S IH F]; intros m Hm P; [apply Permutation_sym, Permutation_nil in P; exact P|]. destruct m as [|y m]; [exfalso; apply Permutation_nil in P; discriminate|]. inversion Hm as [|? ? Sm Fm]; subst. assert (E : y = x). { assert (I : In y (x :: l)) by (apply (Permutation_in _ P); left; reflexivity). destruct I as [E|I]; [symmetry; exact E|]. assert (J : In x (y :: m)) by (apply (Permutation_in _ (Permutation_sym P)); left; reflexivity). destruct J as [J|J]; [exact J|]. rewrite Forall_forall in F, Fm. specialize (F y I). specialize (Fm x J). lia. }
  subst y. f_equal. apply IH; [exact Sm|]. apply Permutation_cons_inv in P. exact P.
Qed.
(** The legend names the distributions in the order they were added, though those with more parameters are drawn first. *)
Theorem C116_legend : forall A (dists : list (A * nat)), legend dists = map fst dists.
Proof.
  intros A dists. unfold legend. set (f := fun o : nat * nat => match nth_error dists (fst o) with Some d => [(fst o, fst d)] | None => [] end). set (h := flat_map f (drawing_order (map snd dists))).
  set (target := combine (seq 0 (length dists)) (map fst dists)). assert (PT : Permutation h target). { unfold h. rewrite (Permutation_flat_map f (order_perm (map snd dists))). rewrite map_length. unfold target. assert (G : forall l k, (forall i, nth_error l i = nth_error dists (k + i)%nat) -> flat_map f (combine (seq k (length l)) (map snd l)) = combine (seq k (length l)) (map fst l)). { induction l as [|d l IH]; intros k K; [reflexivity|]. cbn [length seq map combine flat_map]. unfold f at 1. cbn [fst]. pose proof (K 0%nat) as K0. rewrite Nat.add_0_r in K0. rewrite <- K0. cbn [nth_error app]. f_equal. apply IH. intro i. rewrite Nat.add_succ_l, <- Nat.add_succ_r. apply (K (S i)). } rewrite (G dists 0%nat); [reflexivity|]. intro i. reflexivity. }
  assert (SP : forall l : list (nat * A), Permutation (fold_right insert_key [] l) l /\ StronglySorted (fun a b => (fst a <= fst b)%nat) (fold_right insert_key [] l)). { induction l as [|x l [I1 I2]]; [split; [reflexivity|constructor]|]. cbn [fold_right]. split; [rewrite insert_key_perm, I1; reflexivity|apply insert_key_sorted, I2]. }
  assert (TS : forall (l : list A) k, StronglySorted (fun a b => (fst a < fst b)%nat) (combine (seq k (length l)) l)). { induction l as [|a l IH]; intro k; [constructor|]. cbn [length seq combine]. constructor; [apply IH|]. rewrite Forall_forall. intros [i b] I. apply in_combine_l in I. apply in_seq in I. cbn [fst]. lia. }
  rewrite (sorted_unique A target (fold_right insert_key [] h)); [|unfold target; rewrite <- (map_length fst dists); apply TS|apply SP|rewrite (proj1 (SP h)); exact PT].
  unfold target. rewrite <- (map_length fst dists). generalize (map fst dists). intro l. generalize 0%nat. induction l as [|a l IH]; intro k; [reflexivity|]. cbn [length seq combine map]. f_equal. apply IH.
Qed.
Print Assumptions C116_legend.
Lemma combine_snd : forall (l : list nat) k, map snd (combine (seq k (length l)) l) = l.
Proof. induction l as [|a l IH]; intro k; [reflexivity|]. cbn [length seq combine map snd]. f_equal. apply IH. Qed.
(** Every distribution is drawn once, fullest first, and the main figure exists before anything is transplanted into it. *)
Theorem C116_corner : forall ks, ks <> [] ->
  Permutation (drawing_order ks) (combine (seq 0 (length ks)) ks) /\
  (forall a x b y c, drawing_order ks = a ++ x :: b ++ y :: c -> (snd y <= snd x)%nat) /\ corner_backend ks = Some true.
Proof.
  intros ks N. split; [apply order_perm|]. pose proof (order_sorted ks) as S. split.
  - intros a x b y c E. rewrite E in S. clear E. induction a as [|z a IH]; cbn [app] in S; inversion S as [|? ? S' F]; subst; [|apply IH, S']. rewrite Forall_forall in F. apply F. apply in_or_app. right. left. reflexivity.
  - unfold corner_backend. assert (D : forall l m, draw m true l = Some true) by (induction l as [|[i k] l IH]; intro m; [reflexivity|]; cbn [draw]; destruct (Nat.eqb k m); apply IH).
    assert (SN : map snd (combine (seq 0 (length ks)) ks) = ks) by apply combine_snd.
    pose proof (order_perm ks) as P. apply (Permutation_map snd) in P. rewrite SN in P. destruct (drawing_order ks) as [|[i k] l] eqn:E; [exfalso; cbn in P; apply Permutation_nil in P; contradiction|]. assert (K : k = list_max ks). { assert (LE : Forall (fun x => (x <= k)%nat) ks). { apply (Permutation_Forall P). cbn [map snd]. constructor; [lia|]. inversion S as [|? ? S' F]; subst. rewrite Forall_map. exact F. } apply list_max_le in LE. assert (GE : (k <= list_max ks)%nat). { assert (I : In k ks) by (apply (Permutation_in _ P); left; reflexivity). pose proof (proj1 (list_max_le ks (list_max ks)) (Nat.le_refl _)) as F. rewrite Forall_forall in F. apply F, I. } lia. }
    cbn [draw]. rewrite K, Nat.eqb_refl. apply D.
Qed.
Print Assumptions C116_corner.
(** Panel [p] of the forest plot shows, in its own row, each distribution that has this parameter: the median and both intervals. *)
Theorem C116_forest : forall p dists i m b1 b2, In (i, m, b1, b2) (forest_panel p dists) <-> exists d, nth_error dists i = Some d /\ nth_error d p = Some (m, b1, b2).
Proof.
  intros p dists i m b1 b2. unfold forest_panel. rewrite in_flat_map.
  assert (C : forall (l : list (list ci)) k d j, In (j, d) (combine (seq k (length l)) l) <-> (k <= j)%nat /\ nth_error l (j - k) = Some d). { induction l as [|e l IH]; intros k d j; cbn [length seq combine]; [split; [intros []|intros [_ Q]; destruct (j - k)%nat; discriminate]|]. cbn [In]. rewrite IH. split.
    - intros [E|[L Q]]; [assert (k = j) by congruence; subst j; rewrite Nat.sub_diag; split; [lia|cbn; congruence]|]. split; [lia|]. replace (j - k)%nat with (S (j - S k)) by lia. exact Q.
    - intros [L Q]. destruct (Nat.eq_dec j k) as [->|NE]; [left; rewrite Nat.sub_diag in Q; cbn in Q; congruence|right]. split; [lia|]. replace (j - k)%nat with (S (j - S k)) in Q by lia. exact Q. }
  assert (R : forall x y, x - (x - y) = y) by (intros; ring). assert (R' : forall x y, x + (y - x) = y) by (intros; ring). split.
  - intros ([j d] & I & F). apply C in I. rewrite Nat.sub_0_r in I. cbn [fst snd] in F. unfold forest_row in F. destruct (nth_error d p) as [[[m' [l1 h1]] [l2 h2]]|] eqn:E; [|destruct F]. destruct F as [F|[]]. unfold bar in F. rewrite !R, !R' in F. assert (j = i) by congruence. subst j. exists d. split; [apply I|]. rewrite E. inversion F; subst; reflexivity.
  - intros (d & N & E). exists (i, d). split; [apply C; split; [lia|rewrite Nat.sub_0_r; exact N]|]. cbn [fst snd]. unfold forest_row. rewrite E. destruct b1 as [l1 h1], b2 as [l2 h2]. unfold bar. rewrite !R, !R'. left. reflexivity.
Qed.
Print Assumptions C116_forest.
(** Concrete cases. *)
Example C116_sat : (forall u, In u [2; 3; 100] -> 0 < u) /\ legend [("a", 2); ("b", 3); ("c", 2)]%nat%string = ["a"; "b"; "c"]%string /\
  drawing_order [2; 3; 2]%nat = [(1, 3); (0, 2); (2, 2)]%nat /\ corner_backend [2; 3; 2]%nat = Some true /\
  plot_slice (2, 3, 4)%nat (fun i j k => (i, j, k)) 1 (-1) = Image 2 4 (fun r c => (r, 2, c)%nat) /\
  In (1%nat, 5, (4, 7), (3, 9)) (forest_panel 1 [[(0, (0, 0), (0, 0))]; [(1, (1, 1), (1, 1)); (5, (4, 7), (3, 9))]]).
Proof.
  split; [intros u [<-|[<-|[<-|[]]]]; lra|]. split; [rewrite C116_legend; reflexivity|]. split; [reflexivity|]. split; [reflexivity|]. split; [reflexivity|]. apply C116_forest. eexists. split; reflexivity.
Qed.
