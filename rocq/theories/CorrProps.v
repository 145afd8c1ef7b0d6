(** C71: correlation functions. *)
From Coq Require Import List Arith Reals Lra Lia Bool Ratan Permutation.
From Verif Require Import RLib CorrModel.
Import ListNotations.
Local Open Scope R_scope.

(** * Specification *)
(** The formula of the documentation: sinc(x) = sin x / x. *)
Definition sinc (x : R) : R := if Req_EM_T x 0 then 1 else sin x / x.
Definition documented (modes : list (R * R)) (r : R) : R :=
  4 * PI * trapz (map (fun e => (fst e, fst e ^ 2 * snd e * sinc (fst e * r))) modes).
Fixpoint ascending (l : list R) : Prop := match l with a :: ((b :: _) as r) => a <= b /\ ascending r | _ => True end.
(** The number of pairs of points at a distance inside bin [i]. *)
Definition true_pair_count {P} (d : P -> P -> R) (p0 : P) (edges : list R) (pts : list P) (i : nat) : nat :=
  length (filter (fun ij => (Nat.ltb (fst ij) (snd ij) && in_bin edges i (d (nth (fst ij) pts p0) (nth (snd ij) pts p0)))%bool)
         (list_prod (seq 0 (length pts)) (seq 0 (length pts)))).

(** * Helpers *)
Lemma rsum_cons : forall x l, rsum (x :: l) = x + rsum l.
Proof. reflexivity. Qed.
Lemma np_sinc_sinc : forall x, np_sinc x = sinc (PI * x).
Proof.
  intro x. unfold np_sinc, sinc. pose proof PI_RGT_0. destruct (Req_EM_T x 0) as [->|N]; destruct (Req_EM_T _ 0) as [E|E]; try reflexivity.
  - exfalso. apply E. ring.
  - exfalso. apply Rmult_integral in E. destruct E; [lra|contradiction].
Qed.
Lemma sinc_bound : forall x, Rabs (sinc x) <= 1.
Proof.
  intro x. unfold sinc. destruct (Req_EM_T x 0) as [E|E]; [rewrite Rabs_R1; lra|].
  assert (P : forall y, 0 < y -> Rabs (sin y) <= y).
  { intros y Hy. destruct (Rle_dec y 1) as [L|L].
    - pose proof (sin_lt_x y Hy). assert (0 < sin y) by (apply sin_gt_0; pose proof PI2_1; lra). rewrite Rabs_right; lra.
    - pose proof (SIN_bound y). apply Rabs_le. lra. }
  unfold Rdiv. rewrite Rabs_mult, Rabs_inv. apply Rmult_le_reg_r with (Rabs x); [apply Rabs_pos_lt; exact E|]. rewrite Rmult_assoc, Rinv_l by (apply Rabs_no_R0; exact E). rewrite Rmult_1_r, Rmult_1_l.
  destruct (Rlt_dec 0 x) as [L|L]; [rewrite (Rabs_right x) by lra; apply P; exact L|]. rewrite (Rabs_left x) by lra. replace (sin x) with (- sin (- x)) by (rewrite sin_neg; ring). rewrite Rabs_Ropp. apply P. lra.
Qed.
Lemma trapz_abs : forall (g h : R * R -> R) l, ascending (map fst l) -> (forall e, In e l -> Rabs (g e) <= h e) -> Rabs (trapz (map (fun e => (fst e, g e)) l)) <= trapz (map (fun e => (fst e, h e)) l).
Proof.
  intros g h. induction l as [|a [|b l] IH]; intros A H; [cbn; rewrite Rabs_R0; lra|cbn; rewrite Rabs_R0; lra|].
  cbn [map ascending] in A. destruct A as [A1 A2]. specialize (IH A2 ltac:(intros; apply H; right; assumption)).
  change (trapz (map (fun e => (fst e, g e)) (a :: b :: l))) with ((fst b - fst a) * (g a + g b) / 2 + trapz (map (fun e => (fst e, g e)) (b :: l))).
  change (trapz (map (fun e => (fst e, h e)) (a :: b :: l))) with ((fst b - fst a) * (h a + h b) / 2 + trapz (map (fun e => (fst e, h e)) (b :: l))).
  eapply Rle_trans; [apply Rabs_triang|]. apply Rplus_le_compat; [|exact IH].
  unfold Rdiv. rewrite !Rabs_mult, (Rabs_right (/ 2)) by lra. apply Rmult_le_compat_r; [lra|]. rewrite (Rabs_right (fst b - fst a)) by lra. apply Rmult_le_compat_l; [lra|].
  eapply Rle_trans; [apply Rabs_triang|]. pose proof (H a (or_introl eq_refl)). pose proof (H b (or_intror (or_introl eq_refl))). lra.
Qed.
Lemma trapz_linear : forall (g h : R * R -> R) c l, trapz (map (fun e => (fst e, c * g e + h e)) l) = c * trapz (map (fun e => (fst e, g e)) l) + trapz (map (fun e => (fst e, h e)) l).
Proof.
  intros g h c. induction l as [|a [|b l] IH]; [cbn; ring|cbn; ring|].
  change (trapz (map (fun e => (fst e, c * g e + h e)) (a :: b :: l))) with ((fst b - fst a) * (c * g a + h a + (c * g b + h b)) / 2 + trapz (map (fun e => (fst e, c * g e + h e)) (b :: l))).
  change (trapz (map (fun e => (fst e, g e)) (a :: b :: l))) with ((fst b - fst a) * (g a + g b) / 2 + trapz (map (fun e => (fst e, g e)) (b :: l))).
  change (trapz (map (fun e => (fst e, h e)) (a :: b :: l))) with ((fst b - fst a) * (h a + h b) / 2 + trapz (map (fun e => (fst e, h e)) (b :: l))). rewrite IH. field.
Qed.

(** * Theorems *)
(** The correlation at r is the documented integral at pi * r. *)
Theorem C71_scale : forall modes r, corr_at modes r = documented modes (PI * r).
Proof.
  intros modes r. unfold corr_at, documented. do 2 f_equal. apply map_ext. intros e. rewrite np_sinc_sinc. replace (PI * (fst e * r)) with (fst e * (PI * r)) by ring. reflexivity.
Qed.
Print Assumptions C71_scale.
Lemma sin_3pi2 : sin (PI * (3 * (1 / 2))) = -1.
Proof. replace (PI * (3 * (1 / 2))) with (PI / 2 + PI) by field. rewrite neg_sin, sin_PI2. reflexivity. Qed.
Theorem C71_scale_refuted : exists modes r, ascending (map fst modes) /\ corr_at modes r < 0 < documented modes r.
Proof.
  exists [(1, 0); (3, 1)], (1 / 2). pose proof PI_RGT_0 as P. pose proof PI_4 as B2. split; [cbn; lra|].
  unfold corr_at, documented. cbn [map trapz fst snd]. unfold np_sinc, sinc.
  destruct (Req_EM_T (1 * (1 / 2)) 0) as [E|_]; [lra|]. destruct (Req_EM_T (3 * (1 / 2)) 0) as [E|_]; [lra|]. rewrite sin_3pi2.
  assert (S : 0 < sin (3 * (1 / 2))) by (apply sin_gt_0; [lra|pose proof PI2_3_2; unfold PI2 in *; lra]). split.
  - replace (4 * PI * _) with (- (12 * 2)) by (field; lra). lra.
  - replace (4 * PI * _) with (24 * PI * sin (3 * (1 / 2))) by (field; lra). apply Rmult_lt_0_compat; [lra|exact S].
Qed.
Print Assumptions C71_scale_refuted.
(** Linear in the spectrum; bounded by its value at zero separation for non-negative spectra. *)
Theorem C71_linear : forall ks p q c r, length p = length ks -> length q = length ks ->
  corr_at (combine ks (map (fun e => c * fst e + snd e) (combine p q))) r = c * corr_at (combine ks p) r + corr_at (combine ks q) r.
Proof.
  intros ks p q c r Lp Lq. unfold corr_at.
  set (w := fun k : R => k ^ 2 * np_sinc (k * r)).
  assert (G : forall a b v, length a = length b -> trapz (map (fun e => (fst e, fst e ^ 2 * snd e * np_sinc (fst e * r))) (combine a b)) = v ->
     trapz (combine a (map (fun e => w (fst e) * snd e) (combine a b))) = v) by (intros a b v L <-; f_equal; revert b L; induction a as [|x a IH]; intros [|y b] L; try discriminate; [reflexivity|]; cbn [combine map fst snd]; f_equal; [unfold w; f_equal; ring|apply IH; injection L as L; exact L]).
  set (T := trapz (map _ (combine ks (map _ _)))).
  assert (H : T = c * trapz (map (fun e => (fst e, fst e ^ 2 * snd e * np_sinc (fst e * r))) (combine ks p)) + trapz (map (fun e => (fst e, fst e ^ 2 * snd e * np_sinc (fst e * r))) (combine ks q))).
  { unfold T. clear T G. revert p q Lp Lq. induction ks as [|k ks IH]; intros [|a p] [|b q] Lp Lq; try discriminate; [cbn; ring|].
    destruct ks as [|k2 ks]; destruct p as [|a2 p]; destruct q as [|b2 q]; try discriminate; [cbn; ring|].
    injection Lp as Lp. injection Lq as Lq. specialize (IH (a2 :: p) (b2 :: q) ltac:(cbn; lia) ltac:(cbn; lia)). cbn [combine map fst snd] in IH |- *.
    cbn [trapz fst snd] in IH |- *. rewrite IH. field. }
  rewrite H. ring.
Qed.
Print Assumptions C71_linear.
Example C71_linear_sat : exists (ks : list R) (p : list R) (q : list R), length p = length ks /\ length q = length ks.
Proof. exists [1; 2; 3], [4; 5; 6], [7; 8; 9]. repeat split; first [lra | lia | reflexivity | discriminate | congruence | auto]. Qed.
Theorem C71_bound : forall modes r, ascending (map fst modes) -> (forall e, In e modes -> 0 <= snd e) -> Rabs (corr_at modes r) <= corr_at modes 0.
Proof.
  intros modes r A H. unfold corr_at. pose proof PI_RGT_0. rewrite Rabs_mult, (Rabs_right (4 * PI)) by lra. apply Rmult_le_compat_l; [lra|].
  apply (trapz_abs (fun e => fst e ^ 2 * snd e * np_sinc (fst e * r)) (fun e => fst e ^ 2 * snd e * np_sinc (fst e * 0))); [exact A|].
  intros e He. rewrite Rmult_0_r. unfold np_sinc at 2. destruct (Req_EM_T 0 0) as [_|N]; [|contradiction]. rewrite Rmult_1_r, Rabs_mult. pose proof (H e He). pose proof (pow2_ge_0 (fst e)).
  rewrite (Rabs_right (fst e ^ 2 * snd e)) by (apply Rle_ge, Rmult_le_pos; assumption). rewrite np_sinc_sinc. pose proof (sinc_bound (PI * (fst e * r))).
  rewrite <- (Rmult_1_r (fst e ^ 2 * snd e)) at 2. apply Rmult_le_compat_l; [apply Rmult_le_pos; assumption|assumption].
Qed.
Print Assumptions C71_bound.
Example C71_bound_sat : exists (modes : list (R * R)), ascending (map fst modes) /\ (forall e, In e modes -> 0 <= snd e).
Proof. exists [(1, 2); (2, 3)]. split; [cbn; lra|intros e [<-|[<-|[]]]; cbn; lra]. Qed.
(** Empty bins of the spectrum are left out: the result does not change when they are deleted. *)
Theorem C71_empty_bins : forall ks ps k r, length ps = length ks -> forall i, (i <= length ks)%nat ->
  corr_at (finite_modes (firstn i ks ++ k :: skipn i ks) (firstn i ps ++ None :: skipn i ps)) r = corr_at (finite_modes ks ps) r.
Proof.
  intros ks ps k r L i Hi. f_equal. unfold finite_modes. revert ps L i Hi. induction ks as [|a ks IH]; intros [|b ps] L i Hi; try discriminate; destruct i as [|i]; try reflexivity; cbn in Hi; try lia.
  cbn [firstn skipn app combine flat_map]. f_equal. apply IH; [injection L as L; exact L|lia].
Qed.
Print Assumptions C71_empty_bins.
Example C71_empty_bins_sat : exists (ks : list R) (ps : list (option R)), length ps = length ks /\ exists i, (i <= length ks)%nat.
Proof. exists [1; 2; 3], [Some 4; None; Some 6]. split; [reflexivity|]. exists 2%nat. cbn; lia. Qed.
(** Radii: a count of bins needs a numeric box size, so the default [box_dims=None] and one side per axis raise. *)
Theorem C71_radii_domain : forall sp n0 rb box lb, correlation_function sp n0 rb box lb = None <-> (exists n, rb = RCount n) /\ (forall L, box <> BoxNumber L).
Proof.
  intros sp n0 rb box lb. unfold correlation_function, ps_to_corr, radii. destruct rb as [n|l].
  - destruct box; split; intro H; try discriminate; try reflexivity; try (split; [exists n; reflexivity|discriminate]). destruct H as [_ H]. exfalso. apply (H L). reflexivity.
  - split; [discriminate|]. intros [[n H] _]. discriminate.
Qed.
Print Assumptions C71_radii_domain.
Lemma linspace_ends : forall a b n, (2 <= n)%nat -> linspace a b n 0 = a /\ linspace a b n (n - 1) = b.
Proof.
  intros a b n H. unfold linspace. cbn [INR]. assert (0 < INR (n - 1)) by (apply lt_0_INR; lia). split; field; lra.
Qed.
Lemma linspace_mono : forall a b n i, (2 <= n)%nat -> linspace a b n i < linspace a b n (S i) <-> a < b.
Proof.
  intros a b n i H. unfold linspace. assert (P : 0 < INR (n - 1)) by (apply lt_0_INR; lia). rewrite S_INR. unfold Rdiv.
  assert (E : a + (b - a) * (INR i + 1) * / INR (n - 1) = a + (b - a) * INR i * / INR (n - 1) + (b - a) * / INR (n - 1)) by ring. rewrite E. pose proof (Rinv_0_lt_compat _ P). split; intro L.
  - assert (0 < (b - a) * / INR (n - 1)) by lra. apply Rmult_lt_reg_r with (/ INR (n - 1)); [assumption|]. lra.
  - assert (0 < (b - a) * / INR (n - 1)) by (apply Rmult_lt_0_compat; lra). lra.
Qed.
(** They go from two cells to half the box, and ascend iff the grid has more than four cells a side. *)
Theorem C71_radii : forall n L N lb rs, (2 <= n)%nat -> (0 < N)%nat -> 0 < L -> radii (RCount n) (BoxNumber L) (Some N) lb = Some rs ->
  length rs = n /\ nth 0 rs 0 = 2 * L / INR N /\ nth (n - 1) rs 0 = L / 2 /\ forall i, (S i < n)%nat -> (nth i rs 0 < nth (S i) rs 0 <-> (4 < N)%nat).
Proof.
  intros n L N lb rs Hn HN HL E. cbn in E. injection E as E. subst rs. pose proof (lt_0_INR N HN) as PN. set (a := 2 * L / INR N). set (b := L / 2).
  assert (Pa : 0 < a) by (apply Rdiv_lt_0_compat; lra). assert (Pb : 0 < b) by (unfold b; lra).
  assert (AB : a < b <-> (4 < N)%nat).
  { unfold a, b. split; intro H.
    - apply INR_lt. apply Rmult_lt_compat_r with (r := INR N) in H; [|exact PN]. unfold Rdiv in H. rewrite Rmult_assoc, Rinv_l in H by lra. replace (INR 4) with 4 by (cbn; lra). apply Rmult_lt_reg_l with (L / 2); lra.
    - apply lt_INR in H. replace (INR 4) with 4 in H by (cbn; lra). apply Rmult_lt_reg_r with (INR N); [exact PN|]. unfold Rdiv. rewrite Rmult_assoc, Rinv_l by lra. apply Rmult_lt_compat_l with (r := L / 2) in H; lra. }
  assert (N10 : 0 < ln 10) by (rewrite <- ln_1; apply ln_increasing; lra).
  assert (PW : forall x, 0 < x -> Rpower 10 (ln x / ln 10) = x) by (intros x Hx; unfold Rpower; replace (ln x / ln 10 * ln 10) with (ln x) by (field; lra); apply exp_ln; exact Hx).
  set (f := fun i => if lb then _ else _). assert (NT : forall i, (i < n)%nat -> nth i (map f (seq 0 n)) 0 = f i).
  { intros i Hi. rewrite (nth_indep _ 0 (f 0%nat)) by (rewrite map_length, seq_length; exact Hi). rewrite map_nth, seq_nth by exact Hi. reflexivity. }
  split; [rewrite map_length, seq_length; reflexivity|]. rewrite !NT by lia.
  split; [|split].
  - unfold f. destruct lb; rewrite (proj1 (linspace_ends _ _ n Hn)); [apply PW; exact Pa|reflexivity].
  - unfold f. destruct lb; rewrite (proj2 (linspace_ends _ _ n Hn)); [apply PW; exact Pb|reflexivity].
  - intros i Hi. rewrite !NT by lia. rewrite <- AB. unfold f. destruct lb; [|apply linspace_mono; exact Hn].
    assert (LL : a < b <-> ln a / ln 10 < ln b / ln 10).
    { split; intro H; [apply Rmult_lt_compat_r; [apply Rinv_0_lt_compat; exact N10|apply ln_increasing; assumption]|]. apply Rmult_lt_reg_r in H; [|apply Rinv_0_lt_compat; exact N10]. apply ln_lt_inv; assumption. }
    rewrite LL. pose proof (linspace_mono (ln a / ln 10) (ln b / ln 10) n i Hn) as M. split; intro H; [apply M|apply Rpower_lt; [lra|apply M; exact H]].
    destruct (Rlt_dec (linspace (ln a / ln 10) (ln b / ln 10) n i) (linspace (ln a / ln 10) (ln b / ln 10) n (S i))) as [Y|Y]; [exact Y|exfalso]. apply Rnot_lt_le in Y. apply (Rle_Rpower 10) in Y; lra.
Qed.
Print Assumptions C71_radii.
Example C71_radii_sat : exists (n : nat) (L : R) (N : nat) (lb : bool) (rs : list R), (2 <= n)%nat /\ (0 < N)%nat /\ 0 < L /\ radii (RCount n) (BoxNumber L) (Some N) lb = Some rs.
Proof. eexists 5%nat, 100, 50%nat, true, _. repeat split; try lia; lra. Qed.

(** ** Landy-Szalay *)
(** With the documented array of edges it never returns. *)
Theorem C71_edges_refuted : forall P (d : P -> P -> R) p0 data randoms l rmin rmax box lb, landy_szalay_estimator d p0 data randoms (Edges l) rmin rmax box lb = None.
Proof. reflexivity. Qed.
Print Assumptions C71_edges_refuted.
(** When all points are within rmax of each other, the data-data count holds no information on the
    positions: in each bin it is (n-1) times the number of point indices that fall inside the bin. *)
Lemma count_sum : forall {A} (f : A -> bool) l, INR (length (filter f l)) = rsum (map (fun x => if f x then 1 else 0) l).
Proof. intros A f. induction l as [|x l IH]; [reflexivity|]. cbn [filter map]. rewrite rsum_cons. destruct (f x); cbn [length]; [rewrite S_INR|]; rewrite IH; ring. Qed.
Lemma rsum_prod : forall {A B} (f : A * B -> R) la lb, rsum (map f (list_prod la lb)) = rsum (map (fun a => rsum (map (fun b => f (a, b)) lb)) la).
Proof.
  intros A B f la lb. induction la as [|a la IH]; [reflexivity|]. cbn [list_prod map]. rewrite map_app, rsum_app, map_map, rsum_cons, IH. reflexivity.
Qed.
Lemma count_below : forall n m, rsum (map (fun i => if Nat.ltb i m then 1 else 0) (seq 0 n)) = INR (Nat.min n m).
Proof.
  induction n as [|n IH]; intro m; [reflexivity|]. rewrite seq_S, map_app, rsum_app, IH. cbn [map Nat.add]. rewrite rsum_cons. change (rsum []) with 0. destruct (Nat.ltb_spec n m).
  - rewrite !Nat.min_l by lia. rewrite S_INR. ring.
  - rewrite !Nat.min_r by lia. ring.
Qed.
Lemma count_above : forall n m, (m < n)%nat -> rsum (map (fun j => if Nat.ltb m j then 1 else 0) (seq 0 n)) = INR (n - 1 - m).
Proof.
  intros n m H. assert (E : rsum (map (fun j => (if Nat.ltb m j then 1 else 0) + (if Nat.ltb j (S m) then 1 else 0)) (seq 0 n)) = INR n).
  { rewrite (rsum_ext _ (fun _ => 1) (seq 0 n)); [rewrite rsum_const, seq_length; ring|]. intros j _. destruct (Nat.ltb_spec m j), (Nat.ltb_spec j (S m)); lia || ring. }
  rewrite rsum_plus, count_below, Nat.min_r in E by lia. replace (n - 1 - m)%nat with (n - S m)%nat by lia. rewrite minus_INR by lia. lra.
Qed.
Theorem C71_pair_count_blind : forall P (d : P -> P -> R) p0 edges rmax pts i,
  (forall a b, (a < length pts)%nat -> (b < length pts)%nat -> d (nth a pts p0) (nth b pts p0) <= rmax) ->
  pair_count d p0 edges rmax pts i = ((length pts - 1) * length (filter (fun m => in_bin edges i (INR m)) (seq 0 (length pts))))%nat.
Proof.
  intros P d p0 edges rmax pts i H. apply INR_eq. rewrite mult_INR, count_sum. unfold pair_count, histogram. rewrite count_sum. set (n := length pts) in *.
  set (w := fun x => if in_bin edges i x then 1 else 0).
  assert (Q : query_pairs d p0 pts rmax = filter (fun ij => Nat.ltb (fst ij) (snd ij)) (list_prod (seq 0 n) (seq 0 n))).
  { unfold query_pairs. apply filter_ext_in. intros [a b] Hin. apply in_prod_iff in Hin. destruct Hin as [Ha Hb]. apply in_seq in Ha, Hb. cbn [fst snd]. unfold rleb. destruct (Rle_dec _ rmax) as [_|N]; [apply andb_true_r|exfalso; apply N; apply H; fold n; lia]. }
  rewrite Q. assert (FM : forall l : list (nat * nat), rsum (map w (flat_map (fun ij => [INR (fst ij); INR (snd ij)]) l)) = rsum (map (fun ij => w (INR (fst ij)) + w (INR (snd ij))) l)).
  { induction l as [|x l IH]; [reflexivity|]. cbn [flat_map map app]. rewrite !rsum_cons, IH. ring. }
  change (rsum (map (fun x => if in_bin edges i x then 1 else 0) (flat_map (fun ij => [INR (fst ij); INR (snd ij)]) (filter (fun ij => Nat.ltb (fst ij) (snd ij)) (list_prod (seq 0 n) (seq 0 n)))))) with
    (rsum (map w (flat_map (fun ij => [INR (fst ij); INR (snd ij)]) (filter (fun ij => Nat.ltb (fst ij) (snd ij)) (list_prod (seq 0 n) (seq 0 n)))))). rewrite FM, rsum_filter, rsum_prod. cbn [fst snd].
  transitivity (rsum (map (fun a => w (INR a) * rsum (map (fun b => if Nat.ltb a b then 1 else 0) (seq 0 n))) (seq 0 n)) + rsum (map (fun b => w (INR b) * rsum (map (fun a => if Nat.ltb a b then 1 else 0) (seq 0 n))) (seq 0 n))).
  - rewrite (rsum_ext (fun a => rsum (map (fun b => if Nat.ltb a b then w (INR a) + w (INR b) else 0) (seq 0 n)))
      (fun a => w (INR a) * rsum (map (fun b => if Nat.ltb a b then 1 else 0) (seq 0 n)) + rsum (map (fun b => w (INR b) * (if Nat.ltb a b then 1 else 0)) (seq 0 n)))).
    + rewrite rsum_plus. f_equal. rewrite (rsum_swap (fun a b => w (INR b) * (if Nat.ltb a b then 1 else 0))). apply rsum_ext. intros b _. rewrite rsum_scale. reflexivity.
    + intros a _. rewrite <- rsum_scale, <- rsum_plus. apply rsum_ext. intros b _. destruct (Nat.ltb a b); ring.
  - rewrite <- rsum_plus, <- rsum_scale. apply rsum_ext. intros m Hm. apply in_seq in Hm. rewrite count_above, count_below, Nat.min_r by lia. fold (w (INR m)). rewrite <- Rmult_plus_distr_l, <- plus_INR. replace (n - 1 - m + m)%nat with (n - 1)%nat by lia. ring.
Qed.
Print Assumptions C71_pair_count_blind.
Example C71_pair_count_blind_sat : exists (P : Type) (d : P -> P -> R) (p0 : P) (rmax : R) (pts : list P), (forall a b, (a < length pts)%nat -> (b < length pts)%nat -> d (nth a pts p0) (nth b pts p0) <= rmax).
Proof. exists nat, (fun a b => Rabs (INR a - INR b)), 0%nat, 3, [1; 2; 3]%nat. intros [|[|[|a]]] [|[|[|b]]] A B; cbn in A, B; try lia; cbn; apply Rabs_le; lra. Qed.
(** So two catalogues of the same size have the same count, however clustered. *)
Corollary C71_clustering_refuted : forall P (d : P -> P -> R) p0 edges rmax pts pts' i, length pts' = length pts ->
  (forall a b, (a < length pts)%nat -> (b < length pts)%nat -> d (nth a pts p0) (nth b pts p0) <= rmax) ->
  (forall a b, (a < length pts)%nat -> (b < length pts)%nat -> d (nth a pts' p0) (nth b pts' p0) <= rmax) ->
  pair_count d p0 edges rmax pts i = pair_count d p0 edges rmax pts' i.
Proof. intros P d p0 edges rmax pts pts' i L H H'. rewrite !C71_pair_count_blind, L; [reflexivity|intros; rewrite L in *; apply H'; assumption|assumption]. Qed.
Print Assumptions C71_clustering_refuted.
(** Two points in a bin are not counted, and the order of the points matters. *)
Definition dist1 (x y : R) : R := Rabs (x - y).
Theorem C71_pair_count_refuted : let edges := [4; 6] in pair_count dist1 0 edges 6 [0; 5] 0 = 0%nat /\ true_pair_count dist1 0 edges [0; 5] 0 = 1%nat.
Proof.
  cbv zeta. unfold pair_count, true_pair_count, histogram, query_pairs, dist1. cbn [length seq list_prod map app filter fst snd nth Nat.ltb Nat.leb andb].
  replace (0 - 5) with (-5) by ring. rewrite (Rabs_left (-5)) by lra. unfold rleb, rltb, in_bin, rleb, rltb. cbn [nth length Nat.eqb].
  destruct (Rle_dec (- -5) 6); [|lra]. cbn [flat_map app filter fst snd INR].
  destruct (Rle_dec 4 0); [lra|]. destruct (Rle_dec 4 1); [lra|]. destruct (Rle_dec 4 (- -5)); [|lra]. destruct (Rlt_dec (- -5) 6); [|lra]. split; reflexivity.
Qed.
Print Assumptions C71_pair_count_refuted.
Theorem C71_order_refuted : exists edges pts pts', Permutation pts pts' /\ pair_count dist1 0 edges 2 pts 0 <> pair_count dist1 0 edges 2 pts' 0.
Proof.
  exists [3 / 2; 2], [0; 1; 10], [10; 0; 1]. split; [apply (Permutation_app_comm [0; 1] [10])|].
  unfold pair_count, histogram, query_pairs, dist1. cbn [length seq list_prod map app filter fst snd nth Nat.ltb Nat.leb andb].
  assert (A : forall x y, x <= y -> Rabs (x - y) = y - x) by (intros x y H; rewrite Rabs_minus_sym; apply Rabs_right; lra). assert (B : forall x y, y <= x -> Rabs (x - y) = x - y) by (intros x y H; apply Rabs_right; lra).
  rewrite (A 0 1), (A 0 10), (A 1 10), (B 10 0), (B 10 1) by lra. unfold rleb.
  destruct (Rle_dec (1 - 0) 2); [|lra]. destruct (Rle_dec (10 - 0) 2); [lra|]. destruct (Rle_dec (10 - 1) 2); [lra|]. cbn [flat_map app filter fst snd INR].
  unfold in_bin, rleb, rltb. cbn [nth length Nat.eqb]. destruct (Rle_dec (3 / 2) 0); [lra|]. destruct (Rle_dec (3 / 2) 1); [lra|]. destruct (Rle_dec (3 / 2) (1 + 1)); [|lra]. destruct (Rlt_dec (1 + 1) 2); [lra|]. destruct (Rle_dec (1 + 1) 2); [|lra]. cbn. discriminate.
Qed.
Print Assumptions C71_order_refuted.
(** The data-random count is the one of distances. *)
Theorem C71_cross_count : forall P (d : P -> P -> R) edges rmax data randoms i,
  INR (cross_count d edges rmax data randoms i) = rsum (map (fun p => rsum (map (fun q => if Rlt_dec (d p q) rmax then if in_bin edges i (d p q) then 1 else 0 else 0) randoms)) data).
Proof.
  intros P d edges rmax data randoms i. unfold cross_count. induction data as [|p data IH]; [reflexivity|]. cbn [fold_right map]. rewrite plus_INR, IH, rsum_cons. f_equal.
  unfold histogram. rewrite count_sum, rsum_filter, map_map. apply rsum_ext. intros q _. unfold rltb. destruct (Rlt_dec (d p q) rmax), (in_bin edges i (d p q)); reflexivity.
Qed.
Print Assumptions C71_cross_count.
Theorem C71_estimator : forall dd rr dr, (estimator dd rr dr = None <-> rr = 0) /\ forall x, estimator dd rr dr = Some x -> x * rr = dd - 2 * dr + rr.
Proof.
  intros dd rr dr. unfold estimator. destruct (Req_EM_T rr 0) as [E|E]; split; try (split; congruence); intros x H; [discriminate|]. injection H as <-. field. exact E.
Qed.
Print Assumptions C71_estimator.
(** The bins: half open, the last one closed. *)
Theorem C71_bins : forall edges i x, in_bin edges i x = true <-> nth i edges 0 <= x /\ (x < nth (S i) edges 0 \/ S (S i) = length edges /\ x = nth (S i) edges 0).
Proof.
  intros edges i x. unfold in_bin, rleb, rltb. cbv zeta. destruct (Rle_dec (nth i edges 0) x) as [A|A]; [|split; [discriminate|intros [X _]; contradiction]]. rewrite andb_true_l.
  destruct (Rlt_dec x (nth (S i) edges 0)) as [B|B]; [split; auto|]. rewrite orb_false_l. destruct (Nat.eqb_spec (S (S i)) (length edges)) as [L|L]; [rewrite andb_true_l|split; [discriminate|intros [_ [X|[X _]]]; contradiction]].
  destruct (Rle_dec x (nth (S i) edges 0)) as [D|D]; [split; [intros _; split; [exact A|right; split; [exact L|lra]]|auto]|split; [discriminate|intros [_ [X|[_ X]]]; lra]].
Qed.
Print Assumptions C71_bins.
(** What is returned for a number of radii: one entry less than that number, each the estimator of the counts over the numbers of pairs. *)
Theorem C71_landy_szalay : forall P (d : P -> P -> R) p0 data randoms n rmin rmax box lb, (2 <= length data)%nat -> (2 <= length randoms)%nat -> exists l edges top,
  landy_szalay_estimator d p0 data randoms (Count n) rmin rmax box lb = Some l /\ edges_of (Count n) rmin rmax box lb = (edges, Some top) /\ length edges = n /\ length l = (n - 1)%nat /\
  top = match rmax with Some x => x | None => box end /\
  forall i, (i < n - 1)%nat -> let pairs (k : nat) := INR k * (INR k - 1) in let dd := INR (pair_count d p0 edges top data i) in let rr := INR (pair_count d p0 edges top randoms i) in let dr := INR (cross_count d edges top data randoms i) in
    (nth i l None = None <-> rr = 0) /\
    forall xi, nth i l None = Some xi -> (xi - 1) * (2 * rr / pairs (length randoms)) = 2 * dd / pairs (length data) - 2 * dr / (INR (length data) * INR (length randoms)).
Proof.
  intros P d p0 data randoms n rmin rmax box lb HD HR. unfold landy_szalay_estimator. destruct (edges_of (Count n) rmin rmax box lb) as [edges top] eqn:E. assert (E' := E). cbn [edges_of] in E'. injection E' as E1 E2.
  subst top. exists (map (fun i => estimator (INR (pair_count d p0 edges (match rmax with Some x => x | None => box end) data i) / (INR (length data) * (INR (length data) - 1) / 2))
    (INR (pair_count d p0 edges (match rmax with Some x => x | None => box end) randoms i) / (INR (length randoms) * (INR (length randoms) - 1) / 2))
    (INR (cross_count d edges (match rmax with Some x => x | None => box end) data randoms i) / (INR (length data) * INR (length randoms)))) (seq 0 (length edges - 1))), edges, (match rmax with Some x => x | None => box end).
  assert (LE : length edges = n) by (rewrite <- E1, map_length, seq_length; reflexivity).
  split; [reflexivity|]. split; [reflexivity|]. split; [exact LE|]. split; [rewrite map_length, seq_length, LE; reflexivity|]. split; [reflexivity|].
  intros i Hi. cbv zeta. rewrite LE. set (top := match rmax with Some x => x | None => box end).
  assert (ND : 2 <= INR (length data)) by (apply le_INR in HD; cbn in HD; lra). assert (NR : 2 <= INR (length randoms)) by (apply le_INR in HR; cbn in HR; lra).
  set (nd := INR (length data)) in *. set (nr := INR (length randoms)) in *. set (f := fun i => estimator (INR (pair_count d p0 edges top data i) / (nd * (nd - 1) / 2)) (INR (pair_count d p0 edges top randoms i) / (nr * (nr - 1) / 2)) (INR (cross_count d edges top data randoms i) / (nd * nr))).
  change (map _ (seq 0 (n - 1))) with (map f (seq 0 (n - 1))). rewrite (nth_indep _ None (f 0%nat)) by (rewrite map_length, seq_length; exact Hi). rewrite map_nth, seq_nth by exact Hi. cbn [Nat.add]. unfold f.
  destruct (C71_estimator (INR (pair_count d p0 edges top data i) / (nd * (nd - 1) / 2)) (INR (pair_count d p0 edges top randoms i) / (nr * (nr - 1) / 2)) (INR (cross_count d edges top data randoms i) / (nd * nr))) as [A B].
  split.
  - rewrite A. set (rr := INR (pair_count d p0 edges top randoms i)). assert (Q : 0 < nr * (nr - 1) / 2) by (apply Rmult_lt_0_compat; [apply Rmult_lt_0_compat; lra|lra]). split; intro H.
    + apply (Rmult_eq_compat_r (nr * (nr - 1) / 2)) in H. unfold Rdiv at 1 in H. rewrite Rmult_assoc, Rinv_l, Rmult_1_r, Rmult_0_l in H by lra. exact H.
    + rewrite H. unfold Rdiv. apply Rmult_0_l.
  - intros xi H. apply B in H. set (rr := INR (pair_count d p0 edges top randoms i)) in *. set (dd := INR (pair_count d p0 edges top data i)) in *. set (dr := INR (cross_count d edges top data randoms i)) in *.
    replace (2 * rr / (nr * (nr - 1))) with (rr / (nr * (nr - 1) / 2)) by (field; split; lra). replace (2 * dd / (nd * (nd - 1))) with (dd / (nd * (nd - 1) / 2)) by (field; split; lra).
    replace (2 * dr / (nd * nr)) with (2 * (dr / (nd * nr))) by (field; split; lra). lra.
Qed.
Print Assumptions C71_landy_szalay.
Example C71_landy_szalay_sat : exists (P : Type) (data : list P) (randoms : list P), (2 <= length data)%nat /\ (2 <= length randoms)%nat.
Proof. exists R, [1; 2; 3], [1; 4]. cbn; lia. Qed.
Example C71_sat : ascending (map fst [(1, 2); (2, 3); (4, 1)]) /\ (forall e, In e [(1, 2); (2, 3); (4, 1)] -> 0 <= snd e) /\
  finite_modes [1; 2; 4] [Some 2; None; Some 1] = [(1, 2); (4, 1)] /\ (exists rs, radii (RCount 3) (BoxNumber 100) (Some 10%nat) true = Some rs) /\
  (forall a b, (a < 3)%nat -> (b < 3)%nat -> dist1 (nth a [0; 1; 3] 0) (nth b [0; 1; 3] 0) <= 3).
Proof.
  split; [cbn; lra|]. split; [intros e [<-|[<-|[<-|[]]]]; cbn; lra|]. split; [reflexivity|]. split; [eexists; reflexivity|].
  intros a b Ha Hb. unfold dist1. destruct a as [|[|[|]]], b as [|[|[|]]]; try lia; cbn [nth]; apply Rabs_le; lra.
Qed.
