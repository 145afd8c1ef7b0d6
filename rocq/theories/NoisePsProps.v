(** C93: spectrum of the thermal noise and weighting of the visibilities. *)
From Coq Require Import String List Arith ZArith Reals Lra Lia Bool.
From Verif Require Import RLib KGridModel FourierModel FourierSpec FourierProofs NoiseModel SpecModel NoisePsModel.
Import ListNotations.
Local Open Scope R_scope.

(** * Specification *)
Definition ascending (edges : list R) : Prop := forall i j, (i < j < length edges)%nat -> nth i edges 0 < nth j edges 0.
Definition k2 (n : nat) (L : R) (a : list nat) : R := k_of [n; n] [L; L] a.
(** No baseline falls into the cell of the uv plane whose power sits at [a] after the shift. *)
Definition unobserved (n : nat) (uv : array) (a : list nat) : Prop := valid [n; n] a /\ uv (shift_sources [n; n] a) = 0.
(** Below the upper edge of bin [b], the last edge belonging to the last bin. *)
Definition below_top (edges : list R) (b : nat) (k : R) : Prop := if (S (S b) =? length edges)%nat then k <= nth (S b) edges 0 else k < nth (S b) edges 0.

Lemma rltb_iff : forall a b, rltb a b = true <-> a < b.
Proof. intros. unfold rltb. destruct (Rlt_dec a b); split; intros; try tauto; discriminate. Qed.
Lemma rleb_iff : forall a b, rleb a b = true <-> a <= b.
Proof. intros. unfold rleb. destruct (Rle_dec a b); split; intros; try tauto; discriminate. Qed.

(** * Cumulative sums with infinities *)
Definition val (e : ext) : R := match e with Fin x => x | _ => 0 end.
Definition up (e : ext) : Prop := (exists x, e = Fin x) \/ e = Inf.
Definition is_inf (e : ext) : bool := match e with Inf => true | _ => false end.
Lemma cum_from : forall (p : R -> bool) cells acc, up acc -> (forall c, In c cells -> up (snd c)) ->
  fold_left (fun acc (c : R * ext) => if p (fst c) then add acc (snd c) else acc) cells acc =
  if is_inf acc || existsb (fun c : R * ext => p (fst c) && is_inf (snd c)) cells then Inf else Fin (val acc + rsum (map (fun c => val (snd c)) (filter (fun c => p (fst c)) cells))).
Proof.
  intros p cells. induction cells as [|[k w] cells IH]; intros acc A H.
  - cbn. rewrite orb_false_r. destruct A as [(x & ->)| ->]; cbn; [f_equal; lra|reflexivity].
  - cbn [fold_left existsb filter fst snd]. assert (W : up w) by (apply (H (k, w)); left; reflexivity). assert (H' : forall c, In c cells -> up (snd c)) by (intros c I; apply H; right; exact I). destruct (p k) eqn:P.
    + assert (A' : up (add acc w)) by (destruct A as [(x & ->)| ->], W as [(y & ->)| ->]; cbn; [left; eexists; reflexivity|right; reflexivity|right; reflexivity|right; reflexivity]).
      rewrite (IH _ A' H'). cbn [map snd]. destruct A as [(x & ->)| ->], W as [(y & ->)| ->]; cbn [add is_inf andb orb val]; try reflexivity. destruct (existsb _ cells); [reflexivity|]. f_equal. unfold rsum. cbn [map fold_right snd val]. lra.
    + rewrite (IH _ A H'). reflexivity.
Qed.
Definition finite_weights (cells : list (R * ext)) : Prop := forall c, In c cells -> up (snd c).
Lemma cum_spec : forall edges cells b, finite_weights cells ->
  cum edges cells b = if existsb (fun c => under edges b (fst c) && is_inf (snd c)) cells then Inf else Fin (rsum (map (fun c => val (snd c)) (filter (fun c => under edges b (fst c)) cells))).
Proof. intros edges cells b H. unfold cum. rewrite (cum_from (under edges b) cells (Fin 0)); [|left; eexists; reflexivity|exact H]. cbn [is_inf orb val]. destruct (existsb _ cells); [reflexivity|]. f_equal. lra. Qed.
Lemma under_bin : forall edges b k, (S b < length edges)%nat -> in_bin edges b k = under edges (S b) k && negb (under edges b k).
Proof.
  intros edges b k H. unfold in_bin, under. replace (S b =? length edges)%nat with false by (symmetry; apply Nat.eqb_neq; lia). rewrite andb_comm. f_equal. unfold rleb, rltb. destruct (Rle_dec _ _), (Rlt_dec _ _); cbn; try reflexivity; lra.
Qed.
Lemma under_mono : forall edges b k, ascending edges -> (S b < length edges)%nat -> under edges b k = true -> under edges (S b) k = true.
Proof.
  intros edges b k A H. unfold under. replace (S b =? length edges)%nat with false by (symmetry; apply Nat.eqb_neq; lia). rewrite rltb_iff. specialize (A b (S b) ltac:(lia)). intro. destruct (S (S b) =? length edges)%nat; [rewrite rleb_iff|rewrite rltb_iff]; lra.
Qed.
Lemma filter_split : forall {A} (p q : A -> bool) (f : A -> R) l, (forall x, In x l -> p x = true -> q x = true) ->
  rsum (map f (filter q l)) = rsum (map f (filter p l)) + rsum (map f (filter (fun x => q x && negb (p x)) l)) /\ (length (filter q l) = length (filter p l) + length (filter (fun x => q x && negb (p x)) l))%nat.
Proof.
  intros A p q f l. induction l as [|x l IH]; intro H; [cbn; split; [lra|reflexivity]|]. destruct (IH (fun y I => H y (or_intror I))) as [I1 I2]. specialize (H x (or_introl eq_refl)). cbn [filter]. unfold rsum in *. destruct (p x), (q x); cbn [andb negb map length fold_right] in *; try (discriminate (H eq_refl)); (split; [lra|lia]).
Qed.
(** One bin of weights that are numbers or infinite: nan above an infinity, infinite with one, else the mean. *)
Theorem C93_bins : forall edges cells b, ascending edges -> (S b < length edges)%nat -> finite_weights cells ->
  let r := nth b (averaged edges cells) NaN in let bin := filter (fun c => in_bin edges b (fst c)) cells in
  ((exists c, In c cells /\ snd c = Inf /\ fst c < nth b edges 0) -> r = NaN) /\
  (~ (exists c, In c cells /\ snd c = Inf /\ fst c < nth b edges 0) -> (exists c, In c bin /\ snd c = Inf) -> r = Inf) /\
  (~ (exists c, In c cells /\ snd c = Inf /\ below_top edges b (fst c)) -> r = match bin with [] => NaN | _ => Fin (rsum (map (fun c => val (snd c)) bin) / INR (length bin)) end).
Proof.
  intros edges cells b A Hb F r bin. assert (RR : r = over (hist_weighted edges cells b) (hist_count edges cells b)).
  { unfold r, averaged. rewrite (nth_indep _ NaN (over (hist_weighted edges cells 0) (hist_count edges cells 0))) by (rewrite map_length, seq_length; lia). rewrite (map_nth (fun b => over (hist_weighted edges cells b) (hist_count edges cells b))), seq_nth by lia. reflexivity. }
  assert (UB : forall k, under edges b k = true <-> k < nth b edges 0) by (intro k; unfold under; replace (S b =? length edges)%nat with false by (symmetry; apply Nat.eqb_neq; lia); apply rltb_iff).
  assert (UT : forall k, under edges (S b) k = true <-> below_top edges b k) by (intro k; unfold under, below_top; destruct (S (S b) =? length edges)%nat; [apply rleb_iff|apply rltb_iff]).
  assert (LOW : existsb (fun c : R * ext => under edges b (fst c) && is_inf (snd c)) cells = true <-> exists c, In c cells /\ snd c = Inf /\ fst c < nth b edges 0).
  { rewrite existsb_exists. split; intros (c & I & Q); exists c; (split; [exact I|]); [apply andb_true_iff in Q; destruct Q as [Q1 Q2]; apply UB in Q1; destruct (snd c); try discriminate; tauto|destruct Q as [Q1 Q2]; apply UB in Q2; rewrite Q1, Q2; reflexivity]. }
  assert (TOP : existsb (fun c : R * ext => under edges (S b) (fst c) && is_inf (snd c)) cells = true <-> exists c, In c cells /\ snd c = Inf /\ below_top edges b (fst c)).
  { rewrite existsb_exists. split; intros (c & I & Q); exists c; (split; [exact I|]); [apply andb_true_iff in Q; destruct Q as [Q1 Q2]; apply UT in Q1; destruct (snd c); try discriminate; tauto|destruct Q as [Q1 Q2]; apply UT in Q2; rewrite Q1, Q2; reflexivity]. }
  assert (BIN : bin = filter (fun c => under edges (S b) (fst c) && negb (under edges b (fst c))) cells) by (unfold bin; apply filter_ext; intro c; apply under_bin, Hb).
  destruct (filter_split (fun c : R * ext => under edges b (fst c)) (fun c => under edges (S b) (fst c)) (fun c => val (snd c)) cells (fun c _ => under_mono edges b (fst c) A Hb)) as [S1 S2]. rewrite <- BIN in S1, S2.
  assert (CNT : hist_count edges cells b = length bin) by (unfold hist_count; lia). rewrite RR, CNT. unfold hist_weighted. rewrite !cum_spec by exact F. split; [|split].
  - intro Q. assert (T : existsb (fun c : R * ext => under edges (S b) (fst c) && is_inf (snd c)) cells = true). { apply TOP. destruct Q as (c & I & E & K). exists c. split; [exact I|]. split; [exact E|]. apply UT, under_mono; [exact A|exact Hb|]. apply UB, K. }
    apply LOW in Q. rewrite Q, T. reflexivity.
  - intros N (c & I & E). assert (Q : existsb (fun c : R * ext => under edges b (fst c) && is_inf (snd c)) cells = false) by (apply not_true_is_false; intro Q; apply N, LOW, Q). rewrite Q. assert (T : existsb (fun c : R * ext => under edges (S b) (fst c) && is_inf (snd c)) cells = true).
    { apply existsb_exists. exists c. rewrite BIN in I. apply filter_In in I. destruct I as [I J]. apply andb_true_iff in J. destruct J as [J _]. split; [exact I|]. rewrite J, E. reflexivity. }
    rewrite T. reflexivity.
  - intro N. assert (T : existsb (fun c : R * ext => under edges (S b) (fst c) && is_inf (snd c)) cells = false) by (apply not_true_is_false; intro Q; apply N, TOP, Q). rewrite T.
    assert (Q : existsb (fun c : R * ext => under edges b (fst c) && is_inf (snd c)) cells = false). { apply not_true_is_false. intro Q. apply LOW in Q. apply N. destruct Q as (c & I & E & K). exists c. split; [exact I|]. split; [exact E|]. apply UT, under_mono; [exact A|exact Hb|]. apply UB, K. }
    rewrite Q. unfold sub. cbn [opp add]. rewrite S1. destruct bin as [|c0 bin'].
    + cbn. destruct (Req_EM_T _ 0) as [|Z]; [reflexivity|]. exfalso. apply Z. lra.
    + cbn [over length]. f_equal. set (m := INR _). unfold Rdiv. f_equal. lra.
Qed.
Print Assumptions C93_bins.

(** * The noise spectrum *)
Lemma scale_pos : forall n L, (0 < n)%nat -> 0 < L -> 0 < ps_scale n L.
Proof. intros n L Hn HL. unfold ps_scale. apply lt_INR in Hn. cbn in Hn. assert (0 < INR n * INR n) by nra. assert (0 < L * L) by nra. apply Rdiv_lt_0_compat; [apply pow_lt, Rdiv_lt_0_compat; assumption|assumption]. Qed.
Definition cell_value (n : nat) (L rms : R) (uv : array) (a : list nat) : R := ps_scale n L * (rms ^ 2 / uv (shift_sources [n; n] a)).
Section Spectrum.
Context (n : nat) (L rms : R) (uv : array) (Hn : (0 < n)%nat) (HL : 0 < L) (Hr : 0 < rms) (Huv : forall j, valid [n; n] j -> 0 <= uv j).
Lemma cell_cases : forall a, valid [n; n] a -> let w := times (ps_scale n L) (cell_noise rms (uv (shift_sources [n; n] a))) in (w = Inf <-> uv (shift_sources [n; n] a) = 0) /\ (uv (shift_sources [n; n] a) <> 0 -> w = Fin (cell_value n L rms uv a)) /\ up w.
Proof.
  intros a V. cbv zeta. pose proof (scale_pos n L Hn HL) as P. pose proof (Huv _ (valid_shift _ _ V)) as U. unfold cell_noise, cell_value. set (u := uv _) in *. clearbody u. destruct (Rlt_dec u 0); [lra|]. destruct (Req_EM_T u 0) as [->|N].
  - destruct (Req_EM_T rms 0); [lra|]. cbn [times]. destruct (Req_EM_T (ps_scale n L) 0); [lra|]. destruct (Rlt_dec 0 (ps_scale n L)); [|lra]. split; [tauto|]. split; [intro Q; exfalso; apply Q; reflexivity|right; reflexivity].
  - cbn [times]. split; [split; [discriminate|intro; contradiction]|]. split; [reflexivity|left; eexists; reflexivity].
Qed.
Lemma weights_up : finite_weights (noise_cells n L rms uv).
Proof. intros c I. unfold noise_cells in I. apply in_map_iff in I. destruct I as (a & <- & I). apply cell_cases, indices_valid, I. Qed.
Lemma inf_cells : forall P : R -> Prop, (exists c, In c (noise_cells n L rms uv) /\ snd c = Inf /\ P (fst c)) <-> exists a, unobserved n uv a /\ P (k2 n L a).
Proof.
  intro P. split.
  - intros (c & I & E & K). unfold noise_cells in I. apply in_map_iff in I. destruct I as (a & <- & I). apply indices_valid in I. exists a. split; [split; [exact I|apply (cell_cases a I), E]|exact K].
  - intros (a & (V & U) & K). exists (k2 n L a, times (ps_scale n L) (cell_noise rms (uv (shift_sources [n; n] a)))). split; [unfold noise_cells; apply in_map_iff; exists a; split; [reflexivity|apply indices_valid, V]|]. split; [apply (cell_cases a V), U|exact K].
Qed.
End Spectrum.
(** The published spectrum, bin by bin: nan as soon as one cell without baselines lies below the bin, infinite if one lies in it, otherwise the mean noise power, rms^2 over the
    number of baselines, of the cells in the bin. *)
Theorem C93_spectrum : forall w n L sefd depth obs it N uv edges, in_strings w natural_names = true -> (0 < n)%nat -> 0 < L -> 0 < rms_noise sefd depth it -> (forall j, valid [n; n] j -> 0 <= uv j) -> ascending edges ->
  exists out, noise_ps w n L sefd depth obs it N uv edges = Some out /\ length out = (length edges - 1)%nat /\ forall b, (S b < length edges)%nat ->
    ((exists a, unobserved n uv a /\ k2 n L a < nth b edges 0) -> nth b out NaN = NaN) /\
    (~ (exists a, unobserved n uv a /\ k2 n L a < nth b edges 0) -> (exists a, unobserved n uv a /\ in_bin edges b (k2 n L a) = true) -> nth b out NaN = Inf) /\
    (~ (exists a, unobserved n uv a /\ below_top edges b (k2 n L a)) -> let bin := filter (fun a => in_bin edges b (k2 n L a)) (indices [n; n]) in
       nth b out NaN = match bin with [] => NaN | _ => Fin (rsum (map (fun a => (L * L / (INR n * INR n)) ^ 2 / (L * L) * (rms_noise sefd depth it ^ 2 / uv (shift_sources [n; n] a))) bin) / INR (length bin)) end).
Proof.
  intros w n L sefd depth obs it N uv edges W Hn HL Hr Huv A. unfold noise_ps. rewrite W. eexists. split; [reflexivity|]. split; [unfold averaged; rewrite map_length, seq_length; reflexivity|]. intros b Hb. set (rms := rms_noise sefd depth it) in *.
  destruct (C93_bins edges (noise_cells n L rms uv) b A Hb (weights_up n L rms uv Hn HL Hr Huv)) as (B1 & B2 & B3). cbv zeta in B1, B2, B3. split; [|split].
  - intro Q. apply B1. apply (inf_cells n L rms uv Hn HL Hr Huv (fun k => k < nth b edges 0)), Q.
  - intros NQ (a & (V & U) & K). apply B2; [intro Q; apply NQ; apply (inf_cells n L rms uv Hn HL Hr Huv (fun k => k < nth b edges 0)), Q|]. exists (k2 n L a, times (ps_scale n L) (cell_noise rms (uv (shift_sources [n; n] a)))). split; [|apply (cell_cases n L rms uv Hn HL Hr Huv a V), U].
    apply filter_In. split; [unfold noise_cells; apply in_map_iff; exists a; split; [reflexivity|apply indices_valid, V]|exact K].
  - intro NQ. cbv zeta. set (bin := filter (fun a => in_bin edges b (k2 n L a)) (indices [n; n])). rewrite B3 by (intro Q; apply NQ; apply (inf_cells n L rms uv Hn HL Hr Huv (fun k => below_top edges b k)), Q).
    assert (E : filter (fun c : R * ext => in_bin edges b (fst c)) (noise_cells n L rms uv) = map (fun a => (k2 n L a, times (ps_scale n L) (cell_noise rms (uv (shift_sources [n; n] a))))) bin).
    { unfold noise_cells, bin, k2. generalize (indices [n; n]). intro l. induction l as [|a l IH]; [reflexivity|]. cbn [map filter fst]. destruct (in_bin edges b (k_of [n; n] [L; L] a)); cbn [map]; rewrite IH; reflexivity. }
    rewrite E. assert (BV : forall a, In a bin -> uv (shift_sources [n; n] a) <> 0). { intros a I Z. unfold bin in I. apply filter_In in I. destruct I as [I J]. apply indices_valid in I. apply NQ. exists a. split; [split; assumption|]. unfold in_bin in J. apply andb_true_iff in J. destruct J as [_ J]. unfold below_top. destruct (S (S b) =? length edges)%nat; [apply rleb_iff, J|apply rltb_iff, J]. }
    assert (VV : forall a, In a bin -> valid [n; n] a) by (intros a I; apply filter_In in I; apply indices_valid; tauto).
    assert (SUM : rsum (map (fun c : R * ext => val (snd c)) (map (fun a => (k2 n L a, times (ps_scale n L) (cell_noise rms (uv (shift_sources [n; n] a))))) bin)) = rsum (map (fun a => (L * L / (INR n * INR n)) ^ 2 / (L * L) * (rms ^ 2 / uv (shift_sources [n; n] a))) bin)).
    { rewrite map_map. apply rsum_ext. intros a I. cbn [snd]. rewrite (proj1 (proj2 (cell_cases n L rms uv Hn HL Hr Huv a (VV a I))) (BV a I)). reflexivity. }
    rewrite SUM, map_length. destruct bin; reflexivity.
Qed.
Print Assumptions C93_spectrum.

(** * The origin of the uv plane *)
Lemma origin_source : forall n, (0 < n)%nat -> shift_source n (n / 2) = 0%nat.
Proof. intros n H. unfold shift_source. assert (n / 2 <= n)%nat by (apply Nat.div_le_upper_bound; lia). replace (n / 2 + (n - n / 2))%nat with n by lia. apply Nat.mod_same. lia. Qed.
Lemma origin_k : forall n L, (0 < n)%nat -> 0 < L -> k2 n L [(n / 2)%nat; (n / 2)%nat] < 2 * PI / L.
Proof.
  intros n L H HL. unfold k2, k_of, get_k_1d, k_component, center_half. pose proof PI_RGT_0 as P.
  assert (Q : exists d, INR (n / 2) - INR (n - 1) / 2 = d /\ 0 <= d <= 1 / 2).
  { eexists. split; [reflexivity|]. rewrite minus_INR by lia. pose proof (Nat.div_mod n 2 ltac:(lia)) as D. pose proof (Nat.mod_upper_bound n 2 ltac:(lia)) as M. apply (f_equal INR) in D. rewrite plus_INR, mult_INR in D. assert (M2 : INR (n mod 2) <= 1) by (apply (le_INR _ 1); lia). pose proof (pos_INR (n mod 2)). cbn in *. lra. }
  destruct Q as (d & -> & D). set (c := 2 * PI / L). assert (C : 0 < c) by (unfold c; apply Rdiv_lt_0_compat; lra). replace (2 * PI * d / L) with (c * d) by (unfold c; field; lra).
  apply Rle_lt_trans with (sqrt ((3 / 4 * c) ^ 2)); [apply sqrt_le_1_alt; assert (c * d <= c * (1 / 2)) by (apply Rmult_le_compat_l; lra); assert (0 <= c * d) by (apply Rmult_le_pos; lra); nra|]. rewrite sqrt_pow2 by nra. lra.
Qed.
Lemma origin_unobserved : forall n uv, (0 < n)%nat -> uv [0%nat; 0%nat] = 0 -> unobserved n uv [(n / 2)%nat; (n / 2)%nat].
Proof. intros n uv H U. split; [repeat constructor; apply Nat.div_lt; lia|]. cbn [shift_sources]. rewrite !origin_source by exact H. exact U. Qed.
(** If no baseline falls into the cell at the origin, every bin is nan, for any edges from the fundamental wave number on; the default edges start there. *)
Theorem C93_origin_refuted : forall w n L sefd depth obs it N uv edges out, (0 < n)%nat -> 0 < L -> 0 < rms_noise sefd depth it -> (forall j, valid [n; n] j -> 0 <= uv j) -> ascending edges -> 2 * PI / L <= nth 0 edges 0 ->
  uv [0%nat; 0%nat] = 0 -> noise_ps w n L sefd depth obs it N uv edges = Some out -> forall b, (S b < length edges)%nat -> nth b out NaN = NaN.
Proof.
  intros w n L sefd depth obs it N uv edges out Hn HL Hr Huv A E0 U H b Hb. assert (W : in_strings w natural_names = true) by (unfold noise_ps in H; destruct (in_strings w natural_names); [reflexivity|discriminate]).
  destruct (C93_spectrum w n L sefd depth obs it N uv edges W Hn HL Hr Huv A) as (out' & H' & _ & SP). rewrite H in H'. injection H' as <-. apply (SP b Hb). exists [(n / 2)%nat; (n / 2)%nat]. split; [apply origin_unobserved; assumption|].
  apply Rlt_le_trans with (2 * PI / L); [apply origin_k; assumption|]. destruct b as [|b]; [exact E0|]. specialize (A 0%nat (S b) ltac:(lia)). lra.
Qed.
Print Assumptions C93_origin_refuted.
Theorem C93_default_edges : forall n L m, 0 < L -> (0 < m)%nat -> nth 0 (log_edges n L m) 0 = 2 * PI / L /\ nth 0 (linear_edges n L m) 0 = 2 * PI / L /\ length (log_edges n L m) = S m /\ length (linear_edges n L m) = S m /\
  (2 * PI / L < kmax n L -> ascending (log_edges n L m) /\ ascending (linear_edges n L m)).
Proof.
  intros n L m HL Hm. pose proof PI_RGT_0 as P. assert (Q : 0 < 2 * PI / L) by (apply Rdiv_lt_0_compat; lra). assert (L10 : ln 10 <> 0) by (assert (0 < ln 10) by (rewrite <- ln_1; apply ln_increasing; lra); lra).
  split; [|split; [|split; [|split]]].
  - unfold log_edges, step. cbn [seq map nth]. change (INR 0) with 0. rewrite Rmult_0_l, Rplus_0_r. unfold Rpower, log10. replace (ln (2 * PI / L) / ln 10 * ln 10) with (ln (2 * PI / L)) by (field; exact L10). apply exp_ln, Q.
  - unfold linear_edges, step. cbn [seq map nth]. change (INR 0) with 0. lra.
  - unfold log_edges. rewrite map_length, seq_length. reflexivity.
  - unfold linear_edges. rewrite map_length, seq_length. reflexivity.
  - intro K. assert (Sm : 0 < INR m) by (apply (lt_INR 0), Hm). assert (ST : forall a b i j, a < b -> (i < j)%nat -> step a b m i < step a b m j).
    { intros a b i j AB IJ. unfold step. apply lt_INR in IJ. assert (0 < (b - a) / INR m) by (apply Rdiv_lt_0_compat; lra). nra. }
    split; intros i j [IJ J]; unfold log_edges, linear_edges in *; rewrite map_length, seq_length in J.
    + assert (G : forall i, (i < S m)%nat -> nth i (map (fun t => Rpower 10 (step (log10 (2 * PI / L)) (log10 (kmax n L)) m t)) (seq 0 (S m))) 0 = Rpower 10 (step (log10 (2 * PI / L)) (log10 (kmax n L)) m i)).
      { intros t Ht. rewrite (nth_indep _ 0 (Rpower 10 (step (log10 (2 * PI / L)) (log10 (kmax n L)) m 0))) by (rewrite map_length, seq_length; exact Ht). rewrite (map_nth (fun t => Rpower 10 (step (log10 (2 * PI / L)) (log10 (kmax n L)) m t))), seq_nth by exact Ht. reflexivity. }
      rewrite !G by lia. apply Rpower_lt; [lra|]. apply ST; [|exact IJ]. unfold log10. assert (0 < ln 10) by (rewrite <- ln_1; apply ln_increasing; lra). apply Rmult_lt_compat_r; [apply Rinv_0_lt_compat; assumption|]. apply ln_increasing; assumption.
    + assert (G : forall i, (i < S m)%nat -> nth i (map (step (2 * PI / L) (kmax n L) m) (seq 0 (S m))) 0 = step (2 * PI / L) (kmax n L) m i).
      { intros t Ht. rewrite (nth_indep _ 0 (step (2 * PI / L) (kmax n L) m 0)) by (rewrite map_length, seq_length; exact Ht). rewrite (map_nth (step (2 * PI / L) (kmax n L) m)), seq_nth by exact Ht. reflexivity. }
      rewrite !G by lia. apply ST; assumption.
Qed.
Print Assumptions C93_default_edges.
Example C93_default_edges_sat : exists (L : R) (m : nat), 0 < L /\ (0 < m)%nat.
Proof. exists 100, 5%nat. repeat split; first [lra | lia | reflexivity | discriminate | congruence | auto]. Qed.
(** Observing longer, or with more antennas, changes nothing for a given map; uniform weights and unknown schemes always raise. *)
Theorem C93_observing_time_refuted : forall w n L sefd depth it uv edges obs obs' N N', noise_ps w n L sefd depth obs it N uv edges = noise_ps w n L sefd depth obs' it N' uv edges.
Proof. reflexivity. Qed.
Theorem C93_uniform_refuted : forall w n L sefd depth obs it N uv edges, noise_ps w n L sefd depth obs it N uv edges = None <-> ~ In w natural_names.
Proof.
  intros w n L sefd depth obs it N uv edges. unfold noise_ps. assert (G : in_strings w natural_names = true <-> In w natural_names). { unfold in_strings. rewrite existsb_exists. split; [intros (x & I & E); apply String.eqb_eq in E; subst; exact I|intro I; exists w; split; [exact I|apply String.eqb_refl]]. }
  destruct (in_strings w natural_names); split; try discriminate; intro H; [exfalso; apply H, G; reflexivity|intro I; apply G in I; discriminate|reflexivity].
Qed.
Print Assumptions C93_observing_time_refuted.
Print Assumptions C93_uniform_refuted.
(** More baselines never raise the noise: a finite bin stays finite and does not grow. *)
Theorem C93_coverage : forall w n L sefd depth obs it N uv uv' edges out out' b v, (0 < n)%nat -> 0 < L -> 0 < rms_noise sefd depth it -> (forall j, valid [n; n] j -> 0 <= uv j <= uv' j) -> ascending edges -> (S b < length edges)%nat ->
  noise_ps w n L sefd depth obs it N uv edges = Some out -> noise_ps w n L sefd depth obs it N uv' edges = Some out' -> nth b out NaN = Fin v -> exists v', nth b out' NaN = Fin v' /\ v' <= v.
Proof.
  intros w n L sefd depth obs it N uv uv' edges out out' b v Hn HL Hr Huv A Hb H H' E. assert (W : in_strings w natural_names = true) by (unfold noise_ps in H; destruct (in_strings w natural_names); [reflexivity|discriminate]).
  assert (U1 : forall j, valid [n; n] j -> 0 <= uv j) by (intros j V; apply Huv, V). assert (U2 : forall j, valid [n; n] j -> 0 <= uv' j) by (intros j V; specialize (Huv j V); lra).
  destruct (C93_spectrum w n L sefd depth obs it N uv edges W Hn HL Hr U1 A) as (o1 & E1 & _ & S1). rewrite H in E1. injection E1 as <-. destruct (S1 b Hb) as (A1 & A2 & A3).
  destruct (C93_spectrum w n L sefd depth obs it N uv' edges W Hn HL Hr U2 A) as (o2 & E2 & _ & S2). rewrite H' in E2. injection E2 as <-. destruct (S2 b Hb) as (_ & _ & B3).
  assert (UT : forall k, in_bin edges b k = true <-> nth b edges 0 <= k /\ below_top edges b k) by (intro k; unfold in_bin, below_top; rewrite andb_true_iff, rleb_iff; destruct (S (S b) =? length edges)%nat; [rewrite rleb_iff|rewrite rltb_iff]; tauto).
  assert (NU : ~ exists a, unobserved n uv a /\ below_top edges b (k2 n L a)).
  { intros (a & U & T). destruct (Rlt_dec (k2 n L a) (nth b edges 0)) as [Q|Q]; [rewrite (A1 (ex_intro _ a (conj U Q))) in E; discriminate E|]. assert (NL : ~ exists a, unobserved n uv a /\ k2 n L a < nth b edges 0) by (intro X; rewrite (A1 X) in E; discriminate E). rewrite (A2 NL (ex_intro _ a (conj U (proj2 (UT _) (conj (Rnot_lt_le _ _ Q) T))))) in E. discriminate E. }
  assert (NU' : ~ exists a, unobserved n uv' a /\ below_top edges b (k2 n L a)). { intros (a & (V & U) & T). apply NU. exists a. split; [split; [exact V|]|exact T]. specialize (Huv _ (valid_shift _ _ V)). lra. }
  specialize (A3 NU). specialize (B3 NU'). cbv zeta in A3, B3. rewrite A3 in E. rewrite B3. remember (filter (fun a => in_bin edges b (k2 n L a)) (indices [n; n])) as bin eqn:EB. destruct bin as [|a0 bin']; [discriminate E|]. eexists. split; [reflexivity|]. assert (FI : forall x y, Fin x = Fin y -> x = y) by (intros; congruence). apply FI in E. rewrite <- E. clear E A3 B3.
  assert (DV : forall x y c, 0 < c -> x <= y -> x / c <= y / c) by (intros; apply Rmult_le_compat_r; [left; apply Rinv_0_lt_compat; assumption|assumption]). apply DV; [apply (lt_INR 0); cbn; lia|]. apply rsum_le. intros a I. rewrite EB in I. apply filter_In in I. destruct I as [I J]. apply indices_valid in I. apply Rmult_le_compat_l; [left; apply (scale_pos n L Hn HL)|]. apply Rmult_le_compat_l; [apply pow2_ge_0|].
  specialize (Huv _ (valid_shift _ _ I)). assert (uv (shift_sources [n; n] a) <> 0) by (intro Z; apply NU; exists a; split; [split; assumption|apply (UT (k2 n L a)), J]). apply Rinv_le_contravar; lra.
Qed.
Print Assumptions C93_coverage.

(** * Briggs weights *)
Lemma p10 : forall r, 0 < Rpower 10 r. Proof. intro. unfold Rpower. apply exp_pos. Qed.
(** Weights compared: the cell with more baselines weighs more exactly while w1 w2 10^(2R) is below the squared mean. *)
Theorem C93_briggs_order : forall wm R0 w1 w2, 0 < wm -> 0 < w1 < w2 -> (briggs_weight wm R0 w1 < briggs_weight wm R0 w2 <-> w1 * w2 * Rpower 10 (2 * R0) < wm ^ 2) /\ (briggs_weight wm R0 w1 = briggs_weight wm R0 w2 <-> w1 * w2 * Rpower 10 (2 * R0) = wm ^ 2).
Proof.
  intros wm R0 w1 w2 Hm H. unfold briggs_weight. pose proof (p10 (2 * R0)) as P. set (t := Rpower 10 (2 * R0)) in *. clearbody t. assert (Q : forall w, 1 + (w / wm) ^ 2 * t = (wm ^ 2 + w ^ 2 * t) / wm ^ 2) by (intro w; field; lra). rewrite !Q.
  assert (D : forall w, 0 < w -> 0 < wm ^ 2 + w ^ 2 * t) by (intros w Hw; nra). assert (E : forall w, 0 < w -> w / ((wm ^ 2 + w ^ 2 * t) / wm ^ 2) = wm ^ 2 * (w / (wm ^ 2 + w ^ 2 * t))) by (intros w Hw; specialize (D w Hw); field; split; lra). rewrite !E by lra.
  pose proof (D w1 ltac:(lra)) as D1. pose proof (D w2 ltac:(lra)) as D2. assert (M2 : 0 < wm ^ 2) by (apply pow_lt, Hm).
  assert (DIFF : w2 / (wm ^ 2 + w2 ^ 2 * t) - w1 / (wm ^ 2 + w1 ^ 2 * t) = (w2 - w1) * (wm ^ 2 - w1 * w2 * t) * (/ (wm ^ 2 + w2 ^ 2 * t) * / (wm ^ 2 + w1 ^ 2 * t))) by (field; split; lra).
  assert (I : 0 < / (wm ^ 2 + w2 ^ 2 * t) * / (wm ^ 2 + w1 ^ 2 * t)) by (apply Rmult_lt_0_compat; apply Rinv_0_lt_compat; assumption). set (ii := / (wm ^ 2 + w2 ^ 2 * t) * / (wm ^ 2 + w1 ^ 2 * t)) in *. set (x2 := w2 / _) in *. set (x1 := w1 / _) in *. clearbody ii x1 x2. set (g := wm ^ 2 - w1 * w2 * t) in *.
  split; split; intro X.
  - assert (0 < x2 - x1) by nra. rewrite DIFF in H0. assert (0 < g) by (destruct (Rlt_le_dec 0 g); [assumption|exfalso; assert ((w2 - w1) * g <= 0) by nra; nra]). unfold g in *. lra.
  - assert (0 < g) by (unfold g; lra). assert (0 < (w2 - w1) * g * ii) by (apply Rmult_lt_0_compat; [apply Rmult_lt_0_compat; lra|assumption]). nra.
  - assert (x2 - x1 = 0) by nra. rewrite DIFF in H0. apply Rmult_integral in H0. destruct H0 as [H0|H0]; [|lra]. apply Rmult_integral in H0. destruct H0 as [H0|H0]; [lra|unfold g in *; lra].
  - assert (g = 0) by (unfold g; lra). rewrite H0 in DIFF. nra.
Qed.
Print Assumptions C93_briggs_order.
Example C93_briggs_order_sat : exists (wm : R) (w1 : R) (w2 : R), 0 < wm /\ 0 < w1 < w2.
Proof. exists 2, 1, 3. repeat split; first [lra | lia | reflexivity | discriminate | congruence | auto]. Qed.
(** The documented direction (-2 uniform, +2 natural) is inverted: at -2 the weights are natural to a part in 10^4 for cells at the mean, at +2 the better sampled of two cells weighs less. *)
Theorem C93_briggs_direction_refuted : forall wm w, 0 < wm -> 0 < w -> w * (1 - (w / wm) ^ 2 / 10 ^ 4) <= briggs_weight wm (-2) w <= w /\ (forall w', wm / 100 <= w -> w < w' -> briggs_weight wm 2 w' < briggs_weight wm 2 w).
Proof.
  intros wm w Hm Hw. assert (T1 : Rpower 10 (2 * -2) = / 10 ^ 4) by (replace (2 * -2) with (- INR 4) by (cbn; lra); rewrite Rpower_Ropp, Rpower_pow by lra; reflexivity). assert (T2 : Rpower 10 (2 * 2) = 10 ^ 4) by (replace (2 * 2) with (INR 4) by (cbn; lra); rewrite Rpower_pow by lra; reflexivity). split.
  - unfold briggs_weight. rewrite T1. set (q := (w / wm) ^ 2). assert (Q : 0 <= q) by apply pow2_ge_0. fold (q / 10 ^ 4). set (e := q / 10 ^ 4). assert (E : 0 <= e) by (unfold e; apply Rmult_le_pos; [exact Q|left; apply Rinv_0_lt_compat, pow_lt; lra]). clearbody e. assert (D : 0 < 1 + e) by lra. split.
    + apply Rmult_le_reg_r with (1 + e); [exact D|]. unfold Rdiv. rewrite Rmult_assoc, (Rmult_assoc w (/ (1 + e))), Rinv_l by lra. nra.
    + apply Rmult_le_reg_r with (1 + e); [exact D|]. unfold Rdiv. rewrite (Rmult_assoc w (/ (1 + e))), Rinv_l by lra. nra.
  - intros w' L1 L2. destruct (C93_briggs_order wm 2 w w' Hm ltac:(lra)) as [O1 O2]. rewrite T2 in O1, O2. assert (G : wm ^ 2 < w * w' * 10 ^ 4) by nra. destruct (Rtotal_order (briggs_weight wm 2 w) (briggs_weight wm 2 w')) as [X|[X|X]]; [apply O1 in X; lra|apply O2 in X; lra|exact X].
Qed.
Print Assumptions C93_briggs_direction_refuted.
Example C93_briggs_direction_refuted_sat : exists (wm : R) (w : R), 0 < wm /\ 0 < w.
Proof. exists 2, 3. repeat split; first [lra | lia | reflexivity | discriminate | congruence | auto]. Qed.
(** Cells without baselines carry no noise; for the others it is proportional to the input, keeps its sign, and never exceeds the input divided by the root of the guard. *)
Theorem C93_briggs_noise : forall ws R0 eps noise w, 0 < eps -> (w = 0 -> briggs ws R0 eps noise w = 0) /\ (0 < w -> (forall x, In x ws -> 0 <= x) -> Rabs (briggs ws R0 eps noise w) <= Rabs noise / sqrt eps /\ forall c, briggs ws R0 eps (c * noise) w = c * briggs ws R0 eps noise w).
Proof.
  intros ws R0 eps noise w E. unfold briggs. split; [intros ->; destruct (Req_EM_T 0 0); [reflexivity|lra]|]. intros Hw Hws. destruct (Req_EM_T w 0); [lra|]. assert (B : 0 <= briggs_weight (w_mean ws eps) R0 w).
  { unfold briggs_weight. apply Rmult_le_pos; [lra|]. left. apply Rinv_0_lt_compat. pose proof (p10 (2 * R0)). pose proof (pow2_ge_0 (w / w_mean ws eps)). nra. }
  set (bw := briggs_weight _ _ _) in *. clearbody bw. assert (S1 : 0 < sqrt eps) by (apply sqrt_lt_R0, E). assert (S2 : sqrt eps <= sqrt (bw + eps)) by (apply sqrt_le_1_alt; lra). split.
  - unfold Rdiv. rewrite Rabs_mult. apply Rmult_le_compat_l; [apply Rabs_pos|]. rewrite Rabs_right by (apply Rle_ge; left; apply Rinv_0_lt_compat; lra). apply Rinv_le_contravar; lra.
  - intro c. unfold Rdiv. ring.
Qed.
Print Assumptions C93_briggs_noise.
Example C93_briggs_noise_sat : exists (eps : R), 0 < eps.
Proof. exists (1/2). repeat split; first [lra | lia | reflexivity | discriminate | congruence | auto]. Qed.
(** The weights are normalised by the mean over the sampled cells, plus the guard; unsampled cells do not count. *)
Theorem C93_briggs_mean : forall ws eps, (forall w, In w ws -> 0 <= w) -> let sampled := filter (fun w => if Rlt_dec 0 w then true else false) ws in
  INR (length sampled) * (w_mean ws eps - eps) = rsum ws \/ sampled = [] .
Proof.
  intros ws eps H sampled. assert (E : filter (fun w => rltb 0 w) ws = sampled) by (unfold sampled; apply filter_ext; intro w; unfold rltb; destruct (Rlt_dec 0 w); reflexivity). destruct sampled as [|v r] eqn:S; [right; reflexivity|left]. unfold w_mean, pos_mean. rewrite E. replace (rsum (v :: r) / INR (length (v :: r)) + eps - eps) with (rsum (v :: r) / INR (length (v :: r))) by ring. assert (P : 0 < INR (length (v :: r))) by (apply lt_0_INR; cbn; lia). assert (T : rsum (v :: r) = rsum ws); [|rewrite T; field; lra].
  rewrite <- S. unfold sampled. clear E S P v r sampled. induction ws as [|w ws IH]; [reflexivity|]. cbn [filter]. specialize (IH (fun x X => H x (or_intror X))). pose proof (H w (or_introl eq_refl)) as Hw. destruct (Rlt_dec 0 w) as [L|L]; [unfold rsum in *; cbn [fold_right]; rewrite IH; reflexivity|]. assert (w = 0) as -> by lra. rewrite IH. unfold rsum. cbn [fold_right]. ring.
Qed.
Print Assumptions C93_briggs_mean.
Example C93_briggs_mean_sat : exists (ws : list R), (forall w, In w ws -> 0 <= w).
Proof. exists [1; 2; 3]. intros w [<-|[<-|[<-|[]]]]; lra. Qed.

(** * The wrapped transform and the maps of a light cone *)
Theorem C93_wrap_refuted : forall {A} n m (tr : A), ifft2_wrap n m tr = None.
Proof. intros A n m tr. unfold ifft2_wrap. cbn [true_div slice_ok]. rewrite !andb_false_r. reflexivity. Qed.
Print Assumptions C93_wrap_refuted.
Lemma uv_loop_spec : forall {Z M} (get : Z -> M * nat) zs acc n, uv_loop get zs acc n = (acc ++ map (fun z => fst (get z)) zs, last (map (fun z => snd (get z)) zs) n).
Proof.
  intros Z M get zs. induction zs as [|z zs IH]; intros acc n; cbn [uv_loop map last]; [rewrite app_nil_r; reflexivity|]. destruct (get z) as [m k] eqn:G. rewrite IH, <- app_assoc. cbn [fst snd app]. f_equal. destruct (map (fun z => snd (get z)) zs); [reflexivity|]. clear. revert n0. induction l as [|x l IH]; intro y; [reflexivity|]. cbn [last]. apply IH.
Qed.
(** Slice i is the map of redshift i alone; the number of antennas is that of the last redshift; no redshifts raise. *)
Theorem C93_uv_lightcone : forall {Z M} (get : Z -> M * nat) zs, (make_uv_map_lightcone get zs = None <-> zs = []) /\ forall maps k, make_uv_map_lightcone get zs = Some (maps, k) ->
  length maps = length zs /\ (forall i z, nth_error zs i = Some z -> nth_error maps i = Some (fst (get z))) /\ exists front z, zs = front ++ [z] /\ k = snd (get z).
Proof.
  intros Z M get zs. unfold make_uv_map_lightcone. split; [destruct zs; split; discriminate || reflexivity|]. intros maps k H. destruct zs as [|z0 zs']; [discriminate|]. remember (z0 :: zs') as zs eqn:EZ. rewrite uv_loop_spec in H. cbn [app] in H. injection H as <- <-. split; [apply map_length|]. split; [intros i z E; rewrite nth_error_map, E; reflexivity|].
  assert (N : zs <> []) by (rewrite EZ; discriminate). clear EZ. destruct (exists_last N) as (front & z & ->). exists front, z. split; [reflexivity|]. rewrite map_app. cbn [map]. apply last_last.
Qed.
Print Assumptions C93_uv_lightcone.

(** * A concrete case *)
Lemma sat_bin : filter (fun a => in_bin [0; 10] 0 (k2 1 1 a)) (indices [1; 1]%nat) = [[0%nat; 0%nat]].
Proof.
  assert (K : k2 1 1 [0%nat; 0%nat] = 0) by (unfold k2, k_of, get_k_1d, k_component, center_half; cbn [Nat.sub INR]; replace (2 * PI * (0 - 0 / 2) / 1) with 0 by field; replace (0 ^ 2 + 0 ^ 2) with 0 by ring; apply sqrt_0).
  change (indices [1; 1]%nat) with [[0%nat; 0%nat]]. cbn [filter]. rewrite K. assert (B : in_bin [0; 10] 0 0 = true) by (unfold in_bin; cbn [length Nat.eqb nth]; apply andb_true_iff; split; apply rleb_iff; lra). rewrite B. reflexivity.
Qed.
Example C93_sat : let uv : array := fun _ => 4 in exists out, noise_ps "natural" 1 1 1 1 1000 1 50 uv [0; 10] = Some out /\ length out = 1%nat /\ ascending [0; 10] /\ 0 < rms_noise 1 1 1 /\ nth 0 out NaN = Fin (rms_noise 1 1 1 ^ 2 / 4).
Proof.
  cbv zeta. assert (A : ascending [0; 10]) by (intros i j [A B]; cbn in B; assert (i = 0 /\ j = 1)%nat as [-> ->] by lia; cbn; lra). assert (Hr : 0 < rms_noise 1 1 1) by (unfold rms_noise; apply Rdiv_lt_0_compat; [lra|]; apply sqrt_lt_R0; lra).
  destruct (C93_spectrum "natural" 1 1 1 1 1000 1 50 (fun _ => 4) [0; 10] eq_refl ltac:(lia) ltac:(lra) Hr ltac:(intros; lra) A) as (out & H & Len & SP). exists out. split; [exact H|]. split; [exact Len|]. split; [exact A|]. split; [exact Hr|].
  destruct (SP 0%nat ltac:(cbn; lia)) as (_ & _ & S3). rewrite S3 by (intros (a & (_ & U) & _); lra). cbv zeta. rewrite sat_bin. f_equal. unfold rsum. cbn [map fold_right length INR]. field.
Qed.
