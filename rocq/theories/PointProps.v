(** C100: rays from a point, averaged rays, rebinned curves, granulometric sizes and the h-transform. *)
From Coq Require Import List Arith ZArith Reals Bool QArith Qreals Lia Lqa Lra.
From Verif Require Import RLib FourierModel FourierSpec FourierProofs MfpModel MfpSpec MfpProps SizeDistModel SizeDistProps PointModel.
From Verif Require MorphModel MorphProps.
Import ListNotations.
Local Open Scope R_scope.

(** * Specification *)
(** The cell belongs to the region: at or above the threshold, or at or below it with [upper_lim]. *)
Definition selected (upper : bool) (v xth : R) : bool := if upper then geb xth v else geb v xth.
Definition cell_of (p : point) : option (list nat) := match p with PyInt q | NpInt q => Some q | Floats _ => None end.

Lemma within_valid : forall shape p, within shape p = true <-> valid shape p.
Proof.
  unfold valid. induction shape as [|n s IH]; intros [|i r]; cbn [within]; try (split; [discriminate|intro H; inversion H]); [split; constructor|].
  rewrite andb_true_iff, Nat.ltb_lt, IH. split; [intros [? ?]; constructor; assumption|intro H; inversion H; subst; split; assumption].
Qed.
Lemma geb_iff : forall a b, geb a b = true <-> b <= a.
Proof. intros a b. unfold geb. destruct (Rle_dec b a); split; intro; auto; try discriminate; contradiction. Qed.
Lemma selected_flip : forall (upper : bool) d xth, geb (if upper then -1 * d else d) (if upper then -1 * xth else xth) = selected upper d xth.
Proof. intros upper d xth. destruct upper; [|reflexivity]. cbn [selected]. unfold geb. destruct (Rle_dec _ _), (Rle_dec _ _); try reflexivity; lra. Qed.
Lemma multilinear_ext : forall sh (g g' : list nat -> bool) pos, (forall i, g i = g' i) -> multilinear sh g pos = multilinear sh g' pos.
Proof. induction sh as [|n sh IH]; intros g g' [|x pos] Hg; simpl; try (rewrite Hg; reflexivity). f_equal; f_equal; apply IH; intro; apply Hg. Qed.
Lemma ray_loop_ext : forall shape g g', (forall i, g i = g' i) -> forall s rays, ray_loop shape g s rays = ray_loop shape g' s rays.
Proof.
  intros shape g g' E. induction s as [|s IH]; intro rays; [reflexivity|]. cbn [ray_loop].
  assert (V : filter (fun r => above_half (interp shape g (fst r))) (map move rays) = filter (fun r => above_half (interp shape g' (fst r))) (map move rays)).
  { apply filter_ext. intro r. unfold interp. destruct (in_grid_dec shape (fst r)); [|reflexivity]. rewrite (multilinear_ext shape g g' (fst r) E). reflexivity. }
  rewrite V, IH. reflexivity.
Qed.
Lemma loop_length : forall shape f s rays, length (ray_loop shape f s rays) = s.
Proof.
  intros shape f. induction s as [|s IH]; intro rays; [reflexivity|]. cbn [ray_loop length]. f_equal.
  destruct (filter _ _); [apply repeat_length|apply IH].
Qed.
Lemma rays_proper : forall p dirs d, length p = d -> Forall (fun v => length v = d) dirs -> Forall (proper d) (rays_from p dirs).
Proof.
  intros p dirs d Hp H. unfold rays_from. apply Forall_forall. intros r Hr. apply in_map_iff in Hr. destruct Hr as [v [<- Hv]].
  rewrite Forall_forall in H. split; cbn [fst snd]; [rewrite map_length; exact Hp|apply H; exact Hv].
Qed.
Lemma dat_eq : forall (upper : bool) (data : list nat -> R) i, (if upper then fun i => -1 * data i else data) i = (if upper then -1 * data i else data i).
Proof. intros [|] data i; reflexivity. Qed.
Lemma box_filter : forall shape (upper : bool) (data : list nat -> R) xth,
  filter (fun i => geb ((if upper then fun i => -1 * data i else data) i) (if upper then -1 * xth else xth)) (indices shape) = filter (fun i => selected upper (data i) xth) (indices shape).
Proof. intros. apply filter_ext. intro i. rewrite dat_eq. apply selected_flip. Qed.

(** ** Rays from a point *)
(** With a point in the region, entry k of the curve is the fraction of the rays that end after k steps; sizes are k cells. *)
Definition longest_for (shape : list nat) : nat := if Nat.eqb (length shape) 2 then longest_2d shape else longest_3d shape.
Theorem C100_point : forall shape data p q xth upper it box dirs dirs0, (length shape = 2 \/ length shape = 3)%nat -> cell_of p = Some q -> valid shape q ->
  selected upper (data q) xth = true -> length dirs = it -> (1 <= it)%nat -> Forall (fun v => length v = length shape) dirs ->
  exists r c, mfp_from_point shape data p xth upper it box dirs dirs0 = Value (r, c) /\ length r = longest_for shape /\ length c = longest_for shape /\
    (exists e : list R -> option nat,
      (forall d k, In d dirs -> (e d = Some k <-> (k < longest_for shape)%nat /\ ends_after shape (fun i => selected upper (data i) xth) (map INR q, d) k)) /\
      (forall k, (k < longest_for shape)%nat -> nth k r 0 = INR k * box / INR (hd 0%nat shape) /\ nth k c 0 = INR (tally e k dirs) / INR it) /\
      rsum c = 1 - INR (tally_none e dirs) / INR it) /\
    (forall x, In x c -> 0 <= x <= 1) /\ 0 <= rsum c <= 1.
Proof.
  intros shape data p q xth upper it box dirs dirs0 Hd Hp Hq Hs Hl H1 HD. unfold mfp_from_point. cbv zeta. rewrite box_filter.
  assert (IN : In q (filter (fun i => selected upper (data i) xth) (indices shape))) by (apply filter_In; split; [apply indices_valid; exact Hq|exact Hs]).
  assert (NZ : Nat.eqb (length (filter (fun i => selected upper (data i) xth) (indices shape))) 0 = false).
  { apply Nat.eqb_neq. destruct (filter _ (indices shape)); [contradiction|cbn; lia]. }
  rewrite NZ. set (roi := fun i => geb ((if upper then fun i => -1 * data i else data) i) (if upper then -1 * xth else xth)).
  assert (RO : forall i, roi i = selected upper (data i) xth) by (intro i; unfold roi; rewrite dat_eq; apply selected_flip).
  set (h := ray_loop shape (fun i => selected upper (data i) xth) (longest_for shape) (rays_from q dirs)).
  assert (OUT : match length shape with 2%nat => mfp2d_point shape roi p dirs | 3%nat => mfp3d_point shape roi p dirs | _ => Zero end = Value h).
  { assert (W : within shape q = true) by (apply within_valid; exact Hq). assert (RQ : roi q = true) by (rewrite RO; exact Hs).
    unfold h, longest_for. destruct Hd as [Hd|Hd]; rewrite Hd; cbn [Nat.eqb]; unfold mfp2d_point, mfp3d_point;
      (destruct p as [p|p|p]; cbn [cell_of] in Hp; [injection Hp as ->|injection Hp as ->|discriminate]); rewrite ?W, ?RQ; f_equal; apply ray_loop_ext; exact RO. }
  rewrite OUT. assert (LH : length h = longest_for shape) by apply loop_length.
  eexists. eexists. split; [reflexivity|]. split; [rewrite map_length, seq_length; exact LH|]. split; [rewrite map_length; exact LH|].
  pose proof (rays_proper q dirs (length shape) (eq_trans (valid_length shape q Hq) eq_refl) HD) as PR.
  destruct (C31_histogram shape (fun i => selected upper (data i) xth) (longest_for shape) (rays_from q dirs) (length shape) PR) as [e [E1 [E2 [E3 E4]]]]. fold h in E2, E3, E4.
  set (e' := fun d : list R => e (map INR q, d)).
  assert (T : forall k, tally e k (rays_from q dirs) = tally e' k dirs).
  { intro k. unfold tally, rays_from, e'. rewrite filter_map, map_length. reflexivity. }
  assert (TN : tally_none e (rays_from q dirs) = tally_none e' dirs).
  { unfold tally_none, rays_from, e'. rewrite filter_map, map_length. reflexivity. }
  assert (LR : length (rays_from q dirs) = it) by (unfold rays_from; rewrite map_length; exact Hl).
  assert (IP : 0 < INR it) by (apply lt_0_INR; lia).
  assert (SUM : rsum (map (fun c => INR c / INR it) h) = INR (list_sum h) / INR it).
  { clear. induction h as [|x l IH]; [cbn; unfold Rdiv; ring|]. change (list_sum (x :: l)) with (x + list_sum l)%nat. rewrite plus_INR. cbn [map]. change (rsum (?a :: ?b)) with (a + rsum b). rewrite IH. unfold Rdiv. ring. }
  assert (LE : (list_sum h <= it)%nat) by (rewrite <- LR; lia).
  assert (B : 0 <= INR (list_sum h) / INR it <= 1).
  { split; [apply Rle_mult_inv_pos; [apply pos_INR|exact IP]|]. apply (Rmult_le_reg_r (INR it)); [exact IP|]. unfold Rdiv. rewrite Rmult_assoc, Rinv_l by lra. apply le_INR in LE. lra. }
  split; [|split].
  - exists e'. split; [intros d k Hin; unfold e'; apply E1|]. split.
    + intros k Hk. split.
      * set (F := fun k => INR k * box / INR (hd 0%nat shape)). rewrite (nth_indep _ 0 (F 0%nat)) by (rewrite map_length, seq_length; lia). rewrite (map_nth F), seq_nth by lia. reflexivity.
      * set (F := fun c => INR c / INR it). rewrite (nth_indep _ 0 (F 0%nat)) by (rewrite map_length; lia). rewrite (map_nth F), E3, T by exact Hk. reflexivity.
    + rewrite SUM. rewrite TN, LR in E4. assert (EQ : INR (tally_none e' dirs) = INR it - INR (list_sum h)) by (rewrite <- E4, plus_INR; ring). rewrite EQ. field. lra.
  - intros x Hx. apply in_map_iff in Hx. destruct Hx as [c [<- Hc]]. assert (LC : (c <= list_sum h)%nat).
    { clear - Hc. induction h as [|y l IH]; [contradiction|]. change (list_sum (y :: l)) with (y + list_sum l)%nat. destruct Hc as [->|Hc]; [lia|specialize (IH Hc); lia]. }
    split; [apply Rle_mult_inv_pos; [apply pos_INR|exact IP]|]. apply (Rle_trans _ (INR (list_sum h) / INR it)); [|apply B].
    unfold Rdiv. apply Rmult_le_compat_r; [left; apply Rinv_0_lt_compat; exact IP|apply le_INR; exact LC].
  - rewrite SUM. exact B.
Qed.
Print Assumptions C100_point.

(** In 2-D every ray ends: the curve is a probability distribution. *)
Theorem C100_point_2d : forall n0 n1 data p q xth upper it box dirs dirs0, cell_of p = Some q -> valid [n0; n1] q -> selected upper (data q) xth = true ->
  length dirs = it -> (1 <= it)%nat -> Forall (fun v => length v = 2%nat /\ unit_vector v) dirs ->
  exists r c, mfp_from_point [n0; n1] data p xth upper it box dirs dirs0 = Value (r, c) /\ rsum c = 1.
Proof.
  intros n0 n1 data p q xth upper it box dirs dirs0 Hp Hq Hs Hl H1 HD.
  assert (HD' : Forall (fun v : list R => length v = length [n0; n1]) dirs) by (eapply Forall_impl; [|exact HD]; intros v [H _]; exact H).
  destruct (C100_point [n0; n1] data p q xth upper it box dirs dirs0 (or_introl eq_refl) Hp Hq Hs Hl H1 HD') as [r [c [E [_ [_ [[e [E1 [_ E3]]] _]]]]]].
  exists r, c. split; [exact E|]. rewrite E3. clear E E3.
  destruct (C31_histogram [n0; n1] (fun i => selected upper (data i) xth) (longest_2d [n0; n1]) (rays_from q dirs) 2 (rays_proper q dirs 2 (valid_length _ _ Hq) HD')) as [e' [F1 [_ [_ F4]]]].
  assert (IG : valid [n0; n1] q -> in_grid [n0; n1] (map INR q)).
  { unfold valid. intro V. inversion V as [|? i ? l Hi V']; subst. inversion V' as [|? j ? l' Hj V'']; subst. inversion V''; subst. cbn [map in_grid].
    assert (X : forall k n, (k < n)%nat -> 0 <= INR k <= INR n - 1). { intros k n K. split; [apply pos_INR|]. assert (K2 : (S k <= n)%nat) by lia. apply le_INR in K2. rewrite S_INR in K2. lra. }
    auto. }
  assert (P0 : (1 <= n0)%nat /\ (1 <= n1)%nat). { unfold valid in Hq. inversion Hq as [|? i ? l Hi V']; subst. inversion V' as [|? j ? l' Hj V'']; subst. lia. }
  rewrite C31_2d_complete in F4; [|tauto|tauto|].
  2:{ apply Forall_forall. intros ray Hr. unfold rays_from in Hr. apply in_map_iff in Hr. destruct Hr as [v [<- Hv]]. rewrite Forall_forall in HD. destruct (HD v Hv) as [V1 V2].
      split; [split; cbn [fst snd]; [rewrite map_length; exact (valid_length _ _ Hq)|exact V1]|]. split; [apply IG; exact Hq|exact V2]. }
  assert (TN : tally_none e dirs = 0%nat).
  { assert (Z : tally_none e' (rays_from q dirs) = 0%nat) by lia. unfold tally_none in *. unfold rays_from in Z. rewrite filter_map, map_length in Z.
    rewrite filter_none; [reflexivity|]. intros d Hin. destruct (e d) as [k|] eqn:K; [reflexivity|]. exfalso.
    apply length_zero_iff_nil in Z. destruct (e' (map INR q, d)) as [k|] eqn:K'.
    - apply F1 in K'. apply (E1 d k Hin) in K'. congruence.
    - assert (In d (filter (fun a => match e' (map INR q, a) with Some _ => false | None => true end) dirs)) by (apply filter_In; rewrite K'; auto). rewrite Z in H. exact H. }
  rewrite TN. cbn [INR]. unfold Rdiv. ring.
Qed.
Print Assumptions C100_point_2d.

(** Points that are not in the region. In 2-D: [None] for a cell outside the region, an exception outside the array. In 3-D the same for Python
    integers; numpy integers are not looked up at all. Floats are no indices: an exception. Other dimensions: the number 0. *)
Theorem C100_point_rejected : forall shape data p xth upper it box dirs dirs0, (exists i, valid shape i /\ selected upper (data i) xth = true) ->
  (length shape <> 2 -> length shape <> 3 -> mfp_from_point shape data p xth upper it box dirs dirs0 = Zero)%nat /\
  ((length shape = 2 \/ length shape = 3)%nat -> forall q, p = PyInt q \/ (p = NpInt q /\ length shape = 2%nat) ->
     (mfp_from_point shape data p xth upper it box dirs dirs0 = Nothing <-> valid shape q /\ selected upper (data q) xth = false) /\
     (mfp_from_point shape data p xth upper it box dirs dirs0 = Error <-> ~ valid shape q)) /\
  ((length shape = 2 \/ length shape = 3)%nat -> forall q, p = Floats q -> mfp_from_point shape data p xth upper it box dirs dirs0 = Error).
Proof.
  intros shape data p xth upper it box dirs dirs0 [i0 [Hi0 Hs0]]. unfold mfp_from_point. cbv zeta. rewrite box_filter.
  assert (IN : In i0 (filter (fun i => selected upper (data i) xth) (indices shape))) by (apply filter_In; split; [apply indices_valid; exact Hi0|exact Hs0]).
  assert (NZ : Nat.eqb (length (filter (fun i => selected upper (data i) xth) (indices shape))) 0 = false).
  { apply Nat.eqb_neq. destruct (filter _ (indices shape)); [contradiction|cbn; lia]. }
  rewrite NZ. set (roi := fun i => geb ((if upper then fun i => -1 * data i else data) i) (if upper then -1 * xth else xth)).
  assert (RO : forall i, roi i = selected upper (data i) xth) by (intro i; unfold roi; rewrite dat_eq; apply selected_flip).
  split; [|split].
  - intros N2 N3. destruct (length shape) as [|[|[|[|n]]]]; try reflexivity; congruence.
  - intros Hd q Hp.
    assert (OUT : match length shape with 2%nat => mfp2d_point shape roi p dirs | 3%nat => mfp3d_point shape roi p dirs | _ => Zero end =
      if within shape q then if selected upper (data q) xth then Value (ray_loop shape roi (longest_for shape) (rays_from q dirs)) else Nothing else Error).
    { unfold longest_for. destruct Hd as [Hd|Hd]; rewrite Hd; cbn [Nat.eqb]; unfold mfp2d_point, mfp3d_point; destruct Hp as [->|[-> H2]]; rewrite ?RO; try reflexivity. congruence. }
    rewrite OUT. pose proof (within_valid shape q) as W. destruct (within shape q); [destruct (selected upper (data q) xth)|]; split; split; intro H;
      first [discriminate | split; [apply W; reflexivity|reflexivity] | reflexivity | destruct H as [? H]; discriminate | exfalso; apply H; apply W; reflexivity | destruct H as [H _]; apply W in H; discriminate | intro V; apply W in V; discriminate].
  - intros Hd q ->. destruct Hd as [Hd|Hd]; rewrite Hd; reflexivity.
Qed.
Print Assumptions C100_point_rejected.

(** Refuted: "a point outside the region gives None". With numpy integers in 3-D the rays start outside and a curve comes back. *)
Theorem C100_numpy_point_refuted : exists shape data q xth it box dirs dirs0 r c, valid shape q /\ selected false (data q) xth = false /\
  (exists i, valid shape i /\ selected false (data i) xth = true) /\
  mfp_from_point shape data (PyInt q) xth false it box dirs dirs0 = Nothing /\ mfp_from_point shape data (NpInt q) xth false it box dirs dirs0 = Value (r, c) /\ rsum c = 1.
Proof.
  set (data := fun i : list nat => match i with [0%nat; 0%nat; 0%nat] => 1 | _ => 0 end).
  exists [2%nat; 2%nat; 2%nat], data, [0%nat; 1%nat; 1%nat], (1/2), 1%nat, 1, [[0; 1; 0]], [].
  assert (V : valid [2%nat; 2%nat; 2%nat] [0%nat; 1%nat; 1%nat]) by (unfold valid; repeat constructor).
  assert (V0 : valid [2%nat; 2%nat; 2%nat] [0%nat; 0%nat; 0%nat]) by (unfold valid; repeat constructor).
  assert (S0 : selected false (data [0%nat; 1%nat; 1%nat]) (1/2) = false) by (cbn; unfold geb; destruct (Rle_dec _ _); [lra|reflexivity]).
  assert (S1 : selected false (data [0%nat; 0%nat; 0%nat]) (1/2) = true) by (cbn; unfold geb; destruct (Rle_dec _ _); [reflexivity|lra]).
  assert (EX : exists i, valid [2%nat; 2%nat; 2%nat] i /\ selected false (data i) (1/2) = true) by (exists [0%nat; 0%nat; 0%nat]; auto).
  pose proof (C100_point_rejected [2%nat; 2%nat; 2%nat] data (PyInt [0%nat; 1%nat; 1%nat]) (1/2) false 1 1 [[0; 1; 0]] [] EX) as [_ [R1 _]].
  destruct (R1 (or_intror eq_refl) _ (or_introl eq_refl)) as [R2 _].
  eexists. eexists. split; [exact V|]. split; [exact S0|]. split; [exact EX|]. split; [apply R2; auto|].
  unfold mfp_from_point. cbv zeta. rewrite (box_filter _ false data (1/2)).
  assert (NZ : Nat.eqb (length (filter (fun i => selected false (data i) (1/2)) (indices [2%nat; 2%nat; 2%nat]))) 0 = false).
  { apply Nat.eqb_neq. assert (IN : In [0%nat; 0%nat; 0%nat] (filter (fun i => selected false (data i) (1/2)) (indices [2%nat; 2%nat; 2%nat]))) by (apply filter_In; split; [apply indices_valid; exact V0|exact S1]).
    destruct (filter _ _); [contradiction|cbn; lia]. }
  rewrite NZ. split; [reflexivity|].
  set (f := fun i => geb _ _).
  assert (EM : forall r, filter (fun r0 : ray => above_half (interp [2%nat; 2%nat; 2%nat] f (fst r0))) (map move [(map INR [0%nat; 1%nat; 1%nat], r)]) = [] -> True) by auto. clear EM.
  assert (OUTSIDE : interp [2%nat; 2%nat; 2%nat] f (vadd (map INR [0%nat; 1%nat; 1%nat]) [0; 1; 0]) = 0).
  { apply interp_outside. cbn [map vadd in_grid INR]. intros [_ [[_ H] _]]. lra. }
  unfold longest_3d. change (list_max [2%nat; 2%nat; 2%nat]) with 2%nat. unfold rays_from. cbn [map]. change (map INR [0%nat; 1%nat; 1%nat]) with [INR 0; INR 1; INR 1] in OUTSIDE.
  cbn [ray_loop map filter move fst snd]. unfold move. cbn [fst snd]. rewrite OUTSIDE.
  assert (AH : above_half 0 = false) by (unfold above_half; destruct (Rlt_dec (1/2) 0); [lra|reflexivity]). rewrite AH. cbn. lra.
Qed.
Print Assumptions C100_numpy_point_refuted.

(** Without any cell in the region a point of the array gives zeros if the threshold is at most 1; above that Python integers give [None]. *)
Theorem C100_no_region : forall shape data q xth upper it box dirs dirs0, (length shape = 2 \/ length shape = 3)%nat -> valid shape q ->
  (forall i, valid shape i -> selected upper (data i) xth = false) ->
  ((if upper then - xth else xth) <= 1 -> exists r c, mfp_from_point shape data (PyInt q) xth upper it box dirs dirs0 = Value (r, c) /\ length c = longest_for shape /\ length r = length c /\ Forall (fun x => x = 0) c) /\
  (1 < (if upper then - xth else xth) -> mfp_from_point shape data (PyInt q) xth upper it box dirs dirs0 = Nothing).
Proof.
  intros shape data q xth upper it box dirs dirs0 Hd Hq Hn. unfold mfp_from_point. cbv zeta. rewrite box_filter.
  rewrite (filter_none (fun i => selected upper (data i) xth)) by (intros i Hi; apply Hn, indices_valid, Hi). cbn [length Nat.eqb].
  assert (W : within shape q = true) by (apply within_valid; exact Hq).
  assert (TH : (if upper then -1 * xth else xth) = (if upper then - xth else xth)) by (destruct upper; ring). rewrite TH. split; intro B.
  - assert (G : geb 1 (if upper then - xth else xth) = true) by (apply geb_iff; exact B).
    assert (OUT : match length shape with 2%nat => mfp2d_point shape (fun _ => geb 1 (if upper then - xth else xth)) (PyInt q) dirs0 | 3%nat => mfp3d_point shape (fun _ => geb 1 (if upper then - xth else xth)) (PyInt q) dirs0 | _ => Zero end =
      Value (ray_loop shape (fun _ => geb 1 (if upper then - xth else xth)) (longest_for shape) (rays_from q dirs0))).
    { unfold longest_for. destruct Hd as [Hd|Hd]; rewrite Hd; cbn [Nat.eqb]; unfold mfp2d_point, mfp3d_point; rewrite W, G; reflexivity. }
    rewrite OUT. eexists. eexists. split; [reflexivity|]. split; [rewrite map_length; apply loop_length|]. split; [rewrite !map_length, seq_length; reflexivity|].
    apply Forall_forall. intros x Hx. apply in_map_iff in Hx. destruct Hx as [? [<- _]]. reflexivity.
  - assert (G : geb 1 (if upper then - xth else xth) = false) by (destruct (geb _ _) eqn:E; [apply geb_iff in E; lra|reflexivity]).
    destruct Hd as [Hd|Hd]; rewrite Hd; unfold mfp2d_point, mfp3d_point; rewrite W, G; reflexivity.
Qed.
Print Assumptions C100_no_region.

(** ** Averages per point *)
(** The lengths (in steps) of those rays that end. *)
Definition ended (e : list R -> option nat) (dirs : list (list R)) : list nat := flat_map (fun d => match e d with Some k => [k] | None => [] end) dirs.
Definition mean (l : list nat) : option R := match l with [] => None | _ => Some (rsum (map INR l) / INR (length l)) end.
(** Values that are numbers and positive. *)
Definition kept (l : list (option R)) : list R := flat_map (fun o => match o with Some v => if Rlt_dec 0 v then [v] else [] | None => [] end) l.
Definition in_log_bin (lo w : R) (n i : nat) (v : R) : bool :=
  (if Rle_dec (lo + INR i * w) (ln v) then true else false) &&
  (if Nat.eqb (S i) n then (if Rle_dec (ln v) (lo + INR (S i) * w) then true else false) else (if Rlt_dec (ln v) (lo + INR (S i) * w) then true else false)).

Lemma tally_weight : forall (e : list R -> option nat) L dirs, (forall d k, e d = Some k -> (k < L)%nat) ->
  rsum (map (fun k => INR (tally e k dirs) * INR k) (seq 0 L)) = rsum (map INR (ended e dirs)).
Proof.
  intros e L dirs B. induction dirs as [|d dirs IH]; [apply rsum_zero; intros; cbn; ring|].
  unfold ended. cbn [flat_map]. rewrite map_app, rsum_app. fold (ended e dirs). rewrite <- IH.
  assert (T : forall k, INR (tally e k (d :: dirs)) * INR k = (match e d with Some j => if Nat.eqb j k then INR k else 0 | None => 0 end) + INR (tally e k dirs) * INR k).
  { intro k. unfold tally. cbn [filter]. destruct (e d) as [j|]; [|ring]. destruct (Nat.eqb j k); [|ring]. cbn [length]. rewrite S_INR. ring. }
  rewrite (rsum_ext _ _ (seq 0 L) (fun k _ => T k)), rsum_plus. f_equal. destruct (e d) as [j|] eqn:E.
  - rewrite (rsum_delta Nat.eqb INR (seq 0 L) j); [cbn; ring|apply Nat.eqb_eq|apply seq_NoDup|apply in_seq; specialize (B d j E); lia].
  - apply rsum_zero. reflexivity.
Qed.
Lemma ended_length : forall e dirs, (length (ended e dirs) + tally_none e dirs = length dirs)%nat.
Proof.
  intros e dirs. unfold ended, tally_none. induction dirs as [|d dirs IH]; [reflexivity|]. cbn [flat_map filter length]. rewrite app_length. destruct (e d); cbn [length]; lia.
Qed.
(** The average of a point is the mean number of steps of its rays that end; it lies between 0 and the number of steps less one. *)
Theorem C100_average : forall shape roi q dirs L, length q = length shape -> Forall (fun v => length v = length shape) dirs ->
  exists e : list R -> option nat, (forall d k, e d = Some k <-> (k < L)%nat /\ ends_after shape roi (map INR q, d) k) /\
    average (ray_loop shape roi L (rays_from q dirs)) = mean (ended e dirs) /\
    (forall v, mean (ended e dirs) = Some v -> 0 <= v <= INR L - 1) /\ (mean (ended e dirs) = None <-> forall d, In d dirs -> e d = None).
Proof.
  intros shape roi q dirs L Hq HD. pose proof (rays_proper q dirs (length shape) Hq HD) as PR.
  destruct (C31_histogram shape roi L (rays_from q dirs) (length shape) PR) as [e [E1 [E2 [E3 E4]]]]. set (h := ray_loop shape roi L (rays_from q dirs)) in *.
  set (e' := fun d : list R => e (map INR q, d)). exists e'.
  assert (T : forall k, tally e k (rays_from q dirs) = tally e' k dirs).
  { intro k. unfold tally, rays_from, e'. rewrite filter_map, map_length. reflexivity. }
  assert (TN : tally_none e (rays_from q dirs) = tally_none e' dirs).
  { unfold tally_none, rays_from, e'. rewrite filter_map, map_length. reflexivity. }
  assert (BD : forall d k, e' d = Some k -> (k < L)%nat) by (intros d k K; apply E1 in K; tauto).
  assert (LS : list_sum h = length (ended e' dirs)). { pose proof (ended_length e' dirs). unfold rays_from in E4 at 2. rewrite map_length, TN in E4. lia. }
  assert (W : weighted h = rsum (map INR (ended e' dirs))).
  { rewrite <- (tally_weight e' L dirs BD). unfold weighted. rewrite E2. apply rsum_ext. intros k Hk. apply in_seq in Hk. rewrite E3, T by lia. reflexivity. }
  split; [intros d k; apply E1|]. split; [|split].
  - unfold average. rewrite LS, W. destruct (ended e' dirs) as [|x l]; cbn [length Nat.eqb mean]; reflexivity.
  - intros v Hv. assert (B : forall k, In k (ended e' dirs) -> (k < L)%nat).
    { intros k Hk. unfold ended in Hk. apply in_flat_map in Hk. destruct Hk as [d [_ Hk]]. destruct (e' d) as [j|] eqn:E; [|contradiction]. destruct Hk as [<-|[]]. apply (BD d j E). }
    destruct (ended e' dirs) as [|x l]; [discriminate|]. assert (EV : v = rsum (map INR (x :: l)) / INR (length (x :: l))) by (cbn [mean] in Hv; congruence). subst v.
    assert (P : 0 < INR (length (x :: l))) by (apply lt_0_INR; cbn; lia). split.
    + apply Rle_mult_inv_pos; [|exact P]. apply rsum_nonneg. intros y Hy. apply in_map_iff in Hy. destruct Hy as [k [<- _]]. apply pos_INR.
    + apply (Rmult_le_reg_r (INR (length (x :: l)))); [exact P|]. unfold Rdiv. rewrite Rmult_assoc, Rinv_l, Rmult_1_r by lra.
      apply (Rle_trans _ (rsum (map (fun _ => INR L - 1) (x :: l)))); [|rewrite rsum_const; lra]. apply rsum_le. intros k Hk. specialize (B k Hk). assert (K : (S k <= L)%nat) by lia. apply le_INR in K. rewrite S_INR in K. lra.
  - unfold mean. split.
    + intros H d Hd. destruct (e' d) as [k|] eqn:E; [|reflexivity]. exfalso. assert (IN : In k (ended e' dirs)) by (unfold ended; apply in_flat_map; exists d; rewrite E; split; [exact Hd|left; reflexivity]).
      destruct (ended e' dirs); [contradiction|discriminate].
    + intro H. replace (ended e' dirs) with (@nil nat); [reflexivity|]. unfold ended. clear - H. induction dirs as [|d dirs IH]; [reflexivity|]. cbn [flat_map]. rewrite (H d (or_introl eq_refl)). cbn [app]. apply IH. intros d' Hd. apply H. right. exact Hd.
Qed.
Print Assumptions C100_average.
Example C100_average_sat : exists (shape : list nat) (q : list nat) (dirs : list (list R)), length q = length shape /\ Forall (fun v => length v = length shape) dirs.
Proof. exists [3; 3]%nat, [1; 1]%nat, [dir_2d 0; dir_2d 45]. split; [reflexivity|]. repeat constructor. Qed.

Lemma positive_kept : forall l, positive l = kept l.
Proof. induction l as [|[v|] l IH]; [reflexivity| |exact IH]. unfold kept. cbn [positive flat_map]. destruct (Rlt_dec 0 v); cbn [app]; rewrite IH; reflexivity. Qed.
Lemma kept_in : forall l v, In v (kept l) <-> In (Some v) l /\ 0 < v.
Proof.
  intros l v. unfold kept. rewrite in_flat_map. split.
  - intros [[u|] [H1 H2]]; [|contradiction]. destruct (Rlt_dec 0 u); [|contradiction]. destruct H2 as [->|[]]. auto.
  - intros [H1 H2]. exists (Some v). split; [exact H1|]. destruct (Rlt_dec 0 v); [left; reflexivity|contradiction].
Qed.
(** [averaged_mfp] on a box with a region. [lens]: the averages of the drawn points. With positive ones among them: fifty bins of equal width in ln r
    that span them; sizes are the middles in ln r; the curve is the share of the positive averages in each bin over the width, so it integrates to one
    over ln r. Without: nan. *)
Theorem C100_averaged : forall shape data xth upper box draws draws0, length shape = 3%nat -> (exists i, valid shape i /\ selected upper (data i) xth = true) ->
  exists r c lens, averaged_mfp shape data xth upper box draws draws0 = Value (r, c) /\ length r = 50%nat /\ length c = 50%nat /\
    lens = map (fun d => average (ray_loop shape (fun i => selected upper (data i) xth) (longest_3d shape)
                           (rays_from (nth (fst d) (filter (fun i => selected upper (data i) xth) (indices shape)) []) (snd d)))) draws /\
    (kept lens = [] -> c = repeat None 50) /\
    (kept lens <> [] -> exists lo w, 0 < w /\ (forall v, In v (kept lens) -> lo <= ln v <= lo + 50 * w) /\
       forall i, (i < 50)%nat -> nth i r 0 = exp (lo + (INR i + 1/2) * w) * box / INR (hd 0%nat shape) /\
         exists p, nth i c None = Some p /\ p * w = INR (length (filter (in_log_bin lo w 50 i) (kept lens))) / INR (length (kept lens))).
Proof.
  intros shape data xth upper box draws draws0 Hd [i0 [Hi0 Hs0]]. unfold averaged_mfp. cbv zeta. rewrite box_filter, Hd. cbn [Nat.eqb].
  assert (IN : In i0 (filter (fun i => selected upper (data i) xth) (indices shape))) by (apply filter_In; split; [apply indices_valid; exact Hi0|exact Hs0]).
  assert (NZ : Nat.eqb (length (filter (fun i => selected upper (data i) xth) (indices shape))) 0 = false).
  { apply Nat.eqb_neq. destruct (filter _ (indices shape)); [contradiction|cbn; lia]. }
  rewrite NZ. set (roi := fun i => geb ((if upper then fun i => -1 * data i else data) i) (if upper then -1 * xth else xth)).
  assert (RO : forall i, roi i = selected upper (data i) xth) by (intro i; unfold roi; rewrite dat_eq; apply selected_flip).
  rewrite (filter_ext roi (fun i => selected upper (data i) xth) RO).
  set (loc := filter (fun i => selected upper (data i) xth) (indices shape)) in *.
  assert (M : exists l0 l1, loc = l0 :: l1) by (destruct loc as [|x y]; [contradiction|eauto]). destruct M as [l0 [l1 M]]. clearbody loc. subst loc. set (loc := l0 :: l1) in *. cbv beta iota delta [loc]. fold loc.
  set (lens := map (fun d => average (ray_loop shape (fun i => selected upper (data i) xth) (longest_3d shape) (rays_from (nth (fst d) loc []) (snd d)))) draws).
  assert (LE : map (fun d => average (ray_loop shape roi (longest_3d shape) (rays_from (nth (fst d) loc []) (snd d)))) draws = lens).
  { apply map_ext. intro d. apply (f_equal average). apply ray_loop_ext. exact RO. }
  rewrite LE, positive_kept. eexists. eexists. exists lens. split; [reflexivity|]. split; [rewrite map_length, seq_length; reflexivity|].
  destruct (kept lens) as [|x l] eqn:K.
  - split; [reflexivity|]. split; [reflexivity|]. split; [reflexivity|]. congruence.
  - set (h := histogram 50 (ln x) (map ln l)). assert (LF : length (fst h) = 50%nat) by reflexivity.
    split; [unfold density; rewrite !map_length, seq_length; exact LF|]. split; [reflexivity|]. split; [discriminate|]. intros _.
    set (lo := fst (outer_edges (ln x) (map ln l))). set (hi := snd (outer_edges (ln x) (map ln l))). destruct (outer_spec (ln x) (map ln l)) as [O1 O2]. fold lo hi in O1, O2.
    exists lo, ((hi - lo) / INR 50). set (w := (hi - lo) / INR 50).
    assert (F50 : INR 50 = 50) by (cbn; lra). assert (WP : 0 < w) by (unfold w; rewrite F50; apply Rdiv_lt_0_compat; lra).
    assert (ED : forall i, (i <= 50)%nat -> nth i (snd h) 0 = lo + INR i * w) by (intros i Hi; apply (edge_nth 50 lo hi i Hi)).
    split; [exact WP|]. split.
    { intros v Hv. assert (HW : lo + 50 * w = hi) by (unfold w; rewrite F50; field). rewrite HW. apply O2. change (In (ln v) (map ln (x :: l))). apply in_map. exact Hv. }
    intros i Hi. split.
    + set (F := fun i => bin_middle (snd h) i * box / INR (hd 0%nat shape)). rewrite (nth_indep _ 0 (F 0%nat)) by (rewrite map_length, seq_length; exact Hi). rewrite (map_nth F), seq_nth by exact Hi. unfold F, bin_middle.
      rewrite (ED (0 + i)%nat), (ED (S (0 + i))%nat) by lia. cbn [Nat.add]. rewrite S_INR. replace ((lo + (INR i + 1) * w) / 2 + (lo + INR i * w) / 2) with (lo + (INR i + 1 / 2) * w) by field. reflexivity.
    + set (F := fun i => INR (nth i (fst h) 0%nat) / (nth (S i) (snd h) 0 - nth i (snd h) 0) / INR (list_sum (fst h))).
      exists (F i). split.
      * unfold density. fold F. rewrite map_map. rewrite (nth_indep _ None (Some (F 0%nat))) by (rewrite map_length, seq_length, LF; exact Hi). rewrite (map_nth (fun i => Some (F i))), seq_nth by (rewrite LF; exact Hi). reflexivity.
      * assert (TOT : list_sum (fst h) = length (x :: l)) by (unfold h; rewrite histogram_total by lia; cbn [length]; rewrite map_length; reflexivity).
        assert (CNT : nth i (fst h) 0%nat = length (filter (in_log_bin lo w 50 i) (x :: l))).
        { unfold h, histogram. cbv zeta. fold lo hi. cbn [fst]. set (G := fun i => length (filter (in_bin 50 (linspace_edges 50 lo hi) i) (ln x :: map ln l))).
          rewrite (nth_indep _ 0%nat (G 0%nat)) by (rewrite map_length, seq_length; exact Hi). rewrite (map_nth G), seq_nth by exact Hi. unfold G. cbn [Nat.add].
          change (ln x :: map ln l) with (map ln (x :: l)). rewrite filter_map, map_length. apply (f_equal (@length R)). apply filter_ext. intro v. unfold in_bin, in_log_bin.
          rewrite (edge_nth 50 lo hi i), (edge_nth 50 lo hi (S i)) by lia. reflexivity. }
        unfold F. rewrite TOT, CNT, (ED i), (ED (S i)) by lia. rewrite (S_INR i). assert (0 < INR (length (x :: l))) by (apply lt_0_INR; cbn; lia). field. split; lra.
Qed.
Print Assumptions C100_averaged.
Example C100_averaged_sat : exists (shape : list nat) (data : list nat -> R) (xth : R) (upper : bool), length shape = 3%nat /\ (exists i, valid shape i /\ selected upper (data i) xth = true).
Proof. exists [3; 3; 3]%nat, (fun _ => 1), (1/2), false. split; [reflexivity|]. exists [1; 1; 1]%nat. split; [repeat constructor|apply geb_iff; lra]. Qed.
Lemma sum_INR : forall (f : nat -> nat) l, INR (list_sum (map f l)) = rsum (map (fun i => INR (f i)) l).
Proof. intros f. induction l as [|a l IH]; [reflexivity|]. cbn [map]. change (list_sum (f a :: map f l)) with (f a + list_sum (map f l))%nat. rewrite plus_INR, IH. reflexivity. Qed.
(** Hence the curve integrates to one over ln r. *)
Theorem C100_averaged_total : forall shape data xth upper box draws draws0 r c, length shape = 3%nat -> (exists i, valid shape i /\ selected upper (data i) xth = true) ->
  averaged_mfp shape data xth upper box draws draws0 = Value (r, c) -> 0 < box -> (1 <= hd 0 shape)%nat ->
  c = repeat None 50 \/
  exists w ps, 0 < w /\ c = map Some ps /\ Forall (fun p => 0 <= p) ps /\ rsum (map (fun p => p * w) ps) = 1 /\ Forall (fun x => 0 < x) r /\ (forall i, (S i < 50)%nat -> ln (nth (S i) r 0) - ln (nth i r 0) = w).
Proof.
  intros shape data xth upper box draws draws0 r c Hd HE HV Hb Hn. destruct (C100_averaged shape data xth upper box draws draws0 Hd HE) as [r' [c' [lens [E [Lr [Lc [_ [E1 E2]]]]]]]].
  rewrite E in HV. injection HV as -> ->. clear E. destruct (kept lens) as [|x l] eqn:K; [left; apply E1; reflexivity|right].
  destruct (E2 ltac:(discriminate)) as [lo [w [W [B H]]]]. exists w.
  set (cnt := fun i => INR (length (filter (in_log_bin lo w 50 i) (x :: l))) / INR (length (x :: l))).
  assert (NP : 0 < INR (length (x :: l))) by (apply lt_0_INR; cbn; lia).
  exists (map (fun i => cnt i / w) (seq 0 50)). split; [exact W|].
  assert (CN : forall i, 0 <= cnt i) by (intro i; unfold cnt; apply Rle_mult_inv_pos; [apply pos_INR|exact NP]).
  assert (RR : forall i, (i < 50)%nat -> nth i r 0 = exp (lo + (INR i + 1/2) * w + ln (box / INR (hd 0%nat shape)))).
  { intros i Hi. destruct (H i Hi) as [-> _]. rewrite (exp_plus (lo + (INR i + 1/2) * w) (ln (box / INR (hd 0%nat shape)))), exp_ln; [field; apply not_0_INR; lia|apply Rdiv_lt_0_compat; [exact Hb|apply lt_0_INR; lia]]. }
  split; [|split; [|split; [|split]]].
  - apply (nth_ext _ _ None (Some 0)); [rewrite Lc, !map_length, seq_length; reflexivity|]. intros i Hi. rewrite Lc in Hi. destruct (H i Hi) as [_ [p [-> Hp]]].
    rewrite (map_nth Some). rewrite (nth_indep _ 0 (cnt 0%nat / w)) by (rewrite map_length, seq_length; exact Hi). rewrite (map_nth (fun i => cnt i / w)), seq_nth by exact Hi. apply (f_equal Some). cbn [Nat.add]. unfold cnt. rewrite <- Hp. field. lra.
  - apply Forall_forall. intros p Hp. apply in_map_iff in Hp. destruct Hp as [i [<- _]]. apply Rle_mult_inv_pos; [apply CN|exact W].
  - rewrite map_map. rewrite (rsum_ext _ (fun i => / INR (length (x :: l)) * INR (length (filter (in_log_bin lo w 50 i) (x :: l))))) by (intros i _; unfold cnt; field; split; lra).
    rewrite rsum_scale.
    assert (ONE : forall v, In v (x :: l) -> length (filter (fun i => in_log_bin lo w 50 i v) (seq 0 50)) = 1%nat).
    { intros v Hv. specialize (B v Hv). refine (eq_trans _ (one_bin 50 lo (lo + 50 * w) (ln v) _ _ B)); [|lia|lra].
      apply (f_equal (@length nat)). apply filter_ext_in. intros i Hi. apply in_seq in Hi. unfold in_log_bin, in_bin. rewrite !edge_nth by lia. replace (lo + 50 * w - lo) with (INR 50 * w) by (cbn [INR]; lra).
      replace (INR 50 * w / INR 50) with w by (field; cbn [INR]; lra). reflexivity. }
    rewrite <- (sum_INR (fun i => length (filter (in_log_bin lo w 50 i) (x :: l))) (seq 0 50)).
    rewrite (sum_counts (in_log_bin lo w 50) (x :: l) (seq 0 50)) by exact ONE. field. lra.
  - apply Forall_forall. intros y Hy. apply (In_nth _ _ 0) in Hy. destruct Hy as [i [Hi <-]]. rewrite Lr in Hi. rewrite (RR i Hi). apply exp_pos.
  - intros i Hi. rewrite (RR i), (RR (S i)) by lia. rewrite !ln_exp, S_INR. ring.
Qed.
Print Assumptions C100_averaged_total.

(** ** Rebinning *)
(** A number of bins: so many sizes from the smallest to the largest in equal steps of log r, ascending; each with the interpolated value. *)
Theorem C100_rebin : forall cubic rr pp n lo hi, (2 <= n)%nat -> 0 < lo -> lo < hi ->
  let out := rebin_bsd cubic rr pp (Count n) (Some lo) (Some hi) in
  length out = n /\ fst (nth 0 out (0, None)) = lo /\ fst (nth (n - 1) out (0, None)) = hi /\
  (forall i, (S i < n)%nat -> fst (nth i out (0, None)) < fst (nth (S i) out (0, None))) /\
  (exists f, forall i, (S i < n)%nat -> fst (nth (S i) out (0, None)) = f * fst (nth i out (0, None))) /\
  Forall (fun rv => lo <= fst rv <= hi /\ snd rv = cubic rr pp (fst rv)) out.
Proof.
  intros cubic rr pp n lo hi Hn L0 LH out. unfold rebin_bsd in out. cbn [default] in out.
  set (step := (log10 hi - log10 lo) / INR (n - 1)). set (g := fun i => pow10 (log10 lo + INR i * step)).
  assert (NP : 0 < INR (n - 1)) by (apply lt_0_INR; lia).
  assert (LL : log10 lo < log10 hi). { unfold log10, Rdiv. apply Rmult_lt_compat_r; [apply Rinv_0_lt_compat, ln10_pos|apply ln_increasing; assumption]. }
  assert (SP : 0 < step) by (unfold step; apply Rdiv_lt_0_compat; lra).
  assert (OUT : out = map (fun i => (g i, cubic rr pp (g i))) (seq 0 n)) by (unfold out, log_grid; rewrite map_map; reflexivity).
  assert (LEN : length out = n) by (rewrite OUT, map_length, seq_length; reflexivity).
  assert (NTH : forall i, (i < n)%nat -> fst (nth i out (0, None)) = g i).
  { intros i Hi. rewrite OUT. set (F := fun i => (g i, cubic rr pp (g i))). rewrite (nth_indep _ (0, None) (F 0%nat)) by (rewrite map_length, seq_length; exact Hi). rewrite (map_nth F), seq_nth by exact Hi. reflexivity. }
  assert (G0 : g 0%nat = lo) by (unfold g; cbn [INR]; rewrite Rmult_0_l, Rplus_0_r; apply pow10_log10; exact L0).
  assert (GL : g (n - 1)%nat = hi). { unfold g, step. replace (log10 lo + INR (n - 1) * ((log10 hi - log10 lo) / INR (n - 1))) with (log10 hi) by (field; lra). apply pow10_log10. lra. }
  assert (GM : forall i j, (i < j)%nat -> g i < g j) by (intros i j H; unfold g; apply (proj1 (pow10_lt _ _)); apply lt_INR in H; apply Rplus_lt_compat_l, Rmult_lt_compat_r; assumption).
  split; [exact LEN|]. split; [rewrite NTH by lia; exact G0|]. split; [rewrite NTH by lia; exact GL|].
  split; [intros i Hi; rewrite !NTH by lia; apply GM; lia|]. split.
  - exists (pow10 step). intros i Hi. rewrite !NTH by lia. unfold g. rewrite S_INR. replace (log10 lo + (INR i + 1) * step) with (step + (log10 lo + INR i * step)) by ring. unfold pow10. rewrite Rpower_plus. reflexivity.
  - apply Forall_forall. intros rv Hrv. rewrite OUT in Hrv. apply in_map_iff in Hrv. destruct Hrv as [i [<- Hi]]. apply in_seq in Hi. cbn [fst snd]. split; [|reflexivity]. rewrite <- G0 at 1. rewrite <- GL.
    split; [destruct (Nat.eq_dec i 0) as [->|N]; [lra|left; apply GM; lia]|destruct (Nat.eq_dec i (n - 1)) as [->|N]; [lra|left; apply GM; lia]].
Qed.
Print Assumptions C100_rebin.
(** The limits left out: one above the smallest size and ten below the largest, whatever the units. If that is an ordered positive range and the
    interpolation answers between its outermost nodes, every bin gets a value. *)
Theorem C100_rebin_default : forall cubic r0 rr pp n v, (2 <= n)%nat -> (forall r, In r (r0 :: rr) -> 0 <= r) ->
  (forall r a b, In a (r0 :: rr) -> In b (r0 :: rr) -> a <= r <= b -> exists y, cubic (r0 :: rr) pp r = Some y) ->
  (exists a b, In a (r0 :: rr) /\ In b (r0 :: rr) /\ b - a > 11) ->
  rebin_bsd cubic (r0 :: rr) pp (Count n) None None = v ->
  (exists a b, In a (r0 :: rr) /\ In b (r0 :: rr) /\ (forall r, In r (r0 :: rr) -> a <= r <= b) /\ fst (nth 0 v (0, None)) = a + 1 /\ fst (nth (n - 1) v (0, None)) = b - 10) /\
  length v = n /\ Forall (fun rv => exists y, snd rv = Some y /\ cubic (r0 :: rr) pp (fst rv) = Some y) v.
Proof.
  intros cubic r0 rr pp n v Hn Pos Cub [a [b [Ia [Ib Hab]]]] <-.
  change (rebin_bsd cubic (r0 :: rr) pp (Count n) None None) with (rebin_bsd cubic (r0 :: rr) pp (Count n) (Some (rmin r0 rr + 1)) (Some (rmax r0 rr - 10))).
  pose proof (rmin_le rr r0 a Ia). pose proof (rmax_ge rr r0 b Ib). pose proof (rmin_in rr r0) as Imin. pose proof (rmax_in rr r0) as Imax. pose proof (Pos _ Imin).
  destruct (C100_rebin cubic (r0 :: rr) pp n (rmin r0 rr + 1) (rmax r0 rr - 10) Hn ltac:(lra) ltac:(lra)) as [L [F [G [_ [_ A]]]]].
  split; [exists (rmin r0 rr), (rmax r0 rr); split; [exact Imin|]; split; [exact Imax|]; split; [intros r Hr; split; [apply rmin_le|apply rmax_ge]; exact Hr|split; assumption]|].
  split; [exact L|]. eapply Forall_impl; [|exact A]. intros [r y] [B E]. cbn [fst snd] in *. destruct (Cub r _ _ Imin Imax ltac:(lra)) as [z Hz]. exists z. split; [congruence|exact Hz].
Qed.
Print Assumptions C100_rebin_default.
Example C100_rebin_default_sat : exists (cubic : list R -> list R -> R -> option R) (r0 : R) (rr : list R) (pp : list R) (n : nat) (v : list (R * option R)), (2 <= n)%nat /\ ((forall r, In r (r0 :: rr) -> 0 <= r)) /\ ((forall r a b, In a (r0 :: rr) -> In b (r0 :: rr) -> a <= r <= b -> exists y, cubic (r0 :: rr) pp r = Some y)) /\ (exists a b, In a (r0 :: rr) /\ In b (r0 :: rr) /\ b - a > 11) /\ rebin_bsd cubic (r0 :: rr) pp (Count n) None None = v.
Proof. eexists (fun _ _ r => Some r), 0, [12], [1; 2], 5%nat, _. split; [lia|]. split; [intros r [<-|[<-|[]]]; lra|]. split; [intros; eexists; reflexivity|]. split; [exists 0, 12; cbn; repeat split; try tauto; lra|reflexivity]. Qed.
(** Sizes given: used as they are. At the nodes an interpolation through the nodes gives the curve back. *)
Theorem C100_rebin_sizes : forall cubic rr pp l r_min r_max,
  map fst (rebin_bsd cubic rr pp (Sizes l) r_min r_max) = l /\ map snd (rebin_bsd cubic rr pp (Sizes l) r_min r_max) = map (cubic rr pp) l /\
  (length rr = length pp -> (forall i, (i < length rr)%nat -> cubic rr pp (nth i rr 0) = Some (nth i pp 0)) -> rebin_bsd cubic rr pp (Sizes rr) r_min r_max = combine rr (map Some pp)).
Proof.
  intros cubic rr pp l r_min r_max. unfold rebin_bsd. rewrite !map_map. cbn [fst snd]. split; [apply map_id|]. split; [reflexivity|]. intros L H.
  apply (nth_ext _ _ (0, None) (0, None)); [rewrite map_length, combine_length, map_length; lia|]. intros i Hi. rewrite map_length in Hi.
  rewrite combine_nth by (rewrite map_length; exact L). rewrite (nth_indep _ (0, None) ((fun r => (r, cubic rr pp r)) 0)) by (rewrite map_length; exact Hi). rewrite (map_nth (fun r => (r, cubic rr pp r))).
  rewrite (H i Hi). rewrite (nth_indep (map Some pp) None (Some 0)) by (rewrite map_length; lia). rewrite (map_nth Some). reflexivity.
Qed.
Print Assumptions C100_rebin_sizes.
(** Refuted: "the rebinned sizes lie among the given ones". Below ten units of range the default upper limit lies below the smallest size. *)
Theorem C100_rebin_refuted : exists rr pp n, (2 <= n)%nat /\ (forall r, In r rr -> 10 < r) /\
  forall cubic, exists r y, In (r, y) (rebin_bsd cubic rr pp (Count n) None None) /\ forall s, In s rr -> r < s.
Proof.
  exists [11; 12], [0; 0], 2%nat. split; [lia|]. split; [intros r [<-|[<-|[]]]; lra|]. intro cubic.
  assert (MX : list_maxR [11; 12] = 12) by (cbn; unfold Rmax; destruct (Rle_dec _ _); lra).
  assert (L : log10 12 - log10 12 = 0) by ring.
  exists 2, (cubic [11; 12] [0; 0] 2). split; [|intros s [<-|[<-|[]]]; lra].
  unfold rebin_bsd. cbn [default]. rewrite MX. unfold log_grid. cbn [seq map Nat.sub]. right. left. cbn [INR]. replace (12 - 10) with 2 by ring.
  replace (log10 (list_min [11; 12] + 1) + 1 * ((log10 2 - log10 (list_min [11; 12] + 1)) / 1)) with (log10 2) by field. rewrite pow10_log10 by lra. reflexivity.
Qed.
Print Assumptions C100_rebin_refuted.

(** ** Granulometric sizes *)
Theorem C100_granulometry : forall shape data xth upper box Rs dlnR dR, granulometry_bsd shape data xth upper box = (Rs, dlnR, dR) ->
  exists mask a, (forall i, mask i = true <-> if upper then (data i < xth)%Q else (xth < data i)%Q) /\ a = fst (MorphModel.granulometry shape mask) /\
  let m := length dR in length Rs = m /\ length dlnR = m /\ (1 <= m)%nat /\ (1 <= length a -> m = length a)%nat /\
  forall k, (k < m)%nat ->
    (nth k Rs 0 == inject_Z (Z.of_nat k) * box / inject_Z (hd 0%Z shape))%Q /\ (nth k dlnR 0 == inject_Z (Z.of_nat k) * nth k dR 0)%Q /\
    (nth k dR 0 == if (S k <? m)%nat then (MorphModel.number (nth k a 0%nat) - MorphModel.number (nth (S k) a 0%nat)) / MorphModel.number (nth 0 a 0%nat) else 0)%Q.
Proof.
  intros shape data xth upper box Rs dlnR dR H. exists (gran_mask data xth upper). eexists. split; [|split; [reflexivity|]].
  { intro i. unfold gran_mask. destruct upper; rewrite negb_true_iff; rewrite <- not_true_iff_false, Qle_bool_iff; split; intro X; Lqa.lra. }
  unfold granulometry_bsd in H. unfold MorphModel.granulometry in *. cbv zeta in H. cbn [fst snd] in *.
  set (a := MorphModel.areas _ _ _) in *. injection H as <- <- <-. cbv zeta.
  assert (DL : forall l, length (MorphModel.differences l) = (length l - 1)%nat). { induction l as [|x [|y l] IH]; [reflexivity|reflexivity|]. cbn [MorphModel.differences length] in *. rewrite IH. lia. }
  assert (DN : forall l k, (S k < length l)%nat -> nth k (MorphModel.differences l) 0%Q = (MorphModel.number (nth k l 0%nat) - MorphModel.number (nth (S k) l 0%nat))%Q).
  { induction l as [|x [|y l] IH]; intros k Hk; cbn [length] in Hk; [lia|lia|]. destruct k as [|k]; [reflexivity|]. change (MorphModel.differences (x :: y :: l)) with ((MorphModel.number x - MorphModel.number y)%Q :: MorphModel.differences (y :: l)). change (nth (S k) (?u :: ?v) 0%Q) with (nth k v 0%Q). rewrite (IH k) by (cbn [length]; lia). reflexivity. }
  assert (PL : length (MorphModel.pattern_spectrum a) = (length a - 1 + 1)%nat) by (unfold MorphModel.pattern_spectrum; rewrite app_length, map_length, DL; reflexivity).
  set (ps := MorphModel.pattern_spectrum a) in *. split; [rewrite !map_length, seq_length; reflexivity|]. split; [rewrite map_length, combine_length, map_length, seq_length; lia|]. split; [lia|]. split; [lia|].
  intros k Hk. split; [|split].
  - rewrite map_map. set (F := fun k => (inject_Z (Z.of_nat k) * box / inject_Z (hd 0%Z shape))%Q). rewrite (nth_indep _ 0%Q (F 0%nat)) by (rewrite map_length, seq_length; exact Hk). rewrite (map_nth F), seq_nth by exact Hk. reflexivity.
  - set (F := fun p : Q * Q => (fst p * snd p)%Q). rewrite (nth_indep _ 0%Q (F (inject_Z (Z.of_nat 0), 0%Q))) by (rewrite map_length, combine_length, map_length, seq_length; lia).
    rewrite (map_nth F), combine_nth by (rewrite map_length, seq_length; reflexivity). rewrite (map_nth (fun k => inject_Z (Z.of_nat k))), seq_nth by exact Hk. reflexivity.
  - unfold ps in *. unfold MorphModel.pattern_spectrum in *. destruct (Nat.ltb_spec (S k) (length (map (fun d => (d / MorphModel.number (nth 0 a 0%nat))%Q) (MorphModel.differences a) ++ [0%Q]))) as [B|B]; rewrite app_length, map_length, DL in B, Hk; cbn [length] in B, Hk.
    + rewrite app_nth1 by (rewrite map_length, DL; lia). set (F := fun d => (d / MorphModel.number (nth 0 a 0%nat))%Q). rewrite (nth_indep _ 0%Q (F 0%Q)) by (rewrite map_length, DL; lia). rewrite (map_nth F), DN by lia. reflexivity.
    + rewrite app_nth2 by (rewrite map_length, DL; lia). rewrite map_length, DL. replace (k - (length a - 1))%nat with 0%nat by lia. reflexivity.
Qed.
Print Assumptions C100_granulometry.
Example C100_granulometry_sat : exists (shape : list Z) (data : list Z -> Q) (xth : Q) (upper : bool) (box : Q) (Rs : list Q) (dlnR : list Q) (dR : list Q), granulometry_bsd shape data xth upper box = (Rs, dlnR, dR).
Proof. eexists [4; 4]%Z, (fun _ => 1%Q), (1#2)%Q, false, 10%Q, _, _, _. reflexivity. Qed.

(** ** The h-transform *)
(** Reconstruction by dilation: the smallest image above the seed that no single step of dilation under the mask can raise. *)
Definition reconstructed {C} (cells : list C) (near : C -> C -> Prop) (seed mask g : C -> R) : Prop :=
  let stable (g : C -> R) := (forall x, In x cells -> seed x <= g x) /\ forall x y, In x cells -> In y cells -> near x y -> Rmin (g x) (mask y) <= g y in
  stable g /\ forall g', stable g' -> forall x, In x cells -> g x <= g' x.
(** A walk over neighbouring cells that stays above a level. *)
Inductive walk {C} (cells : list C) (near : C -> C -> Prop) (image : C -> R) (level : R) : C -> C -> Prop :=
  | here : forall x, In x cells -> level < image x -> walk cells near image level x x
  | step : forall x y z, In x cells -> level < image x -> near x y -> walk cells near image level y z -> walk cells near image level x z.
Lemma walk_end : forall {C} (cells : list C) near image level x z, walk cells near image level x z -> In x cells /\ In z cells /\ level < image x /\ level < image z.
Proof. intros C cells near image level x z H. induction H; tauto. Qed.
Lemma walk_snoc : forall {C} (cells : list C) near image level x y z, walk cells near image level x y -> near y z -> In z cells -> level < image z -> walk cells near image level x z.
Proof. intros C cells near image level x y z H. induction H; intros N I L; [apply step with z; auto; constructor; auto|apply step with y; auto]. Qed.
(** The result lies between 0 and h. It is h exactly at the cells from which no higher cell can be reached without going down by h or more; with a
    negative h the call raises. *)
Theorem C100_h_transform : forall C (cells : list C) (near : C -> C -> Prop) reconstruction image h, cells <> [] -> (forall x y : C, near x y -> near y x) ->
  reconstructed cells near (fun x => image x - h) image (reconstruction (fun x => image x - h) image) ->
  (h < 0 <-> h_transform cells reconstruction image h = None) /\
  (forall out, h_transform cells reconstruction image h = Some out -> forall x, In x cells ->
     0 <= out x <= h /\ (out x = h <-> ~ exists z, walk cells near image (image x - h) x z /\ image x < image z)).
Proof.
  intros C cells near recon image h NE SY [[S1 S2] LEAST]. unfold h_transform. cbv zeta.
  set (g := recon (fun x => image x - h) image) in *.
  assert (EX : h < 0 <-> existsb (fun x => if Rlt_dec (image x) (image x - h) then true else false) cells = true).
  { rewrite existsb_exists. split.
    - intro H. destruct cells as [|c l]; [congruence|]. exists c. split; [left; reflexivity|]. destruct (Rlt_dec _ _); [reflexivity|lra].
    - intros [c [_ H]]. destruct (Rlt_dec _ _); [lra|discriminate]. }
  destruct (existsb _ cells) eqn:E.
  { split; [split; [reflexivity|intros _; apply EX; reflexivity]|discriminate]. }
  assert (H0 : 0 <= h) by (destruct (Rlt_dec h 0) as [L|L]; [apply EX in L; discriminate|lra]). split; [split; [intro; lra|discriminate]|].
  intros out X x Hx. injection X as <-.
  assert (UP : g x <= image x).
  { apply (LEAST image); [|exact Hx]. split; [intros y _; cbn beta; lra|]. intros a b _ _ _. apply Rmin_r. }
  pose proof (S1 x Hx) as LO. cbn beta in LO. split; [lra|]. split.
  - intros EQ [z [W HZ]]. assert (G : forall a b, walk cells near image (image x - h) a b -> image x - h < g b -> image x - h < g a).
    { intros a b W'. induction W' as [a Ia La|a b c Ia La N W' IH]; intro B; [exact B|]. specialize (IH B). destruct (walk_end _ _ _ _ _ _ W') as [Ib _].
      pose proof (S2 b a Ib Ia (SY _ _ N)) as M. unfold Rmin in M. destruct (Rle_dec _ _); lra. }
    destruct (walk_end _ _ _ _ _ _ W) as [_ [Iz _]]. pose proof (S1 z Iz) as Lz. cbn beta in Lz. specialize (G x z W ltac:(lra)). lra.
  - intro NO. set (v := image x - h). set (g' := fun y => if ClassicalDedekindReals.sig_not_dec (walk cells near image v x y) then v else image y).
    assert (ST : (forall y, In y cells -> image y - h <= g' y) /\ forall a b, In a cells -> In b cells -> near a b -> Rmin (g' a) (image b) <= g' b).
    { split.
      - intros y Iy. unfold g'. destruct (ClassicalDedekindReals.sig_not_dec _) as [D|D]; [|lra]. destruct (Rlt_dec (image x) (image y)) as [L|L]; [|unfold v; lra].
        exfalso. apply D. intro W. apply NO. exists y. split; assumption.
      - intros a b Ia Ib N. unfold g' at 2. destruct (ClassicalDedekindReals.sig_not_dec _) as [D|D]; [|apply Rmin_r].
        unfold g'. destruct (ClassicalDedekindReals.sig_not_dec _) as [D2|D2]; [apply Rmin_l|]. apply (Rle_trans _ (image a)); [apply Rmin_l|].
        destruct (Rle_dec (image a) v) as [L|L]; [exact L|]. exfalso. apply D. intro W. apply D2. apply walk_snoc with b; auto. lra. }
    pose proof (LEAST g' ST x Hx) as M. unfold g' in M. destruct (ClassicalDedekindReals.sig_not_dec _) as [D|D]; [unfold v in M; lra|].
    destruct (Rlt_dec v (image x)) as [L|L]; [exfalso; apply D; constructor; assumption|]. unfold v in *. lra.
Qed.
Print Assumptions C100_h_transform.
(** At the highest cells the result is h. *)
Theorem C100_h_maximum : forall C (cells : list C) (near : C -> C -> Prop) reconstruction image h out x, (forall x y : C, near x y -> near y x) ->
  reconstructed cells near (fun x => image x - h) image (reconstruction (fun x => image x - h) image) ->
  h_transform cells reconstruction image h = Some out -> In x cells -> (forall y, In y cells -> image y <= image x) -> out x = h.
Proof.
  intros C cells near recon image h out x SY RC E Hx MX. assert (NE : cells <> []) by (intro Z; rewrite Z in Hx; exact Hx).
  destruct (C100_h_transform C cells near recon image h NE SY RC) as [_ H]. apply (H out E x Hx). intros [z [W L]]. destruct (walk_end _ _ _ _ _ _ W) as [_ [Iz _]]. specialize (MX z Iz). lra.
Qed.
Print Assumptions C100_h_maximum.

(** Concrete cases. *)
Example C100_h_sat : exists (cells : list nat) (near : nat -> nat -> Prop) recon image h out, cells <> [] /\ (forall x y : nat, near x y -> near y x) /\
  reconstructed cells near (fun x => image x - h) image (recon (fun x => image x - h) image) /\ h_transform cells recon image h = Some out /\ out 0%nat = 1 /\ out 1%nat = 1/2.
Proof.
  exists [0%nat; 1%nat], (fun _ _ => True), (fun _ _ x => match x with 0%nat => 4 | _ => 4 end), (fun x => match x with 0%nat => 5 | _ => 9/2 end), 1.
  eexists. split; [discriminate|]. split; [auto|]. split; [|split; [|split]].
  - split; [split|].
    + intros x [<-|[<-|[]]]; lra.
    + intros x y _ _ _. destruct x, y; unfold Rmin; destruct (Rle_dec _ _); lra.
    + intros g' [S1 S2] x Hx. assert (A := S1 0%nat (or_introl eq_refl)). cbn beta iota in A. destruct Hx as [<-|[<-|[]]]; cbn beta iota; [lra|].
      assert (B := S2 0%nat 1%nat (or_introl eq_refl) (or_intror (or_introl eq_refl)) I). cbn beta iota in B. unfold Rmin in B. destruct (Rle_dec _ _); lra.
  - unfold h_transform. cbn [existsb]. destruct (Rlt_dec _ _); [exfalso; lra|]. destruct (Rlt_dec _ _); [exfalso; lra|]. cbn [orb]. reflexivity.
  - cbn. lra.
  - cbn. lra.
Qed.
Example C100_point_sat : valid [3%nat; 3%nat] [1%nat; 1%nat] /\ selected false 1 (1/2) = true /\ Forall (fun v => length v = 2%nat /\ unit_vector v) [dir_2d 0; dir_2d 45].
Proof.
  split; [unfold valid; repeat constructor|]. split; [apply geb_iff; lra|]. repeat constructor; apply dir_2d_unit.
Qed.
Example C100_rebin_sat : exists rr, (forall r, In r rr -> 0 <= r) /\ exists a b, In a rr /\ In b rr /\ b - a > 11.
Proof. exists [0; 12]. split; [intros r [<-|[<-|[]]]; lra|]. exists 0, 12. repeat split; [left; reflexivity|right; left; reflexivity|lra]. Qed.
(** Other dimensions give 0. Without a region: fifty zeros if the threshold is at most 1, an exception above. *)
Theorem C100_averaged_other : forall shape data xth upper box draws draws0,
  (length shape <> 3%nat -> averaged_mfp shape data xth upper box draws draws0 = Zero) /\
  (length shape = 3%nat -> (exists i, valid shape i) -> (forall i, valid shape i -> selected upper (data i) xth = false) ->
     ((if upper then - xth else xth) <= 1 -> exists r, averaged_mfp shape data xth upper box draws draws0 = Value (r, repeat (Some 0) 50) /\ length r = 50%nat) /\
     (1 < (if upper then - xth else xth) -> averaged_mfp shape data xth upper box draws draws0 = Error)).
Proof.
  intros shape data xth upper box draws draws0. unfold averaged_mfp. cbv zeta. split.
  - intro H. apply Nat.eqb_neq in H. rewrite H. reflexivity.
  - intros -> [i0 V0] Hn. rewrite box_filter. rewrite (filter_none (fun i => selected upper (data i) xth)) by (intros i Hi; apply Hn, indices_valid, Hi). cbn [length Nat.eqb].
    assert (TH : (if upper then -1 * xth else xth) = (if upper then - xth else xth)) by (destruct upper; ring). rewrite TH. split; intro B.
    + assert (G : geb 1 (if upper then - xth else xth) = true) by (apply geb_iff; exact B). rewrite G.
      assert (IN : In i0 (filter (fun _ => true) (indices shape))) by (apply filter_In; split; [apply indices_valid; exact V0|reflexivity]).
      destruct (filter (fun _ => true) (indices shape)) as [|c l]; [contradiction|]. eexists. split; [reflexivity|]. rewrite map_length, seq_length. reflexivity.
    + assert (G : geb 1 (if upper then - xth else xth) = false) by (destruct (geb _ _) eqn:E; [apply geb_iff in E; lra|reflexivity]). rewrite G.
      rewrite filter_none by reflexivity. reflexivity.
Qed.
Print Assumptions C100_averaged_other.
Example C100_point_2d_sat : exists (n0 : nat) (n1 : nat) (data : list nat -> R) (p : point) (q : list nat) (xth : R) (upper : bool) (it : nat) (dirs : list (list R)), cell_of p = Some q /\ valid [n0; n1] q /\ selected upper (data q) xth = true /\ length dirs = it /\ (1 <= it)%nat /\ Forall (fun v => length v = 2%nat /\ unit_vector v) dirs.
Proof. exists 3%nat, 3%nat, (fun _ => 1), (PyInt [1; 1]%nat), [1; 1]%nat, (1/2), false, 2%nat, [dir_2d 0; dir_2d 45]. destruct C100_point_sat as (A & B & C). repeat split; try assumption. lia. Qed.
Example C100_point_rejected_sat : exists (shape : list nat) (data : list nat -> R) (xth : R) (upper : bool), (exists i, valid shape i /\ selected upper (data i) xth = true).
Proof. exists [3; 3]%nat, (fun _ => 1), (1/2), false. exists [1; 1]%nat. destruct C100_point_sat as (A & B & C). split; assumption. Qed.
Example C100_no_region_sat : exists (shape : list nat) (data : list nat -> R) (q : list nat) (xth : R) (upper : bool), ((length shape = 2 \/ length shape = 3)%nat) /\ valid shape q /\ (forall i, valid shape i -> selected upper (data i) xth = false).
Proof. exists [3; 3]%nat, (fun _ => 0), [1; 1]%nat, (1/2), false. split; [left; reflexivity|]. split; [exact (proj1 C100_point_sat)|]. intros i _. destruct (selected false 0 (1/2)) eqn:E; [|reflexivity]. apply geb_iff in E. lra. Qed.
