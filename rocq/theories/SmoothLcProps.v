(** C118: smoothed light cones. *)
From Coq Require Import List Permutation Arith ZArith QArith Qround Qreals Reals Lqa Lra Lia Bool.
From Verif Require Import PyBase QLib RLib FindIdxModel FindIdxSpec FindIdxProps FourierModel FourierSpec FourierProofs LosModel LosProps SmoothModel SmoothProps SmoothLcModel.
Import ListNotations.
Local Open Scope nat_scope.

(** * Specification *)
(** The sum of the cells of a slice. *)
Definition total (N : nat) (s : slice) : R := rsum (map (fun i => rsum (map (fun j => s i j) (seq 0 N))) (seq 0 N)).
(** Every cell of the slice lies between [a] and [b]. *)
Definition within (N : nat) (a b : R) (s : slice) : Prop := forall i j, i < N -> j < N -> (a <= s i j <= b)%R.

Lemma window_ascending : forall redshifts dz i, strictly_ascending redshifts -> 2 <= length redshifts -> i < length redshifts -> (0 <= nth i dz 0)%Q ->
  let low := (nth i redshifts 0 - nth i dz 0 / 2)%Q in let high := (nth i redshifts 0 + nth i dz 0 / 2)%Q in
  exists lo hi, lo <= i <= hi /\ hi < length redshifts /\
   (forall j, j < length redshifts -> (lo <= j <= hi <-> (low <= nth j redshifts 0)%Q /\ (j = 0 \/ (nth (j - 1) redshifts 0 < high)%Q))) /\
   window redshifts dz i = Some (lo, hi + 1).
Proof.
  intros redshifts dz i A L2 Hi D low high. set (z := nth i redshifts 0%Q) in *.
  assert (Lz : (low <= z <= high)%Q) by (unfold low, high; split; assert (0 <= nth i dz 0 / 2)%Q by (apply Qle_shift_div_l; [reflexivity|Lqa.lra]); Lqa.lra).
  destruct (find_one_spec redshifts low L2 (or_introl A)) as [r1 [c1 [E1 [K1 I1]]]]. destruct (find_one_spec redshifts high L2 (or_introl A)) as [r2 [c2 [E2 [K2 I2]]]].
  destruct (ceil_index _ _ _ A I1) as [lo [F1 [B1 [G1 S1]]]]. destruct (ceil_index _ _ _ A I2) as [hi [F2 [B2 [G2 S2]]]].
  assert (In1 : forall j, j < length redshifts -> In (nth j redshifts 0%Q) redshifts) by (intros; apply nth_In; assumption).
  assert (M : forall j k, j <= k < length redshifts -> (nth j redshifts 0 <= nth k redshifts 0)%Q) by (intros j k H; destruct (Nat.eq_dec j k) as [->|]; [Lqa.lra|pose proof (A j k ltac:(lia)); Lqa.lra]).
  assert (P1 : forall j, j < length redshifts -> (lo <= j <-> (low <= nth j redshifts 0)%Q)).
  { intros j Hj. destruct (clamped_cases _ _ _ _ K1 (In1 j Hj)) as [Q1 [Q2 [Q3 Q4]]]. split; intro H.
    - destruct (Qlt_le_dec (nth j redshifts 0%Q) low) as [X|X]; [|exact X]. destruct (Q3 X) as [Y|Y].
      + pose proof (M lo j ltac:(lia)). Lqa.lra.
      + pose proof (Y z (In1 i Hi)). Lqa.lra.
    - destruct (le_lt_dec lo j) as [X|X]; [exact X|]. pose proof (S1 j X). pose proof (Q1 H). Lqa.lra. }
  assert (P2 : forall j, j < length redshifts -> (j <= hi <-> j = 0 \/ (nth (j - 1) redshifts 0 < high)%Q)).
  { intros j Hj. destruct j as [|j]; [split; [auto|lia]|]. replace (S j - 1) with j by lia. destruct (clamped_cases _ _ _ _ K2 (In1 j ltac:(lia))) as [Q1 [Q2 [Q3 Q4]]]. split; intro H.
    - right. destruct (Qlt_le_dec (nth j redshifts 0%Q) high) as [X|X]; [exact X|]. pose proof (S2 j ltac:(lia)). pose proof (Q1 X). Lqa.lra.
    - destruct H as [H|H]; [lia|]. destruct (le_lt_dec (S j) hi) as [X|X]; [exact X|]. exfalso. pose proof (M hi j ltac:(lia)). destruct (Q3 H) as [Y|Y]; [Lqa.lra|].
      pose proof (Y _ (In1 (S j) Hj)). pose proof (A j (S j) ltac:(lia)). Lqa.lra. }
  exists lo, hi. split; [split|split; [exact B2|split]].
  - apply P1; [exact Hi|]. fold z. Lqa.lra.
  - apply P2; [exact Hi|]. destruct i as [|i]; [left; reflexivity|right]. replace (S i - 1) with i by lia. pose proof (A i (S i) ltac:(lia)). fold z in H. Lqa.lra.
  - intros j Hj. rewrite <- P1, <- P2 by exact Hj. reflexivity.
  - unfold window. fold z. fold low. fold high. rewrite E1, E2, F1, F2. rewrite Nat2Z.id. replace (Z.to_nat (Z.of_nat hi + 1)) with (hi + 1) by lia. reflexivity.
Qed.

Lemma slice_cells : forall {A} (l : list A) d a b, b <= length l -> py_slice l a b = map (fun k => nth k l d) (seq a (b - a)).
Proof.
  intros A l d a b H. unfold py_slice. apply nth_ext with (d := d) (d' := d).
  - rewrite firstn_length, skipn_length, map_length, seq_length. lia.
  - intros k Hk. rewrite firstn_length, skipn_length in Hk.
    assert (G : forall (l : list A) a m k, k < m -> nth k (firstn m (skipn a l)) d = nth (a + k) l d).
    { clear. intros l a m k. revert m k l. induction a as [|a IH]; intros m k l H.
      - rewrite skipn_O. revert m l H. induction k; intros [|m] [|x l] H; try lia; cbn; auto. apply IHk. lia.
      - destruct l as [|x l]; [rewrite skipn_nil, firstn_nil; destruct k; reflexivity|]. cbn [skipn Nat.add nth]. apply IH. exact H. }
    rewrite G by lia. set (f := fun k => nth k l d). rewrite (nth_indep (map f _) d (f 0)) by (rewrite map_length, seq_length; lia).
    rewrite map_nth, seq_nth by lia. reflexivity.
Qed.
Lemma map_flat : forall {A B C} (g : B -> C) (f : A -> list B) l, map g (flat_map f l) = flat_map (fun a => map g (f a)) l.
Proof. intros A B C g f. induction l as [|a l IH]; [reflexivity|]. cbn. rewrite map_app, IH. reflexivity. Qed.
Lemma total_indices : forall N (x : array), rsum (map x (indices [N; N])) = total N (fun i j => x [i; j]).
Proof.
  intros N x. unfold total. cbn [indices]. rewrite map_flat, rsum_flat_map. apply rsum_ext. intros i _. rewrite map_map, map_flat, rsum_flat_map. apply rsum_ext. intros j _. cbn. ring.
Qed.
Lemma total_div : forall N s c, total N (fun i j => s i j / c)%R = (total N s / c)%R.
Proof.
  intros N s c. unfold total, Rdiv. rewrite <- rsum_scale_r. apply rsum_ext. intros i _. rewrite <- rsum_scale_r. reflexivity.
Qed.
Lemma total_plus : forall N s t, total N (fun i j => s i j + t i j)%R = (total N s + total N t)%R.
Proof. intros N s t. unfold total. rewrite <- rsum_plus. apply rsum_ext. intros i _. rewrite <- rsum_plus. reflexivity. Qed.
Lemma total_sum : forall {A} N (f : A -> slice) l, total N (fun i j => rsum (map (fun k => f k i j) l)) = rsum (map (fun k => total N (f k)) l).
Proof.
  intros A N f. induction l as [|k l IH]; [cbn; unfold total; apply rsum_zero; intros; apply rsum_zero; reflexivity|].
  cbn [map]. unfold rsum at 2. cbn [fold_right]. fold (rsum (map (fun k => total N (f k)) l)). rewrite <- IH. apply (total_plus N (f k)).
Qed.
Lemma mean_within : forall (l : list R) a b, l <> [] -> (forall x, In x l -> (a <= x <= b)%R) -> (a <= rsum l / INR (length l) <= b)%R.
Proof.
  intros l a b Ne H. assert (P : (0 < INR (length l))%R) by (apply lt_0_INR; destruct l; [congruence|cbn; lia]).
  assert (G : (INR (length l) * a <= rsum l <= INR (length l) * b)%R).
  { clear P Ne. induction l as [|x l IH]; [cbn; lra|]. cbn [length]. rewrite S_INR. unfold rsum. cbn [fold_right]. fold (rsum l). pose proof (H x (or_introl eq_refl)). pose proof (IH (fun y I => H y (or_intror I))). lra. }
  unfold Rdiv. split; apply Rmult_le_reg_r with (INR (length l)); try exact P; rewrite Rmult_assoc, Rinv_l, Rmult_1_r; lra.
Qed.
Lemma valid2 : forall N i, valid [N; N] i -> exists a b, i = [a; b] /\ a < N /\ b < N.
Proof. intros N i V. inversion V as [|? a ? r Ha Vr]; subst. inversion Vr as [|? b ? r' Hb Vr']; subst. inversion Vr'; subst. exists a, b. auto. Qed.
(** The slices averaged for a band of redshifts: from the lower end of the band up to the first slice at or past its upper end. *)
Definition averaged (zs : list Q) (low high : Q) (l : list nat) : Prop := NoDup l /\ forall j, In j l <->
  j < length zs /\ (low <= nth j zs 0)%Q /\ forall k, k < length zs -> ~ ((high <= nth k zs 0)%Q /\ (nth k zs 0 < nth j zs 0)%Q).
(** The mean of some slices, cell by cell. *)
Definition mean_of (l : list slice) : slice := fun a b => (rsum (map (fun s => s a b) l) / INR (length l))%R.
Definition empty_slice : slice := fun _ _ => 0%R.

(** One slice through both steps. *)
Lemma both_steps : forall N part f, 0 < N -> part <> [] -> exists o,
  smooth_gauss N N (as_array (mean_of part)) 1 (Some f) = Some ([N; N], o) /\
  gauss_slice N (mean_slice part) f = Some (fun a b => o [a; b]) /\
  (forall a b, (forall s, In s part -> within N a b s) -> within N a b (fun a b => o [a; b])) /\
  total N (fun a b => o [a; b]) = (rsum (map (total N) part) / INR (length part))%R.
Proof.
  intros N part f HN Ne. set (m := mean_of part).
  assert (Em : mean_slice part = Some m) by (unfold mean_slice, m; destruct part; [congruence|reflexivity]). rewrite Em. cbn [gauss_slice].
  assert (Mw : forall a b, (forall s, In s part -> within N a b s) -> within N a b m).
  { intros a b W i j Hi Hj. unfold m, mean_of. replace (length part) with (length (map (fun s : slice => s i j) part)) by apply map_length. apply mean_within.
    - destruct part; [congruence|discriminate].
    - intros x I. apply in_map_iff in I. destruct I as (s & <- & I). apply W; assumption. }
  assert (Tm : total N m = (rsum (map (total N) part) / INR (length part))%R).
  { unfold m, mean_of. rewrite (total_div N (fun i j => rsum (map (fun s : slice => s i j) part))). rewrite (total_sum N (fun s : slice => s) part). reflexivity. }
  assert (B : exists a b, forall i, valid [N; N] i -> (a <= as_array m i <= b)%R).
  { exists (- rsum (map (fun i => Rabs (as_array m i)) (indices [N; N])))%R, (rsum (map (fun i => Rabs (as_array m i)) (indices [N; N]))). intros i V. apply indices_valid in V.
    assert (G : forall l, In i l -> (Rabs (as_array m i) <= rsum (map (fun i => Rabs (as_array m i)) l))%R).
    { induction l as [|x l IH]; [intros []|]; intros [Ex|H]; cbn [map]; unfold rsum; cbn [fold_right]; fold (rsum (map (fun i => Rabs (as_array m i)) l)).
      - subst x. assert (0 <= rsum (map (fun i => Rabs (as_array m i)) l))%R by (apply rsum_nonneg; intros y I; apply in_map_iff in I; destruct I as (z & <- & _); apply Rabs_pos). lra.
      - pose proof (IH H). pose proof (Rabs_pos (as_array m x)). lra. }
    pose proof (G _ V) as K. unfold Rabs at 1 in K. destruct (Rcase_abs (as_array m i)); lra. }
  destruct B as (a0 & b0 & B). destruct (C41_smooth_gauss N (as_array m) 1 (Some f) a0 b0 HN B) as (out & E & _ & T).
  rewrite E. exists out. split; [reflexivity|]. split; [reflexivity|]. split.
  - intros a b W i j Hi Hj. destruct (C41_smooth_gauss N (as_array m) 1 (Some f) a b HN) as (out' & E' & R' & _).
    + intros k V. destruct (valid2 N k V) as (p & q & -> & Hp & Hq). unfold as_array. cbn [nth]. apply Mw; assumption.
    + rewrite E in E'. injection E' as <-. apply R'. repeat constructor; assumption.
  - rewrite <- (total_indices N out), T, total_indices. unfold as_array. cbn [nth]. exact Tm.
Qed.
(** What is claimed of one output slice. *)
Definition smoothed_slice (N : nat) (lc : list slice) (zs : list Q) (z d fwhm : Q) (i : nat) (out : option slice) : Prop := exists l o,
  averaged zs (z - d / 2) (z + d / 2) l /\ In i l /\
  smooth_gauss N N (as_array (mean_of (map (fun k => nth k lc empty_slice) l))) 1 (Some (Q2R fwhm)) = Some ([N; N], o) /\
  out = Some (fun a b => o [a; b]) /\
  (forall a b, (forall k, In k l -> within N a b (nth k lc empty_slice)) -> within N a b (fun a b => o [a; b])) /\
  total N (fun a b => o [a; b]) = (rsum (map (fun k => total N (nth k lc empty_slice)) l) / INR (length l))%R.

Lemma all_some_map : forall {A B} (f : A -> option B) (g : A -> B) l, (forall x, In x l -> f x = Some (g x)) -> all_some (map f l) = Some (map g l).
Proof. intros A B f g. induction l as [|a l IH]; intro H; [reflexivity|]. cbn. rewrite (H a (or_introl eq_refl)), IH; [reflexivity|]. intros x I. apply H. right. exact I. Qed.
Lemma all_some_nth : forall {A} (l : list (option A)), (forall i, i < length l -> exists x, nth_error l i = Some (Some x)) -> exists o, all_some l = Some o /\ l = map Some o.
Proof.
  intros A. induction l as [|a l IH]; intro H; [exists []; split; reflexivity|]. destruct (H 0 ltac:(cbn; lia)) as [x Ex]. cbn in Ex. injection Ex as ->.
  destruct IH as (o & E & Em). { intros i Hi. apply (H (S i)). cbn. lia. } exists (x :: o). cbn. rewrite E. split; [reflexivity|]. rewrite Em at 1. reflexivity.
Qed.
Lemma nth_error_pair : forall {A B} i (l : list A) (m : list B) x y, nth_error l i = Some x -> nth_error m i = Some y -> nth_error (combine l m) i = Some (x, y).
Proof. intros A B. induction i as [|i IH]; intros [|a l] [|b m] x y H K; cbn in *; try discriminate; [congruence|apply IH; assumption]. Qed.

Lemma ascending_smoothed : forall cdist hubble c N box maxb ratio lc zs, 0 < N -> strictly_ascending zs -> 2 <= length zs -> length lc = length zs ->
  (forall z, In z zs -> (0 <= out_dz cdist hubble c maxb ratio z)%Q) ->
  exists out, smooth_ascending cdist hubble c N box maxb ratio lc zs = Some out /\ length out = length zs /\
  forall i, i < length zs -> exists r, nth_error out i = Some r /\
   smoothed_slice N lc zs (nth i zs 0%Q) (out_dz cdist hubble c maxb ratio (nth i zs 0%Q)) (ang_res cdist maxb (nth i zs 0%Q) * inject_Z (Z.of_nat N) / box)%Q i r.
Proof.
  intros cdist hubble c N box maxb ratio lc zs HN A L2 Ln D. set (dz := map (out_dz cdist hubble c maxb ratio) zs).
  assert (Dn : forall i, i < length zs -> nth i dz 0%Q = out_dz cdist hubble c maxb ratio (nth i zs 0%Q)).
  { intros i Hi. unfold dz. rewrite (nth_indep _ 0%Q (out_dz cdist hubble c maxb ratio 0%Q)) by (rewrite map_length; exact Hi). apply map_nth. }
  unfold smooth_ascending. fold dz. unfold lightcone_tophat. rewrite Ln.
  set (T := map (fun i => option_map (fun w => mean_slice (py_slice lc (fst w) (snd w))) (window zs dz i)) (seq 0 (length zs))).
  assert (W : forall i, i < length zs -> exists lo hi, lo <= i <= hi /\ hi < length zs /\ averaged zs (nth i zs 0%Q - nth i dz 0%Q / 2) (nth i zs 0%Q + nth i dz 0%Q / 2) (seq lo (hi + 1 - lo)) /\
     nth_error T i = Some (Some (mean_slice (map (fun k => nth k lc empty_slice) (seq lo (hi + 1 - lo)))))).
  { intros i Hi. destruct (window_ascending zs dz i A L2 Hi) as (lo & hi & B1 & B2 & C & E). { rewrite Dn by exact Hi. apply D. apply nth_In. exact Hi. }
    exists lo, hi. split; [exact B1|]. split; [exact B2|]. split.
    - split; [apply seq_NoDup|]. intro j. rewrite in_seq. split.
      + intro H. assert (Hj : j < length zs) by lia. destruct (proj1 (C j Hj) ltac:(lia)) as [P1 P2]. split; [exact Hj|]. split; [exact P1|]. intros k Hk [K1 K2].
        assert (k < j). { destruct (le_lt_dec j k) as [X|X]; [|exact X]. destruct (Nat.eq_dec j k) as [->|]; [Lqa.lra|pose proof (A j k ltac:(lia)); Lqa.lra]. }
        destruct P2 as [->|P2]; [lia|]. destruct (Nat.eq_dec k (j - 1)) as [->|]; [Lqa.lra|]. pose proof (A k (j - 1) ltac:(lia)). Lqa.lra.
      + intros (Hj & P1 & P2). assert (lo <= j <= hi); [|lia]. apply (C j Hj). split; [exact P1|]. destruct j as [|j]; [left; reflexivity|right]. replace (S j - 1) with j by lia.
        destruct (Qlt_le_dec (nth j zs 0%Q) (nth i zs 0%Q + nth i dz 0%Q / 2)) as [X|X]; [exact X|]. exfalso. apply (P2 j ltac:(lia)). split; [exact X|apply A; lia].
    - unfold T. rewrite (map_nth_error _ _ _ (d := i)).
      + rewrite E. cbn [option_map fst snd]. rewrite (slice_cells lc empty_slice) by lia. reflexivity.
      + rewrite nth_error_nth' with (d := 0) by (rewrite seq_length; exact Hi). rewrite seq_nth by exact Hi. reflexivity. }
  assert (LT : length T = length zs) by (unfold T; rewrite map_length, seq_length; reflexivity).
  destruct (all_some_nth T) as (t & Et & Em). { intros i Hi. rewrite LT in Hi. destruct (W i Hi) as (lo & hi & _ & _ & _ & E). eexists. exact E. }
  rewrite Et. assert (Lt : length t = length zs) by (rewrite <- LT, Em, map_length; reflexivity).
  unfold lightcone_gauss. rewrite map_length, Lt, Nat.eqb_refl. eexists. split; [reflexivity|]. split; [rewrite map_length, combine_length, map_length; lia|].
  intros i Hi. destruct (W i Hi) as (lo & hi & B1 & B2 & C & E). rewrite Em in E. set (l := seq lo (hi + 1 - lo)) in *.
  assert (E' : nth_error t i = Some (mean_slice (map (fun k => nth k lc empty_slice) l))).
  { rewrite nth_error_map in E. destruct (nth_error t i); cbn in E; congruence. }
  set (fw := map (fun z => Q2R (ang_res cdist maxb z * inject_Z (Z.of_nat N) / box)) zs).
  assert (F : nth_error (combine t fw) i = Some (mean_slice (map (fun k => nth k lc empty_slice) l), Q2R (ang_res cdist maxb (nth i zs 0%Q) * inject_Z (Z.of_nat N) / box))).
  { assert (Fi : nth_error fw i = Some (Q2R (ang_res cdist maxb (nth i zs 0%Q) * inject_Z (Z.of_nat N) / box))) by (unfold fw; rewrite (map_nth_error _ _ _ (nth_error_nth' zs 0%Q Hi)); reflexivity).
    apply nth_error_pair; assumption. }
  destruct (both_steps N (map (fun k => nth k lc empty_slice) l) (Q2R (ang_res cdist maxb (nth i zs 0%Q) * inject_Z (Z.of_nat N) / box)) HN) as (o & G1 & G2 & G3 & G4).
  { unfold l. replace (hi + 1 - lo) with (S (hi - lo)) by lia. discriminate. }
  eexists. split; [rewrite (map_nth_error _ _ _ F); cbn [fst snd]; reflexivity|]. exists l, o. rewrite <- (Dn i Hi). split; [exact C|]. split; [unfold l; apply in_seq; lia|]. split; [exact G1|]. split; [exact G2|]. split.
  - intros a b K. apply G3. intros s I. apply in_map_iff in I. destruct I as (k & <- & I). apply K. exact I.
  - rewrite G4, map_map, map_length. reflexivity.
Qed.

(** The mirrored index. *)
Lemma averaged_mirror : forall zs low high l, averaged (rev zs) low high l -> averaged zs low high (map (fun j => length zs - S j) l).
Proof.
  intros zs low high l [N C]. rewrite rev_length in C. assert (B : forall j, In j l -> j < length zs) by (intros j I; apply C in I; tauto).
  assert (V : forall j, j < length zs -> nth j (rev zs) 0%Q = nth (length zs - S j) zs 0%Q) by (intros; apply rev_nth; assumption). split.
  - clear C V. induction l as [|a l IH]; [constructor|]. inversion N; subst. cbn. constructor; [|apply IH; [assumption|intros; apply B; right; assumption]].
    intro I. apply in_map_iff in I. destruct I as (b & E & I). pose proof (B a (or_introl eq_refl)). pose proof (B b (or_intror I)). assert (a = b) by lia. congruence.
  - intro j. rewrite in_map_iff. split.
    + intros (k & <- & I). apply C in I. destruct I as (K1 & K2 & K3). rewrite V in K2 by exact K1. split; [lia|]. split; [exact K2|]. intros q Hq. specialize (K3 (length zs - S q) ltac:(lia)).
      rewrite !V in K3 by lia. replace (length zs - S (length zs - S q)) with q in K3 by lia. exact K3.
    + intros (K1 & K2 & K3). exists (length zs - S j). split; [lia|]. apply C. rewrite V by lia. replace (length zs - S (length zs - S j)) with j by lia. split; [lia|]. split; [exact K2|].
      intros q Hq. rewrite V by exact Hq. apply K3. lia.
Qed.
Lemma nth_error_rev : forall {A} (l : list A) i, i < length l -> nth_error (rev l) i = nth_error l (length l - S i).
Proof.
  intros A l i H. destruct l as [|d l']; [cbn in H; lia|]. set (l := d :: l') in *. rewrite (nth_error_nth' (rev l) d) by (rewrite rev_length; exact H). rewrite (nth_error_nth' l d) by lia. rewrite rev_nth by exact H. reflexivity.
Qed.
Lemma first_step : forall zs : list Q, 2 <= length zs -> exists a b r, zs = a :: b :: r.
Proof. intros [|a [|b r]] H; cbn in H; try lia. eauto. Qed.
Lemma unfold_array : forall cdist hubble cdist_to_z c LB N lc zs box maxb ratio, 2 <= length zs -> length lc = length zs ->
  smooth_lightcone cdist hubble cdist_to_z c LB N lc (Array zs) box maxb ratio =
  let box := if Qeq_bool box 0 then LB else box in
  if Qltb (nth 1 zs 0%Q - nth 0 zs 0%Q) 0 then option_map (fun o => (rev o, zs)) (smooth_ascending cdist hubble c N box maxb ratio (rev lc) (rev zs))
  else option_map (fun o => (o, zs)) (smooth_ascending cdist hubble c N box maxb ratio lc zs).
Proof.
  intros cdist hubble cdist_to_z c LB N lc zs box maxb ratio L2 Ln. destruct (first_step zs L2) as (z0 & z1 & r & ->). unfold smooth_lightcone, input_redshifts. rewrite Ln, Nat.eqb_refl. rewrite rev_involutive. reflexivity.
Qed.
Lemma step_ascending : forall zs, 2 <= length zs -> strictly_ascending zs -> Qltb (nth 1 zs 0%Q - nth 0 zs 0%Q) 0 = false.
Proof. intros zs L2 A. pose proof (A 0 1 ltac:(lia)) as K. unfold Qltb. apply Bool.negb_false_iff, Qle_bool_iff. Lqa.lra. Qed.
Lemma step_descending : forall zs, 2 <= length zs -> strictly_descending zs -> Qltb (nth 1 zs 0%Q - nth 0 zs 0%Q) 0 = true.
Proof. intros zs L2 A. pose proof (A 0 1 ltac:(lia)) as K. unfold Qltb. apply Bool.negb_true_iff. destruct (Qle_bool 0 (nth 1 zs 0%Q - nth 0 zs 0%Q)) eqn:X; [|reflexivity]. apply Qle_bool_iff in X. Lqa.lra. Qed.

(** * C118 *)
(** A light cone with its redshifts, rising or falling: the result has the same slices at the same redshifts. The width in redshift of slice [i] is
    the distance across one resolution element times [ratio], as a redshift interval. Each output slice is the mean of the slices in the band, smoothed
    with a Gaussian as wide as the resolution element. *)
Theorem C118_smooth_lightcone : forall cdist hubble cdist_to_z c LB N lc zs box maxb ratio,
  0 < N -> 2 <= length zs -> length lc = length zs -> strictly_ascending zs \/ strictly_descending zs ->
  (0 < c)%Q -> (0 < maxb)%Q -> (0 <= ratio)%Q -> (forall z, In z zs -> (0 <= z)%Q /\ (0 <= cdist z)%Q /\ (0 <= hubble z)%Q) ->
  exists out, smooth_lightcone cdist hubble cdist_to_z c LB N lc (Array zs) box maxb ratio = Some (out, zs) /\ length out = length lc /\
  forall i, i < length lc ->
   let z := nth i zs 0%Q in let res := ((1 + z) * (21 # 100000) / maxb * cdist z)%Q in let d := (ratio * res / c * hubble z)%Q in
   exists r, nth_error out i = Some r /\ smoothed_slice N lc zs z d (res * inject_Z (Z.of_nat N) / (if Qeq_bool box 0 then LB else box)) i r.
Proof.
  intros cdist hubble cdist_to_z c LB N lc zs box maxb ratio HN L2 Ln O Hc Hm Hr P.
  assert (D : forall z, In z zs -> (0 <= out_dz cdist hubble c maxb ratio z)%Q).
  { intros z I. destruct (P z I) as (P1 & P2 & P3). unfold out_dz, ang_res. assert (0 <= / maxb)%Q by (apply Qinv_le_0_compat; Lqa.lra). assert (0 <= / c)%Q by (apply Qinv_le_0_compat; Lqa.lra). unfold Qdiv.
    repeat (apply Qmult_le_0_compat; [|assumption || discriminate]). apply Qmult_le_0_compat; [exact Hr|]. repeat (apply Qmult_le_0_compat; [|assumption || discriminate]). Lqa.lra. }
  rewrite unfold_array by assumption. set (B := if Qeq_bool box 0 then LB else box). cbv zeta. destruct O as [A|A].
  - rewrite step_ascending by assumption.
    destruct (ascending_smoothed cdist hubble c N B maxb ratio lc zs HN A L2 Ln D) as (out & E & Lo & S1). exists out. rewrite E. cbn [option_map]. split; [reflexivity|]. split; [lia|].
    intros i Hi. rewrite Ln in Hi. exact (S1 i Hi).
  - rewrite step_descending by assumption.
    assert (A' : strictly_ascending (rev zs)). { intros i j K. rewrite rev_length in K. rewrite !rev_nth by lia. apply A. lia. }
    destruct (ascending_smoothed cdist hubble c N B maxb ratio (rev lc) (rev zs) HN A') as (out & E & Lo & S1); [rewrite rev_length; exact L2|rewrite !rev_length; exact Ln|intros z I; apply D, in_rev, I|].
    rewrite rev_length in Lo, S1. exists (rev out). rewrite E. cbn [option_map]. split; [reflexivity|]. split; [rewrite rev_length; lia|].
    intros i Hi. set (z := nth i zs 0%Q). destruct (S1 (length zs - S i) ltac:(lia)) as (s & E1 & l & o & K1 & K2 & K3 & K4 & K5 & K6).
    assert (V : nth (length zs - S i) (rev zs) 0%Q = z) by (rewrite rev_nth by lia; unfold z; f_equal; lia). rewrite V in *.
    exists s. split; [rewrite nth_error_rev by lia; rewrite Lo; exact E1|]. set (l' := map (fun j => length zs - S j) l).
    assert (Bl : forall j, In j l -> j < length zs) by (intros j I; apply K1 in I; rewrite rev_length in I; tauto).
    assert (M : forall {C} (g : slice -> C), map (fun k => g (nth k (rev lc) empty_slice)) l = map (fun k => g (nth k lc empty_slice)) l').
    { intros C g. unfold l'. rewrite map_map. apply map_ext_in. intros j I. pose proof (Bl j I). rewrite rev_nth by lia. rewrite Ln. reflexivity. }
    exists l', o. split; [apply averaged_mirror; exact K1|]. split; [apply in_map_iff; exists (length zs - S i); split; [lia|exact K2]|].
    rewrite (M slice (fun s => s)) in K3. split; [exact K3|]. split; [exact K4|]. split.
    + intros a b W. apply K5. intros k I. pose proof (Bl k I). rewrite rev_nth by lia. rewrite Ln. apply W. apply in_map_iff. exists k. split; [reflexivity|exact I].
    + rewrite K6, (M R (total N)). unfold l'. rewrite map_length. reflexivity.
Qed.
Print Assumptions C118_smooth_lightcone.
Example C118_smooth_lightcone_sat : exists (cdist hubble : Q -> Q) (lc : list slice) (zs : list Q), 2 <= length zs /\ length lc = length zs /\
  strictly_descending zs /\ (forall z, In z zs -> (0 <= z)%Q /\ (0 <= cdist z)%Q /\ (0 <= hubble z)%Q) /\ (forall k, k < length lc -> within 2 0 1 (nth k lc empty_slice)) /\ nth 1 lc empty_slice 0 0 <> nth 0 lc empty_slice 0 0.
Proof.
  exists (fun z => z), (fun z => (1 + z)%Q), [fun _ _ => 0%R; fun _ _ => 1%R; fun _ _ => 0%R], [9; 8; 7]%Q. split; [cbn; lia|]. split; [reflexivity|]. split.
  - intros i j H. cbn [length] in H. destruct i as [|[|[|i]]], j as [|[|[|j]]]; try lia; reflexivity.
  - split; [intros z [<-|[<-|[<-|[]]]]; repeat split; discriminate|]. split; [|cbn; lra]. intros k Hk i j _ _. cbn [length] in Hk. destruct k as [|[|[|k]]]; try lia; cbn; lra.
Qed.

(** Values between two bounds stay between them; in particular a constant light cone is not changed. *)
Theorem C118_range : forall cdist hubble cdist_to_z c LB N lc zs box maxb ratio a b,
  0 < N -> 2 <= length zs -> length lc = length zs -> strictly_ascending zs \/ strictly_descending zs ->
  (0 < c)%Q -> (0 < maxb)%Q -> (0 <= ratio)%Q -> (forall z, In z zs -> (0 <= z)%Q /\ (0 <= cdist z)%Q /\ (0 <= hubble z)%Q) ->
  (forall k, k < length lc -> within N a b (nth k lc empty_slice)) ->
  exists out, smooth_lightcone cdist hubble cdist_to_z c LB N lc (Array zs) box maxb ratio = Some (map Some out, zs) /\ length out = length lc /\ Forall (within N a b) out.
Proof.
  intros cdist hubble cdist_to_z c LB N lc zs box maxb ratio a b HN L2 Ln O Hc Hm Hr P W.
  destruct (C118_smooth_lightcone cdist hubble cdist_to_z c LB N lc zs box maxb ratio HN L2 Ln O Hc Hm Hr P) as (out & E & Lo & S1). rewrite E.
  assert (G : forall r, In r out -> exists s, r = Some s /\ within N a b s).
  { intros r I. apply In_nth_error in I. destruct I as (i & I). assert (Hi : i < length lc) by (rewrite <- Lo; apply nth_error_Some; congruence).
    destruct (S1 i Hi) as (r' & E' & l & o & K1 & _ & _ & K4 & K5 & _). rewrite I in E'. injection E' as <-. subst r. eexists. split; [reflexivity|]. apply K5. intros k J. apply W. apply K1 in J. rewrite Ln. tauto. }
  clear - G Lo. assert (H : exists o, out = map Some o /\ Forall (within N a b) o).
  { clear Lo. induction out as [|r out IH]; [exists []; split; [reflexivity|constructor]|]. destruct (G r (or_introl eq_refl)) as (s & -> & Ws). destruct IH as (o & -> & Wo); [intros; apply G; right; assumption|]. exists (s :: o). split; [reflexivity|constructor; assumption]. }
  destruct H as (o & -> & Wo). exists o. split; [reflexivity|]. split; [rewrite <- Lo, map_length; reflexivity|exact Wo].
Qed.
Print Assumptions C118_range.
(** [C118_smooth_lightcone_sat] meets these hypotheses too, with [a] 0 and [b] 1. *)

(** The order of the slices does not matter: with light cone and redshifts reversed, the result is the reversed result. *)
Theorem C118_orientation : forall cdist hubble cdist_to_z c LB N lc zs box maxb ratio,
  2 <= length zs -> length lc = length zs -> strictly_ascending zs \/ strictly_descending zs ->
  smooth_lightcone cdist hubble cdist_to_z c LB N (rev lc) (Array (rev zs)) box maxb ratio =
  option_map (fun r => (rev (fst r), rev (snd r))) (smooth_lightcone cdist hubble cdist_to_z c LB N lc (Array zs) box maxb ratio).
Proof.
  intros cdist hubble cdist_to_z c LB N lc zs box maxb ratio L2 Ln O. rewrite !unfold_array by (rewrite ?rev_length; assumption). cbv zeta.
  assert (R1 : strictly_ascending zs -> strictly_descending (rev zs)) by (intros A i j K; rewrite rev_length in K; rewrite !rev_nth by lia; apply A; lia).
  assert (R2 : strictly_descending zs -> strictly_ascending (rev zs)) by (intros A i j K; rewrite rev_length in K; rewrite !rev_nth by lia; apply A; lia).
  destruct O as [A|A].
  - rewrite (step_ascending zs), (step_descending (rev zs)) by (rewrite ?rev_length; auto). rewrite !rev_involutive. destruct (smooth_ascending _ _ _ _ _ _ _ lc zs); reflexivity.
  - rewrite (step_descending zs), (step_ascending (rev zs)) by (rewrite ?rev_length; auto). destruct (smooth_ascending _ _ _ _ _ _ _ (rev lc) (rev zs)); cbn; [rewrite rev_involutive; reflexivity|reflexivity].
Qed.
Print Assumptions C118_orientation.

(** "The lowest value of the redshift" may not be a number, as the documentation has it: that raises an error. In an array of one entry it stands for
    the redshifts one cell apart in comoving distance from there. *)
Theorem C118_lowest_redshift_refuted : forall cdist hubble cdist_to_z c LB N lc z box maxb ratio,
  smooth_lightcone cdist hubble cdist_to_z c LB N lc (Number z) box maxb ratio = None.
Proof. reflexivity. Qed.
Print Assumptions C118_lowest_redshift_refuted.
Theorem C118_lowest_redshift : forall cdist hubble cdist_to_z c LB N lc z box maxb ratio, 2 <= length lc ->
  smooth_lightcone cdist hubble cdist_to_z c LB N lc (Array [z]) box maxb ratio =
  smooth_lightcone cdist hubble cdist_to_z c LB N lc
   (Array (map (fun k => cdist_to_z (cdist z + inject_Z (Z.of_nat k) * ((if Qeq_bool box 0 then LB else box) / inject_Z (Z.of_nat N)))%Q) (seq 0 (length lc)))) box maxb ratio.
Proof.
  intros cdist hubble cdist_to_z c LB N lc z box maxb ratio H. unfold smooth_lightcone, input_redshifts. rewrite map_length, seq_length, Nat.eqb_refl.
  replace (Nat.eqb (length [z]) (length lc)) with false; [reflexivity|]. symmetry. apply Nat.eqb_neq. cbn. lia.
Qed.
Print Assumptions C118_lowest_redshift.
Theorem C118_raises : forall cdist hubble cdist_to_z c LB N lc zs box maxb ratio, length lc <= 1 \/ (length zs <> length lc /\ length zs <> 1) ->
  smooth_lightcone cdist hubble cdist_to_z c LB N lc (Array zs) box maxb ratio = None.
Proof.
  intros cdist hubble cdist_to_z c LB N lc zs box maxb ratio H. unfold smooth_lightcone, input_redshifts. destruct (Nat.eqb_spec (length zs) (length lc)) as [E|E].
  - destruct H as [H|[H _]]; [|contradiction]. destruct zs as [|a [|b r]]; [reflexivity|reflexivity|cbn in E; lia].
  - destruct H as [H|[_ H]].
    + destruct zs as [|a [|b r]]; [reflexivity| |reflexivity]. destruct lc as [|x [|y lc]]; [reflexivity|reflexivity|cbn in H; lia].
    + destruct zs as [|a [|b r]]; [reflexivity|cbn in H; lia|reflexivity].
Qed.
Print Assumptions C118_raises.
Example C118_raises_sat : exists (lc : list slice) (zs : list Q), 2 <= length lc /\ length zs <> length lc /\ length zs <> 1.
Proof. exists [empty_slice; empty_slice], [7; 8; 9]%Q. repeat split; cbn; lia. Qed.

(** Even where the band of a slice contains no other slice, smoothing mixes the slice with the next one up in redshift, in equal parts; only the last
    slice is left alone. *)
Theorem C118_narrow_band_refuted : forall cdist hubble cdist_to_z c LB N lc zs box maxb ratio i,
  0 < N -> 2 <= length zs -> length lc = length zs -> strictly_ascending zs ->
  (0 < c)%Q -> (0 < maxb)%Q -> (0 <= ratio)%Q -> (forall z, In z zs -> (0 <= z)%Q /\ (0 <= cdist z)%Q /\ (0 <= hubble z)%Q) ->
  i < length lc ->
  let z := nth i zs 0%Q in let res := ((1 + z) * (21 # 100000) / maxb * cdist z)%Q in let d := (ratio * res / c * hubble z)%Q in
  (0 < d)%Q -> (forall k, k < length zs -> k <> i -> (nth k zs 0 < z - d / 2)%Q \/ (z + d / 2 < nth k zs 0)%Q) ->
  exists out s, smooth_lightcone cdist hubble cdist_to_z c LB N lc (Array zs) box maxb ratio = Some (out, zs) /\ nth_error out i = Some (Some s) /\
  total N s = if Nat.ltb (S i) (length lc) then ((total N (nth i lc empty_slice) + total N (nth (S i) lc empty_slice)) / 2)%R else total N (nth i lc empty_slice).
Proof.
  intros cdist hubble cdist_to_z c LB N lc zs box maxb ratio i HN L2 Ln A Hc Hm Hr P Hi z res d Hd G.
  destruct (C118_smooth_lightcone cdist hubble cdist_to_z c LB N lc zs box maxb ratio HN L2 Ln (or_introl A) Hc Hm Hr P) as (out & E & _ & S1).
  destruct (S1 i Hi) as (r & Er & l & o & [Nd M] & Il & _ & -> & _ & T). fold z in M, T. fold res in M. fold d in M.
  exists out, (fun a b => o [a; b]). split; [exact E|]. split; [exact Er|]. rewrite T.
  assert (D2 : (0 < d / 2)%Q) by (apply Qlt_shift_div_l; [reflexivity|Lqa.lra]).
  assert (Ch : forall j, In j l <-> j = i \/ (j = S i /\ S i < length zs)).
  { intro j. rewrite M. split.
    - intros (Hj & K1 & K2). destruct (lt_eq_lt_dec j i) as [[X|X]|X]; [|left; exact X|].
      + exfalso. pose proof (A j i ltac:(lia)) as Y. fold z in Y. destruct (G j Hj ltac:(lia)); Lqa.lra.
      + right. destruct (Nat.eq_dec j (S i)) as [->|X']; [split; [reflexivity|exact Hj]|]. exfalso. apply (K2 (S i) ltac:(lia)).
        pose proof (A i (S i) ltac:(lia)) as Y. fold z in Y. destruct (G (S i) ltac:(lia) ltac:(lia)) as [W|W]; [Lqa.lra|]. split; [Lqa.lra|apply A; lia].
    - intros [->|[-> Hs]].
      + split; [lia|]. fold z. split; [Lqa.lra|]. intros k Hk [W1 W2]. Lqa.lra.
      + split; [exact Hs|]. pose proof (A i (S i) ltac:(lia)) as Y. fold z in Y. split; [Lqa.lra|]. intros k Hk [W1 W2].
        destruct (lt_eq_lt_dec k i) as [[X|X]|X]; [pose proof (A k i ltac:(lia)) as U; fold z in U; Lqa.lra|subst k; fold z in W1; Lqa.lra|].
        destruct (Nat.eq_dec k (S i)) as [->|X']; [Lqa.lra|]. pose proof (A (S i) k ltac:(lia)). Lqa.lra. }
  destruct (Nat.ltb_spec (S i) (length lc)) as [H|H].
  - assert (Pm : Permutation l [i; S i]). { apply NoDup_Permutation; [exact Nd|repeat constructor; cbn; lia|]. intro j. rewrite Ch. cbn. rewrite <- Ln. intuition lia. }
    rewrite (rsum_perm _ _ (Permutation_map (fun k => total N (nth k lc empty_slice)) Pm)), (Permutation_length Pm). cbn. field.
  - assert (Pm : Permutation l [i]). { apply NoDup_Permutation; [exact Nd|repeat constructor; cbn; lia|]. intro j. rewrite Ch. cbn. rewrite <- Ln. intuition lia. }
    rewrite (rsum_perm _ _ (Permutation_map (fun k => total N (nth k lc empty_slice)) Pm)), (Permutation_length Pm). cbn. field.
Qed.
Print Assumptions C118_narrow_band_refuted.
Example C118_narrow_band_sat : let zs := [7; 8; 9]%Q in let z := nth 0 zs 0%Q in let res := ((1 + z) * (21 # 100000) / 2 * z)%Q in let d := (1 * res / 1 * (1 + z))%Q in
  strictly_ascending zs /\ (0 < d)%Q /\ forall k, k < 3 -> k <> 0 -> (nth k zs 0 < z - d / 2)%Q \/ (z + d / 2 < nth k zs 0)%Q.
Proof.
  split; [|split; [reflexivity|]].
  - intros i j H. cbn [length] in H. destruct i as [|[|[|i]]], j as [|[|[|j]]]; try lia; reflexivity.
  - intros k H K. right. destruct k as [|[|[|k]]]; try lia; reflexivity.
Qed.
