(** C32: size distributions. *)
From Coq Require Import List Arith ZArith Reals Bool Lia Lra.
From Verif Require Import RLib SizeDistModel SizeDistSpec.
Import ListNotations.
Local Open Scope R_scope.

Lemma rmin_le : forall l x y, In y (x :: l) -> rmin x l <= y.
Proof.
  unfold rmin. induction l as [|z l IH]; intros x y H; simpl.
  - destruct H as [<-|[]]. lra.
  - destruct H as [<-|[<-|H]].
    + apply Rle_trans with (fold_right Rmin x l); [apply Rmin_r|apply IH; left; auto].
    + apply Rmin_l.
    + apply Rle_trans with (fold_right Rmin x l); [apply Rmin_r|apply IH; right; auto].
Qed.
Lemma rmax_ge : forall l x y, In y (x :: l) -> y <= rmax x l.
Proof.
  unfold rmax. induction l as [|z l IH]; intros x y H; simpl.
  - destruct H as [<-|[]]. lra.
  - destruct H as [<-|[<-|H]].
    + apply Rle_trans with (fold_right Rmax x l); [apply IH; left; auto|apply Rmax_r].
    + apply Rmax_l.
    + apply Rle_trans with (fold_right Rmax x l); [apply IH; right; auto|apply Rmax_r].
Qed.
Lemma rmin_in : forall l x, In (rmin x l) (x :: l).
Proof.
  unfold rmin. induction l as [|z l IH]; intro x; [left; reflexivity|]. cbn [fold_right].
  specialize (IH x). set (m := fold_right Rmin x l) in *.
  assert (D : Rmin z m = z \/ Rmin z m = m) by (unfold Rmin; destruct (Rle_dec z m); auto).
  destruct D as [-> | ->]; [right; left; reflexivity|]. destruct IH as [E|E]; [left; exact E|right; right; exact E].
Qed.
Lemma rmax_in : forall l x, In (rmax x l) (x :: l).
Proof.
  unfold rmax. induction l as [|z l IH]; intro x; [left; reflexivity|]. cbn [fold_right].
  specialize (IH x). set (m := fold_right Rmax x l) in *.
  assert (D : Rmax z m = z \/ Rmax z m = m) by (unfold Rmax; destruct (Rle_dec z m); auto).
  destruct D as [-> | ->]; [right; left; reflexivity|]. destruct IH as [E|E]; [left; exact E|right; right; exact E].
Qed.
Lemma rmin_le_rmax : forall l x, rmin x l <= rmax x l.
Proof. intros. apply Rle_trans with x; [apply rmin_le|apply rmax_ge]; left; auto. Qed.

Lemma outer_spec : forall x l, fst (outer_edges x l) < snd (outer_edges x l) /\
  forall y, In y (x :: l) -> fst (outer_edges x l) <= y <= snd (outer_edges x l).
Proof.
  intros x l. unfold outer_edges. pose proof (rmin_le_rmax l x). destruct (Req_EM_T (rmin x l) (rmax x l)); simpl.
  - split; [lra|]. intros y Hy. pose proof (rmin_le l x y Hy). pose proof (rmax_ge l x y Hy). lra.
  - split; [lra|]. intros y Hy. split; [apply rmin_le|apply rmax_ge]; exact Hy.
Qed.
Lemma edge_nth : forall n lo hi i, (i <= n)%nat -> nth i (linspace_edges n lo hi) 0 = lo + INR i * ((hi - lo) / INR n).
Proof.
  intros n lo hi i H. unfold linspace_edges. set (F := fun i => lo + INR i * ((hi - lo) / INR n)).
  rewrite (nth_indep _ 0 (F 0%nat)) by (rewrite map_length, seq_length; lia).
  rewrite (map_nth F), seq_nth by lia. reflexivity.
Qed.
Lemma in_bin_iff : forall n edges i x, in_bin n edges i x = true <->
  nth i edges 0 <= x /\ (if Nat.eqb (S i) n then x <= nth (S i) edges 0 else x < nth (S i) edges 0).
Proof.
  intros n edges i x. unfold in_bin. rewrite andb_true_iff.
  destruct (Rle_dec (nth i edges 0) x); destruct (Nat.eqb (S i) n);
    [destruct (Rle_dec x (nth (S i) edges 0))|destruct (Rlt_dec x (nth (S i) edges 0))|
     destruct (Rle_dec x (nth (S i) edges 0))|destruct (Rlt_dec x (nth (S i) edges 0))]; intuition discriminate.
Qed.
Lemma one_bin : forall n lo hi x, (1 <= n)%nat -> lo < hi -> lo <= x <= hi ->
  length (filter (fun i => in_bin n (linspace_edges n lo hi) i x) (seq 0 n)) = 1%nat.
Proof.
  intros n lo hi x Hn Hlh Hx. set (E := fun i => lo + INR i * ((hi - lo) / INR n)).
  assert (NP : 0 < INR n) by (apply lt_0_INR; lia).
  assert (D : 0 < (hi - lo) / INR n) by (apply Rdiv_lt_0_compat; lra).
  assert (EM : forall i j, (i < j)%nat -> E i < E j).
  { intros i j H. unfold E. apply lt_INR in H. nra. }
  assert (E0 : E 0%nat = lo) by (unfold E; simpl; ring).
  assert (En : E n = hi) by (unfold E; field; lra).
  (* the bin *)
  assert (EX : forall m, (m <= n)%nat -> (1 <= m)%nat -> x < E m \/ (m = n) ->
     exists i, (i < m)%nat /\ E i <= x /\ (x < E (S i) \/ S i = n)).
  { induction m as [|m IH]; intros H1 H2 H3; [lia|]. destruct m as [|m].
    - exists 0%nat. split; [lia|]. rewrite E0. split; [lra|]. destruct H3; [left; assumption|right; lia].
    - destruct (Rlt_dec x (E (S m))) as [L|L].
      + destruct (IH ltac:(lia) ltac:(lia) (or_introl L)) as [i [Hi Hr]]. exists i. split; [lia|exact Hr].
      + exists (S m). split; [lia|]. split; [lra|]. destruct H3; [left; assumption|right; lia]. }
  destruct (EX n ltac:(lia) Hn (or_intror eq_refl)) as [i [Hi [I1 I2]]].
  assert (CH : forall j, (j < n)%nat -> in_bin n (linspace_edges n lo hi) j x = Nat.eqb j i).
  { intros j Hj. apply eq_true_iff_eq. rewrite in_bin_iff, Nat.eqb_eq, !edge_nth by lia. fold (E j) (E (S j)).
    split.
    - intros [A B]. destruct (Nat.lt_trichotomy j i) as [C|[C|C]]; [|exact C|].
      + assert (B' : x < E (S j) \/ (S j = n)%nat).
        { destruct (Nat.eqb_spec (S j) n); [right; assumption|left; exact B]. }
        destruct B' as [B'|B']; [|lia]. destruct (Nat.eq_dec (S j) i) as [Q|Q]; [subst i; lra|].
        pose proof (EM (S j) i ltac:(lia)). lra.
      + destruct I2 as [I2|I2]; [|lia]. destruct (Nat.eq_dec (S i) j) as [Q|Q]; [subst j; lra|].
        pose proof (EM (S i) j ltac:(lia)). lra.
    - intros ->. split; [exact I1|]. destruct (Nat.eqb_spec (S i) n) as [Q|Q].
      + rewrite Q, En. lra.
      + destruct I2 as [I2|I2]; [exact I2|contradiction]. }
  rewrite (filter_ext_in _ (fun j => Nat.eqb j i)) by (intros j Hj; apply in_seq in Hj; apply CH; lia).
  assert (G : forall l, NoDup l -> In i l -> length (filter (fun j => Nat.eqb j i) l) = 1%nat).
  { induction 1 as [|a l Ha N IH]; intro Hin; [contradiction|]. simpl. destruct (Nat.eqb_spec a i) as [->|NE].
    - simpl. f_equal. assert (Z : forall l', ~ In i l' -> filter (fun j => Nat.eqb j i) l' = []).
      { induction l' as [|b l' IH']; intro H; [reflexivity|]. simpl. destruct (Nat.eqb_spec b i).
        - exfalso. apply H. left. assumption.
        - apply IH'. intro C. apply H. right. exact C. }
      rewrite Z by exact Ha. reflexivity.
    - apply IH. destruct Hin; [contradiction|assumption]. }
  apply G; [apply seq_NoDup|apply in_seq; lia].
Qed.
Lemma list_sum_plus : forall (f g : nat -> nat) l, list_sum (map (fun i => (f i + g i)%nat) l) = (list_sum (map f l) + list_sum (map g l))%nat.
Proof. induction l as [|a l IH]; [reflexivity|]. unfold list_sum in *. simpl. rewrite IH. lia. Qed.
Lemma sum_counts : forall (P : nat -> R -> bool) xs is,
  (forall x, In x xs -> length (filter (fun i => P i x) is) = 1%nat) ->
  list_sum (map (fun i => length (filter (P i) xs)) is) = length xs.
Proof.
  induction xs as [|x xs IH]; intros is H.
  - induction is; simpl; auto. apply IHis. intros x [].
  - rewrite (map_ext _ (fun i => ((if P i x then 1 else 0) + length (filter (P i) xs))%nat)).
    + rewrite list_sum_plus, IH by (intros; apply H; right; auto).
      specialize (H x (or_introl eq_refl)). simpl length. replace (S (length xs)) with (1 + length xs)%nat by lia.
      f_equal. etransitivity; [|exact H]. clear. induction is as [|i is IH]; [reflexivity|]. unfold list_sum in *. simpl.
      destruct (P i x); simpl; rewrite IH; reflexivity.
    + intro i. simpl. destruct (P i x); reflexivity.
Qed.
Lemma histogram_total : forall n x l, (1 <= n)%nat -> list_sum (fst (histogram n x l)) = length (x :: l).
Proof.
  intros n x l Hn. unfold histogram. cbn [fst]. destruct (outer_spec x l) as [O1 O2].
  apply sum_counts. intros y Hy. apply one_bin; auto.
Qed.

(** * Affine maps do not change the histogram *)
Lemma rmin_affine : forall a b l x, 0 < a -> rmin (a * x + b) (map (fun y => a * y + b) l) = a * rmin x l + b.
Proof.
  intros a b l x Ha. unfold rmin. induction l as [|z l IH]; simpl; [reflexivity|]. rewrite IH.
  unfold Rmin. destruct (Rle_dec _ _), (Rle_dec _ _); try reflexivity; exfalso; nra.
Qed.
Lemma rmax_affine : forall a b l x, 0 < a -> rmax (a * x + b) (map (fun y => a * y + b) l) = a * rmax x l + b.
Proof.
  intros a b l x Ha. unfold rmax. induction l as [|z l IH]; simpl; [reflexivity|]. rewrite IH.
  unfold Rmax. destruct (Rle_dec _ _), (Rle_dec _ _); try reflexivity; exfalso; nra.
Qed.
Lemma histogram_affine : forall n a b x l, (1 <= n)%nat -> 0 < a ->
  fst (histogram n (a * x + b) (map (fun y => a * y + b) l)) = fst (histogram n x l) /\
  (rmin x l <> rmax x l ->
   snd (histogram n (a * x + b) (map (fun y => a * y + b) l)) = map (fun e => a * e + b) (snd (histogram n x l))).
Proof.
  intros n a b x l Hn Ha. unfold histogram. cbn [fst snd].
  assert (OE : rmin x l <> rmax x l ->
     outer_edges (a * x + b) (map (fun y => a * y + b) l) = (a * rmin x l + b, a * rmax x l + b) /\
     outer_edges x l = (rmin x l, rmax x l)).
  { intro N. unfold outer_edges. rewrite rmin_affine, rmax_affine by exact Ha.
    destruct (Req_EM_T (a * rmin x l + b) (a * rmax x l + b)); [exfalso; apply N; nra|].
    destruct (Req_EM_T (rmin x l) (rmax x l)); [contradiction|]. auto. }
  assert (NP : 0 < INR n) by (apply lt_0_INR; lia).
  assert (CNT : forall (P Q : nat -> R -> bool), (forall i y, In y (x :: l) -> (i < n)%nat -> P i (a * y + b) = Q i y) ->
    map (fun i => length (filter (P i) (a * x + b :: map (fun y => a * y + b) l))) (seq 0 n) =
    map (fun i => length (filter (Q i) (x :: l))) (seq 0 n)).
  { intros P Q H. apply map_ext_in. intros i Hi. apply in_seq in Hi.
    change (a * x + b :: map (fun y => a * y + b) l) with (map (fun y => a * y + b) (x :: l)).
    assert (G : forall u, (forall y, In y u -> In y (x :: l)) -> length (filter (P i) (map (fun y => a * y + b) u)) = length (filter (Q i) u)).
    { induction u as [|y u IH]; intro Hu; [reflexivity|]. cbn [map filter].
      rewrite H by (try (apply Hu; left; reflexivity); lia).
      destruct (Q i y); cbn [length]; rewrite IH by (intros; apply Hu; right; auto); reflexivity. }
    apply G. auto. }
  destruct (Req_EM_T (rmin x l) (rmax x l)) as [EQ|NE].
  - split; [|intro N; contradiction]. apply CNT. intros i y Hy Hi.
    assert (Ey : y = rmin x l) by (pose proof (rmin_le l x y Hy); pose proof (rmax_ge l x y Hy); lra).
    unfold outer_edges. rewrite rmin_affine, rmax_affine by exact Ha.
    destruct (Req_EM_T (a * rmin x l + b) (a * rmax x l + b)) as [_|C]; [|exfalso; apply C; rewrite EQ; reflexivity].
    destruct (Req_EM_T (rmin x l) (rmax x l)) as [_|C]; [|contradiction]. cbn [fst snd].
    apply eq_true_iff_eq. rewrite !in_bin_iff, !edge_nth by lia. rewrite <- EQ, Ey.
    set (m := rmin x l).
    replace (a * m + b + 1 / 2 - (a * m + b - 1 / 2)) with 1 by field. replace (m + 1 / 2 - (m - 1 / 2)) with 1 by field.
    set (u := INR i * (1 / INR n)). set (w := INR (S i) * (1 / INR n)).
    split; intros [A B]; (split; [lra|]); destruct (Nat.eqb (S i) n); lra.
  - destruct (OE NE) as [O1 O2]. rewrite O1, O2. cbn [fst snd].
    assert (EDG : forall i, a * rmin x l + b + INR i * ((a * rmax x l + b - (a * rmin x l + b)) / INR n)
                    = a * (rmin x l + INR i * ((rmax x l - rmin x l) / INR n)) + b) by (intro; field; lra).
    split.
    + apply CNT. intros i y Hy Hi. apply eq_true_iff_eq. rewrite !in_bin_iff, !edge_nth by lia. rewrite !EDG.
      set (u := rmin x l + INR i * _). set (w := rmin x l + INR (S i) * _).
      split; intros [A B]; (split; [nra|]); destruct (Nat.eqb (S i) n); nra.
    + intros _. unfold linspace_edges. rewrite map_map. apply map_ext. intro i. apply EDG.
Qed.

(** * Logarithms *)
Lemma ln10_pos : 0 < ln 10.
Proof. rewrite <- ln_1. apply ln_increasing; lra. Qed.
Lemma log_radius : forall v, 0 < v -> log10 (radius_of v) = 1 / 3 * log10 v + 1 / 3 * log10 (3 / 4 / PI).
Proof.
  intros v Hv. unfold log10, radius_of, Rpower. rewrite ln_exp.
  pose proof PI_RGT_0. pose proof ln10_pos.
  replace (v * 3 / 4 / PI) with (v * (3 / 4 / PI)) by (field; lra).
  rewrite ln_mult; [field; lra|exact Hv|]. apply Rdiv_lt_0_compat; lra.
Qed.
Lemma pow10_pos : forall e, 0 < pow10 e.
Proof. intro e. unfold pow10, Rpower. apply exp_pos. Qed.
Lemma pow10_log10 : forall u, 0 < u -> pow10 (log10 u) = u.
Proof.
  intros u H. unfold pow10, log10, Rpower. pose proof ln10_pos. replace (ln u / ln 10 * ln 10) with (ln u) by (field; lra).
  apply exp_ln. exact H.
Qed.
Lemma pow10_lt : forall a b, a < b <-> pow10 a < pow10 b.
Proof.
  intros a b. unfold pow10, Rpower. pose proof ln10_pos. split; intro H0.
  - apply exp_increasing. apply Rmult_lt_compat_r; assumption.
  - apply exp_lt_inv in H0. apply Rmult_lt_reg_r in H0; assumption.
Qed.
Lemma pow10_le : forall a b, a <= b <-> pow10 a <= pow10 b.
Proof.
  intros a b. split; intro H.
  - apply Rnot_lt_le. intro C. apply pow10_lt in C. lra.
  - apply Rnot_lt_le. intro C. apply pow10_lt in C. lra.
Qed.

(** Populations in log space are populations of the physical volumes. *)
Lemma population_log : forall n edges i l s, (S i < length edges)%nat -> 0 < s -> (forall u, In u l -> 0 < u) ->
  length (filter (in_bin n edges i) (map log10 l)) =
  population (map (fun e => pow10 e * s) edges) n i (map (fun u => u * s) l).
Proof.
  intros n edges i l s Hi Hs H. unfold population, count_in.
  rewrite !(nth_indep (map _ edges) 0 (pow10 0 * s)) by (rewrite map_length; lia).
  rewrite !(map_nth (fun e => pow10 e * s)).
  induction l as [|u l IH]; [reflexivity|]. cbn [map filter].
  assert (Hu : 0 < u) by (apply H; left; auto).
  assert (E : in_bin n edges i (log10 u) =
    (if Rle_dec (pow10 (nth i edges 0) * s) (u * s) then
       if Nat.eqb (S i) n then (if Rle_dec (u * s) (pow10 (nth (S i) edges 0) * s) then true else false)
       else (if Rlt_dec (u * s) (pow10 (nth (S i) edges 0) * s) then true else false)
     else false)).
  { apply eq_true_iff_eq. rewrite in_bin_iff.
    assert (A : nth i edges 0 <= log10 u <-> pow10 (nth i edges 0) * s <= u * s).
    { rewrite pow10_le. rewrite pow10_log10 by exact Hu. split; intro; nra. }
    assert (B : log10 u <= nth (S i) edges 0 <-> u * s <= pow10 (nth (S i) edges 0) * s).
    { rewrite pow10_le. rewrite pow10_log10 by exact Hu. split; intro; nra. }
    assert (C : log10 u < nth (S i) edges 0 <-> u * s < pow10 (nth (S i) edges 0) * s).
    { rewrite pow10_lt. rewrite pow10_log10 by exact Hu. split; intro; nra. }
    rewrite A. destruct (Nat.eqb (S i) n); [rewrite B|rewrite C];
      (destruct (Rle_dec (pow10 (nth i edges 0) * s) (u * s)) as [D|D]; [|split; [intros [D' _]; contradiction|discriminate]]).
    - destruct (Rle_dec (u * s) (pow10 (nth (S i) edges 0) * s)) as [F|F]; split; auto; [intros [_ F']; contradiction|discriminate].
    - destruct (Rlt_dec (u * s) (pow10 (nth (S i) edges 0) * s)) as [F|F]; split; auto; [intros [_ F']; contradiction|discriminate]. }
  rewrite E. specialize (IH (fun w Hw => H w (or_intror Hw))).
  match goal with |- context [if ?c then log10 u :: _ else _] => destruct c end; cbn [length]; rewrite IH; reflexivity.
Qed.

Lemma nonzero_pos_min : forall null d dm, dummy null d = dm ->
  match null with Some f => dm = f | None => forall x, In x d -> x <> 0 -> dm <= x / 1000 end.
Proof.
  intros [f|] d dm E; [symmetry; exact E|]. intros x Hx N. unfold dummy in E.
  assert (I : In x (nonzero d)) by (apply filter_In; split; [exact Hx|destruct (Req_EM_T x 0); [contradiction|reflexivity]]).
  destruct (nonzero d) as [|y r] eqn:F; [contradiction|]. subst dm. pose proof (rmin_le r y x I). lra.
Qed.

(** The returned arrays have one more entry than there are bins. With c_i the number of
    volumes in the i-th bin [V_i, V_{i+1}) (the last one closed) and N the number of
    volumes: the c_i add up to N; the volume curve holds c_i/N at the lower edge V_i,
    with empty bins and the last edge replaced by a null value; the radius curve holds
    the same c_i/N at the UPPER edge R_{i+1}, empty bins staying 0, and the null value at
    R_0. *)
Theorem C32_dist_from_volumes : forall v vs res n null V PV Rr PR,
  (forall u, In u (v :: vs) -> 0 < u) -> 0 < res -> (1 <= n)%nat ->
  dist_from_volumes v vs res n null = (V, PV, Rr, PR) ->
  let N := INR (length (v :: vs)) in
  let c := fun i => population V n i (map (fun u => u * res ^ 3) (v :: vs)) in
  length V = S n /\ length PV = S n /\ length Rr = S n /\ length PR = S n /\
  list_sum (map c (seq 0 n)) = length (v :: vs) /\
  exists null_value,
    (match null with Some f => null_value = f | None => 0 < null_value /\ forall i, (i < n)%nat -> c i <> 0%nat -> null_value <= INR (c i) / N / 1000 end) /\
    (forall i, (i < n)%nat ->
       nth i PV 0 = (if Nat.eqb (c i) 0 then null_value else INR (c i) / N) /\
       nth (S i) PR 0 = INR (c i) / N) /\
    nth n PV 0 = null_value /\ nth 0 PR 0 = null_value.
Proof.
  intros v vs res n null V PV Rr PR Hp Hr Hn E. cbv zeta.
  unfold dist_from_volumes in E.
  set (hv := histogram n (log10 v) (map log10 vs)) in E.
  set (hr := histogram n (log10 (radius_of v)) (map (fun u => log10 (radius_of u)) vs)) in E.
  assert (HR : fst hr = fst hv).
  { unfold hr, hv. rewrite log_radius by (apply Hp; left; auto).
    rewrite (map_ext_in (fun u => log10 (radius_of u)) (fun u => 1 / 3 * log10 u + 1 / 3 * log10 (3 / 4 / PI)))
      by (intros u Hu; apply log_radius; apply Hp; right; auto).
    rewrite <- (map_map log10 (fun y => 1 / 3 * y + 1 / 3 * log10 (3 / 4 / PI))).
    apply histogram_affine; [exact Hn|lra]. }
  assert (LE : forall lo hi, length (linspace_edges n lo hi) = S n) by (intros; unfold linspace_edges; rewrite map_length, seq_length; reflexivity).
  assert (LC : length (fst hv) = n) by (unfold hv, histogram; cbn [fst]; rewrite map_length, seq_length; reflexivity).
  apply (f_equal (fun q => (fst (fst (fst q)), snd (fst (fst q)), snd (fst q), snd q))) in E. cbn [fst snd] in E.
  assert (EV : map (fun e => pow10 e * res ^ 3) (snd hv) = V) by congruence.
  assert (ER : map (fun e => pow10 e * res) (snd hr) = Rr) by congruence.
  assert (EPV : map (fun d => if Req_EM_T d 0 then dummy null (fractions (fst hv) ++ [0]) else d) (fractions (fst hv) ++ [0]) = PV) by congruence.
  assert (EPR : dummy null (0 :: fractions (fst hr)) :: tl (0 :: fractions (fst hr)) = PR) by congruence.
  clear E.
  assert (TOT : list_sum (fst hv) = length (v :: vs)).
  { unfold hv. rewrite histogram_total by exact Hn. simpl. rewrite map_length. reflexivity. }
  set (c := fun i => population V n i (map (fun u => u * res ^ 3) (v :: vs))).
  assert (R3 : 0 < res ^ 3) by (apply pow_lt; exact Hr).
  assert (CN : forall i, (i < n)%nat -> nth i (fst hv) 0%nat = c i).
  { intros i Hi. unfold c. rewrite <- EV. unfold hv at 1, histogram. cbn [fst].
    set (edges := linspace_edges n _ _).
    set (F := fun i => length (filter (in_bin n edges i) (log10 v :: map log10 vs))).
    rewrite (nth_indep _ 0%nat (F 0%nat)) by (rewrite map_length, seq_length; exact Hi).
    rewrite (map_nth F), seq_nth by exact Hi. unfold F.
    change (log10 v :: map log10 vs) with (map log10 (v :: vs)).
    rewrite (population_log n edges (0 + i) (v :: vs) (res ^ 3)); auto.
    unfold edges. rewrite LE. lia. }
  assert (CM : fst hv = map c (seq 0 n)).
  { apply nth_ext with (d := 0%nat) (d' := c 0%nat).
    - rewrite map_length, seq_length. exact LC.
    - intros i Hi. rewrite LC in Hi. rewrite CN by exact Hi. rewrite (map_nth c), seq_nth by exact Hi. reflexivity. }
  assert (FR : forall i, (i < n)%nat -> nth i (fractions (fst hv)) 0 = INR (c i) / INR (length (v :: vs))).
  { intros i Hi. unfold fractions. rewrite TOT. set (F := fun k => INR k / INR (length (v :: vs))).
    rewrite (nth_indep _ 0 (F 0%nat)) by (rewrite map_length, LC; exact Hi).
    rewrite (map_nth F), CN by exact Hi. reflexivity. }
  assert (LF : length (fractions (fst hv)) = n) by (unfold fractions; rewrite map_length; exact LC).
  assert (NP : 0 < INR (length (v :: vs))) by (apply lt_0_INR; simpl; lia).
  assert (FRS : forall x, In x (fractions (fst hv)) -> 0 <= x).
  { intros x Hx. apply in_map_iff in Hx. destruct Hx as [k [<- _]]. rewrite TOT.
    apply Rmult_le_pos; [apply pos_INR|left; apply Rinv_0_lt_compat; exact NP]. }
  rewrite HR in EPR. set (fr := fractions (fst hv)) in *.
  assert (DD : dummy null (0 :: fr) = dummy null (fr ++ [0])).
  { unfold dummy. destruct null; [reflexivity|]. assert (NZ : nonzero (0 :: fr) = nonzero (fr ++ [0])).
    { unfold nonzero. rewrite filter_app. cbn [filter]. destruct (Req_EM_T 0 0); [|congruence]. rewrite app_nil_r. reflexivity. }
    rewrite NZ. reflexivity. }
  set (dm := dummy null (fr ++ [0])) in *.
  split; [rewrite <- EV, map_length; apply LE|].
  split; [rewrite <- EPV, map_length, app_length, LF; simpl; lia|].
  split; [rewrite <- ER, map_length; apply LE|].
  split; [rewrite <- EPR; cbn [length tl]; rewrite LF; reflexivity|].
  split; [rewrite <- CM; exact TOT|].
  exists dm. split; [|split; [|split]].
  - pose proof (nonzero_pos_min null (fr ++ [0]) dm eq_refl) as NM. destruct null as [f|]; [exact NM|]. split.
    + unfold dm, dummy.
      assert (NZ : exists x, In x fr /\ x <> 0).
      { destruct (existsb (fun x => if Req_EM_T x 0 then false else true) fr) eqn:X.
        - apply existsb_exists in X. destruct X as [x [X1 X2]]. exists x. split; [exact X1|].
          destruct (Req_EM_T x 0); [discriminate|assumption].
        - exfalso. assert (AZ : forall x, In x (fst hv) -> x = 0%nat).
          { intros k Hk. assert (In (INR k / INR (length (v :: vs))) fr).
            { unfold fr, fractions. rewrite TOT. apply in_map_iff. exists k. auto. }
            destruct (Nat.eq_dec k 0) as [|Nk]; [assumption|exfalso].
            assert (existsb (fun x => if Req_EM_T x 0 then false else true) fr = true).
            { apply existsb_exists. eexists. split; [exact H|]. destruct (Req_EM_T _ 0) as [Q|]; [|reflexivity].
              exfalso. apply Rmult_integral in Q. destruct Q as [Q|Q]; [apply (not_0_INR k Nk Q)|].
              apply (Rinv_neq_0_compat (INR (length (v :: vs)))); lra. }
            congruence. }
          assert (list_sum (fst hv) = 0%nat).
          { revert AZ. clear. induction (fst hv) as [|a l IH]; intro AZ; [reflexivity|]. unfold list_sum in *. simpl.
            rewrite (AZ a (or_introl eq_refl)), IH; auto. intros; apply AZ; right; auto. }
          rewrite TOT in H. simpl in H. discriminate. }
      destruct NZ as [x [X1 X2]].
      assert (I : In x (nonzero (fr ++ [0]))).
      { apply filter_In. split; [apply in_or_app; left; exact X1|]. destruct (Req_EM_T x 0); [contradiction|reflexivity]. }
      destruct (nonzero (fr ++ [0])) as [|y r] eqn:F; [contradiction|].
      pose proof (rmin_in r y) as Q. rewrite <- F in Q. apply filter_In in Q. destruct Q as [Q1 Q2].
      assert (rmin y r <> 0) by (destruct (Req_EM_T (rmin y r) 0); [discriminate|assumption]).
      apply in_app_or in Q1. destruct Q1 as [Q1|[Q1|[]]]; [|exfalso; apply H; symmetry; exact Q1].
      apply FRS in Q1. lra.
    + intros i Hi Hc. apply NM.
      * apply in_or_app. left. rewrite <- FR by exact Hi. apply nth_In. rewrite LF. exact Hi.
      * intro Z. apply Rmult_integral in Z. destruct Z as [Z|Z]; [apply (not_0_INR _ Hc Z)|].
        apply (Rinv_neq_0_compat (INR (length (v :: vs)))); lra.
  - intros i Hi. split.
    + rewrite <- EPV. set (F := fun d => if Req_EM_T d 0 then dm else d).
      rewrite (nth_indep _ 0 (F 0)) by (rewrite map_length, app_length, LF; simpl; lia).
      rewrite (map_nth F), app_nth1 by (rewrite LF; exact Hi). rewrite FR by exact Hi. unfold F.
      destruct (Nat.eqb_spec (c i) 0) as [Z|Z].
      * rewrite Z. destruct (Req_EM_T _ 0) as [|Q]; [reflexivity|]. exfalso. apply Q. simpl. unfold Rdiv. ring.
      * destruct (Req_EM_T _ 0) as [Q|]; [|reflexivity]. exfalso. apply Rmult_integral in Q.
        destruct Q as [Q|Q]; [apply (not_0_INR _ Z Q)|]. apply (Rinv_neq_0_compat (INR (length (v :: vs)))); lra.
    + rewrite <- EPR. cbn [nth tl]. apply FR. exact Hi.
  - rewrite <- EPV. set (F := fun d => if Req_EM_T d 0 then dm else d).
    rewrite (nth_indep _ 0 (F 0)) by (rewrite map_length, app_length, LF; simpl; lia).
    rewrite (map_nth F), app_nth2 by (rewrite LF; lia). rewrite LF, Nat.sub_diag. cbn [nth]. unfold F.
    destruct (Req_EM_T 0 0); [reflexivity|congruence].
  - rewrite <- EPR. cbn [nth]. exact DD.
Qed.
Print Assumptions C32_dist_from_volumes.
Example C32_dist_from_volumes_sat : exists (v : R) (vs : list R) (res : R) (n : nat) (null : option R) (V : list R) (PV : list R) (Rr : list R) (PR : list R), ((forall u, In u (v :: vs) -> 0 < u)) /\ 0 < res /\ (1 <= n)%nat /\ dist_from_volumes v vs res n null = (V, PV, Rr, PR).
Proof. destruct (dist_from_volumes 8 [27; 8; 64] (1/2) 5 None) as [[[V PV] Rr] PR] eqn:E. exists 8, [27; 8; 64], (1/2), 5%nat, None, V, PV, Rr, PR.
split; [intros u H; cbn in H; intuition lra|]. split; [lra|]. split; [lia|exact E]. Qed.

(** Unless all volumes are equal, the edges run from the smallest to the largest volume,
    and each radius edge is the radius of the sphere with the volume of that edge. *)
Theorem C32_edges : forall v vs res n null V PV Rr PR,
  (forall u, In u (v :: vs) -> 0 < u) -> 0 < res -> (1 <= n)%nat ->
  (exists u, In u vs /\ u <> v) ->
  dist_from_volumes v vs res n null = (V, PV, Rr, PR) ->
  (forall i, (i <= n)%nat -> nth i Rr 0 = Rpower (nth i V 0 * 3 / 4 / PI) (1 / 3)) /\
  (exists lo hi, In lo (v :: vs) /\ In hi (v :: vs) /\ (forall u, In u (v :: vs) -> lo <= u <= hi) /\
     nth 0 V 0 = lo * res ^ 3 /\ nth n V 0 = hi * res ^ 3).
Proof.
  intros v vs res n null V PV Rr PR Hp Hr Hn [u0 [Hu0 Nu0]] E. unfold dist_from_volumes in E.
  assert (R3 : 0 < res ^ 3) by (apply pow_lt; exact Hr).
  assert (NE : rmin (log10 v) (map log10 vs) <> rmax (log10 v) (map log10 vs)).
  { intro Q. assert (log10 u0 = log10 v).
    { assert (I1 : In (log10 u0) (log10 v :: map log10 vs)) by (right; apply in_map; exact Hu0).
      assert (I2 : In (log10 v) (log10 v :: map log10 vs)) by (left; reflexivity).
      pose proof (rmin_le _ _ _ I1). pose proof (rmax_ge _ _ _ I1). pose proof (rmin_le _ _ _ I2). pose proof (rmax_ge _ _ _ I2). lra. }
    apply Nu0. rewrite <- (pow10_log10 u0), <- (pow10_log10 v), H; auto; apply Hp; [left; auto|right; auto]. }
  assert (EV : map (fun e => pow10 e * res ^ 3) (snd (histogram n (log10 v) (map log10 vs))) = V)
    by (apply (f_equal (fun q => fst (fst (fst q)))) in E; exact E).
  assert (ER : map (fun e => pow10 e * res) (snd (histogram n (log10 (radius_of v)) (map (fun u => log10 (radius_of u)) vs))) = Rr)
    by (apply (f_equal (fun q => snd (fst q))) in E; exact E).
  assert (HRS : snd (histogram n (log10 (radius_of v)) (map (fun u => log10 (radius_of u)) vs)) =
     map (fun e => 1 / 3 * e + 1 / 3 * log10 (3 / 4 / PI)) (snd (histogram n (log10 v) (map log10 vs)))).
  { rewrite log_radius by (apply Hp; left; auto).
    rewrite (map_ext_in (fun u => log10 (radius_of u)) (fun u => 1 / 3 * log10 u + 1 / 3 * log10 (3 / 4 / PI)))
      by (intros u Hu; apply log_radius; apply Hp; right; auto).
    rewrite <- (map_map log10 (fun y => 1 / 3 * y + 1 / 3 * log10 (3 / 4 / PI))).
    apply histogram_affine; [exact Hn|lra|exact NE]. }
  rewrite HRS, map_map in ER. unfold histogram in EV, ER. cbn [snd] in EV, ER. unfold outer_edges in EV, ER.
  destruct (Req_EM_T (rmin (log10 v) (map log10 vs)) (rmax (log10 v) (map log10 vs))); [contradiction|]. cbn [fst snd] in EV, ER.
  set (lo := rmin (log10 v) (map log10 vs)) in *. set (hi := rmax (log10 v) (map log10 vs)) in *.
  assert (LE : length (linspace_edges n lo hi) = S n) by (unfold linspace_edges; rewrite map_length, seq_length; reflexivity).
  assert (NP : 0 < INR n) by (apply lt_0_INR; lia).
  assert (VN : forall i, (i <= n)%nat -> nth i V 0 = pow10 (lo + INR i * ((hi - lo) / INR n)) * res ^ 3).
  { intros i Hi. rewrite <- EV. rewrite (nth_indep _ 0 (pow10 0 * res ^ 3)) by (rewrite map_length; lia).
    rewrite (map_nth (fun e => pow10 e * res ^ 3)), edge_nth by exact Hi. reflexivity. }
  split.
  - intros i Hi. rewrite VN by exact Hi. rewrite <- ER.
    set (F := fun x => pow10 (1 / 3 * x + 1 / 3 * log10 (3 / 4 / PI)) * res).
    rewrite (nth_indep _ 0 (F 0)) by (rewrite map_length; lia). rewrite (map_nth F), edge_nth by exact Hi. unfold F.
    set (e := lo + INR i * ((hi - lo) / INR n)). unfold pow10, log10, Rpower at 1 2. pose proof ln10_pos. pose proof PI_RGT_0.
    unfold Rpower at 1.
    replace (exp (e * ln 10) * res ^ 3 * 3 / 4 / PI) with (exp (e * ln 10) * (res ^ 3 * (3 / 4 / PI))) by (field; lra).
    assert (Q : 0 < 3 / 4 / PI) by (apply Rdiv_lt_0_compat; lra).
    rewrite ln_mult; [|apply exp_pos|apply Rmult_lt_0_compat; assumption]. rewrite ln_exp, ln_mult by assumption.
    replace (res ^ 3) with (res * (res * res)) by ring.
    rewrite !ln_mult by (try assumption; apply Rmult_lt_0_compat; assumption).
    rewrite <- (exp_ln res Hr) at 1. rewrite <- exp_plus. f_equal. field. lra.
  - pose proof (rmin_in (map log10 vs) (log10 v)) as I1. pose proof (rmax_in (map log10 vs) (log10 v)) as I2.
    fold lo in I1. fold hi in I2. change (log10 v :: map log10 vs) with (map log10 (v :: vs)) in I1, I2.
    apply in_map_iff in I1. apply in_map_iff in I2. destruct I1 as [a [A1 A2]], I2 as [b [B1 B2]].
    exists a, b. split; [exact A2|]. split; [exact B2|]. split; [|split].
    + intros u Hu. assert (IU : In (log10 u) (log10 v :: map log10 vs)) by (change (log10 v :: map log10 vs) with (map log10 (v :: vs)); apply in_map; exact Hu).
      pose proof (rmin_le _ _ _ IU) as L1. pose proof (rmax_ge _ _ _ IU) as L2. fold lo in L1. fold hi in L2.
      rewrite <- A1 in L1. rewrite <- B1 in L2. apply pow10_le in L1. apply pow10_le in L2.
      rewrite !pow10_log10 in L1, L2 by (apply Hp; auto). lra.
    + rewrite VN by lia. simpl (INR 0). replace (lo + 0 * ((hi - lo) / INR n)) with lo by ring.
      rewrite <- A1, pow10_log10 by (apply Hp; auto). reflexivity.
    + rewrite VN by lia. replace (lo + INR n * ((hi - lo) / INR n)) with hi by (field; lra).
      rewrite <- B1, pow10_log10 by (apply Hp; auto). reflexivity.
Qed.
Print Assumptions C32_edges.
Example C32_edges_sat : exists (v : R) (vs : list R) (res : R) (n : nat) (null : option R) (V : list R) (PV : list R) (Rr : list R) (PR : list R), ((forall u, In u (v :: vs) -> 0 < u)) /\ 0 < res /\ (1 <= n)%nat /\ (exists u, In u vs /\ u <> v) /\ dist_from_volumes v vs res n null = (V, PV, Rr, PR).
Proof. destruct (dist_from_volumes 8 [27; 8; 64] (1/2) 5 None) as [[[V PV] Rr] PR] eqn:E. exists 8, [27; 8; 64], (1/2), 5%nat, None, V, PV, Rr, PR.
split; [intros u H; cbn in H; intuition lra|]. split; [lra|]. split; [lia|]. split; [|exact E]. exists 27. split; [left; reflexivity|lra]. Qed.

(** * get_distribution *)
(** It returns exactly when there is a label and no label below the largest one is
    missing; the sizes then count the cells of each label and add up to the number of
    labelled cells, and the distribution adds up to 1. *)
Theorem C32_get_distribution : forall array res n, (1 <= n)%nat ->
  ((exists r, get_distribution array res n = Some r) <->
   (exists l, In l array /\ l <> 0%nat) /\ forall l, (1 <= l <= list_max array)%nat -> In l array) /\
  (forall sizes dist vols, get_distribution array res n = Some (sizes, dist, vols) ->
     length sizes = list_max array /\
     (forall i, (i < list_max array)%nat -> nth i sizes 0%nat = count_occ Nat.eq_dec array (S i)) /\
     list_sum sizes = length (filter (fun l => negb (Nat.eqb l 0)) array) /\
     length dist = S n /\ rsum dist = 1).
Proof.
  intros array res n Hn.
  assert (CO : forall i, length (filter (Nat.eqb (S i)) array) = count_occ Nat.eq_dec array (S i)).
  { intro i. induction array as [|a l IH]; [reflexivity|]. cbn [filter count_occ].
    destruct (Nat.eqb_spec (S i) a) as [E|E], (Nat.eq_dec a (S i)) as [E'|E']; try congruence; cbn [length]; rewrite IH; reflexivity. }
  assert (MX : forall l, In l array -> (l <= list_max array)%nat).
  { intros l Hl. pose proof (proj1 (list_max_le array (list_max array)) (Nat.le_refl _)) as F. rewrite Forall_forall in F. auto. }
  assert (LS : length (label_sizes array) = list_max array) by (unfold label_sizes; rewrite map_length, seq_length; reflexivity).
  assert (NS : forall i, (i < list_max array)%nat -> nth i (label_sizes array) 0%nat = count_occ Nat.eq_dec array (S i)).
  { intros i Hi. unfold label_sizes. set (F := fun i => length (filter (Nat.eqb (S i)) array)).
    rewrite (nth_indep _ 0%nat (F 0%nat)) by (rewrite map_length, seq_length; exact Hi).
    rewrite (map_nth F), seq_nth by exact Hi. unfold F. simpl. apply CO. }
  split.
  - split.
    + intros [r H]. unfold get_distribution in H. destruct (existsb (Nat.eqb 0) (label_sizes array)) eqn:X; [discriminate|].
      assert (A : forall l, (1 <= l <= list_max array)%nat -> In l array).
      { intros l Hl. destruct (in_dec Nat.eq_dec l array) as [|N]; [assumption|exfalso].
        assert (existsb (Nat.eqb 0) (label_sizes array) = true); [|congruence].
        apply existsb_exists. exists 0%nat. split; [|reflexivity].
        assert (Z : nth (l - 1) (label_sizes array) 0%nat = 0%nat).
        { rewrite NS by lia. replace (S (l - 1)) with l by lia. apply count_occ_not_In. exact N. }
        rewrite <- Z. apply nth_In. rewrite LS. lia. }
      split; [|exact A]. destruct (label_sizes array) as [|s ss] eqn:Q; [discriminate|].
      exists 1%nat. split; [|discriminate]. apply A. simpl in LS. lia.
    + intros [[l [Hl Nl]] A]. unfold get_distribution.
      assert (X : existsb (Nat.eqb 0) (label_sizes array) = false).
      { apply not_true_is_false. intro X. apply existsb_exists in X. destruct X as [k [X1 X2]]. apply Nat.eqb_eq in X2. subst k.
        destruct (In_nth _ _ 0%nat X1) as [i [Hi Hz]]. rewrite LS in Hi. rewrite NS in Hz by exact Hi.
        assert (In (S i) array) by (apply A; lia). apply (count_occ_In Nat.eq_dec) in H. lia. }
      rewrite X. destruct (label_sizes array) as [|s ss] eqn:Q; [|eexists; reflexivity].
      exfalso. simpl in LS. specialize (MX l Hl). lia.
  - intros sizes dist vols H. unfold get_distribution in H.
    destruct (existsb (Nat.eqb 0) (label_sizes array)) eqn:X; [discriminate|].
    destruct (map (fun s => ln (INR s)) (label_sizes array)) as [|x l] eqn:Q; [discriminate|].
    set (h := histogram n x l) in H. injection H as <- <- _.
    split; [exact LS|]. split; [exact NS|]. split; [|split].
    + unfold label_sizes.
      assert (G : forall u m, (forall a, In a u -> (a <= m)%nat) ->
        list_sum (map (fun i => length (filter (Nat.eqb (S i)) u)) (seq 0 m)) = length (filter (fun a => negb (Nat.eqb a 0)) u)).
      { intros u m. induction u as [|a u IH]; intro Hu.
        - clear. induction (seq 0 m) as [|b u IH]; [reflexivity|]. exact IH.
        - rewrite (map_ext _ (fun i => ((if Nat.eqb (S i) a then 1 else 0) + length (filter (Nat.eqb (S i)) u))%nat)).
          2:{ intro i. cbn [filter]. destruct (Nat.eqb (S i) a); reflexivity. }
          rewrite list_sum_plus, IH by (intros; apply Hu; right; auto).
          assert (D : list_sum (map (fun i => if Nat.eqb (S i) a then 1 else 0)%nat (seq 0 m)) = if Nat.eqb a 0 then 0%nat else 1%nat).
          { destruct a as [|a].
            - clear. induction (seq 0 m) as [|b u IH]; [reflexivity|]. exact IH.
            - assert (Ha : (a < m)%nat) by (specialize (Hu (S a) (or_introl eq_refl)); lia).
              simpl (Nat.eqb (S a) 0). clear - Ha.
              assert (K : forall l, NoDup l -> list_sum (map (fun i => if Nat.eqb (S i) (S a) then 1 else 0)%nat l) = if in_dec Nat.eq_dec a l then 1%nat else 0%nat).
              { induction 1 as [|b l Hb N IH]; [reflexivity|].
                assert (LSC : forall y (u : list nat), list_sum (y :: u) = (y + list_sum u)%nat) by reflexivity.
                cbn [map]. rewrite LSC, IH. cbn [Nat.eqb].
                destruct (Nat.eqb_spec b a) as [->|NE].
                - destruct (in_dec Nat.eq_dec a (a :: l)) as [_|C]; [|exfalso; apply C; left; reflexivity].
                  destruct (in_dec Nat.eq_dec a l); [contradiction|reflexivity].
                - destruct (in_dec Nat.eq_dec a (b :: l)) as [C|C], (in_dec Nat.eq_dec a l) as [C'|C']; try reflexivity.
                  + destruct C as [C|C]; [congruence|contradiction].
                  + exfalso. apply C. right. exact C'. }
              rewrite K by apply seq_NoDup. destruct (in_dec Nat.eq_dec a (seq 0 m)) as [_|C]; [reflexivity|].
              exfalso. apply C. apply in_seq. lia. }
          rewrite D. cbn [filter]. destruct (Nat.eqb a 0); reflexivity. }
      apply G. exact MX.
    + rewrite map_length, app_length, map_length. unfold h, histogram. cbn [fst]. rewrite map_length, seq_length. simpl. lia.
    + assert (T : rsum (map INR (fst h) ++ [0]) <> 0).
      { rewrite rsum_app. assert (S1 : rsum (map INR (fst h)) = INR (list_sum (fst h))).
        { induction (fst h) as [|a u IH]; [reflexivity|]. unfold list_sum, rsum in *. simpl. rewrite plus_INR, IH. reflexivity. }
        rewrite S1. unfold h. rewrite histogram_total by exact Hn. assert (0 < INR (length (x :: l))) by (apply lt_0_INR; simpl; lia).
        simpl (rsum [0]). lra. }
      set (W := map INR (fst h) ++ [0]) in *. unfold Rdiv. rewrite (rsum_scale_r (fun c => c)), map_id. field. exact T.
Qed.
Print Assumptions C32_get_distribution.
Example C32_get_distribution_sat : exists (n : nat), (1 <= n)%nat.
Proof. exists 5%nat. repeat split; first [lra | lia | reflexivity | discriminate | congruence | auto]. Qed.

Example C32_sat : (forall u, In u [1; 2; 8] -> 0 < u) /\ (exists u, In u [2; 8] /\ u <> 1) /\
  ((exists l, In l [0; 2; 1; 2]%nat /\ l <> 0%nat) /\ forall l, (1 <= l <= list_max [0; 2; 1; 2])%nat -> In l [0; 2; 1; 2]%nat).
Proof.
  split; [intros u [<-|[<-|[<-|[]]]]; lra|]. split; [exists 2; split; [left; auto|lra]|].
  split; [exists 2%nat; simpl; auto|]. intros l Hl. simpl in Hl. simpl. lia.
Qed.
