(** C30: [find_idx]. *)
From Coq Require Import List Arith ZArith QArith Qround Bool Lia Lqa Psatz.
From Verif Require Import QLib FindIdxModel FindIdxSpec.
Import ListNotations.
Local Open Scope nat_scope.

Lemma amax_spec : forall l x, In (amax x l) (x :: l) /\ forall y, In y (x :: l) -> (y <= amax x l)%Q.
Proof.
  unfold amax. induction l as [|y l IH]; intro x.
  - simpl. split; [auto|]. intros y [<-|[]]. lra.
  - cbn [fold_left]. destruct (Qltb x y) eqn:E.
    + apply Qltb_true in E. destruct (IH y) as [I1 I2]. split; [right; exact I1|].
      intros z [<-|Hz]; [|auto]. specialize (I2 y (or_introl eq_refl)). lra.
    + apply Qltb_false in E. destruct (IH x) as [I1 I2]. split.
      * destruct I1 as [I1|I1]; [left; exact I1|right; right; exact I1].
      * intros z [<-|[<-|Hz]]; [apply I2; left; auto| |apply I2; right; auto].
        specialize (I2 x (or_introl eq_refl)). lra.
Qed.
Lemma amin_spec : forall l x, In (amin x l) (x :: l) /\ forall y, In y (x :: l) -> (amin x l <= y)%Q.
Proof.
  unfold amin. induction l as [|y l IH]; intro x.
  - simpl. split; [auto|]. intros y [<-|[]]. lra.
  - cbn [fold_left]. destruct (Qltb y x) eqn:E.
    + apply Qltb_true in E. destruct (IH y) as [I1 I2]. split; [right; exact I1|].
      intros z [<-|Hz]; [|auto]. specialize (I2 y (or_introl eq_refl)). lra.
    + apply Qltb_false in E. destruct (IH x) as [I1 I2]. split.
      * destruct I1 as [I1|I1]; [left; exact I1|right; right; exact I1].
      * intros z [<-|[<-|Hz]]; [apply I2; left; auto| |apply I2; right; auto].
        specialize (I2 x (or_introl eq_refl)). lra.
Qed.

Lemma nondecreasing_iff : forall l, nondecreasing l = true <-> ascending l.
Proof.
  unfold ascending. induction l as [|x [|y r] IH]; cbn [nondecreasing].
  - split; [intros _ i Hi; simpl in Hi; lia|reflexivity].
  - split; [intros _ i Hi; simpl in Hi; lia|reflexivity].
  - rewrite andb_true_iff, IH, Qle_bool_iff. split.
    + intros [A B] [|i] Hi; simpl; [lra|]. apply (B i). simpl in *. lia.
    + intro A. split; [specialize (A 0 ltac:(simpl; lia)); simpl in A; lra|].
      intros i Hi. apply (A (S i)). simpl in *. lia.
Qed.
Lemma nonincreasing_iff : forall l, nonincreasing l = true <-> descending l.
Proof.
  unfold descending. induction l as [|x [|y r] IH]; cbn [nonincreasing].
  - split; [intros _ i Hi; simpl in Hi; lia|reflexivity].
  - split; [intros _ i Hi; simpl in Hi; lia|reflexivity].
  - rewrite andb_true_iff, IH, Qle_bool_iff. split.
    + intros [A B] [|i] Hi; simpl; [lra|]. apply (B i). simpl in *. lia.
    + intro A. split; [specialize (A 0 ltac:(simpl; lia)); simpl in A; lra|].
      intros i Hi. apply (A (S i)). simpl in *. lia.
Qed.

Lemma ascending_le : forall l, ascending l -> forall j i, i <= j -> j < length l -> (nth i l 0 <= nth j l 0)%Q.
Proof.
  intros l A. induction j as [|j IH]; intros i H L.
  - replace i with 0 by lia. lra.
  - destruct (Nat.eq_dec i (S j)) as [->|N]; [lra|].
    specialize (IH i ltac:(lia) ltac:(lia)). specialize (A j L). lra.
Qed.
Lemma searchsorted_spec : forall l v, (exists x, In x l /\ (v <= x)%Q) ->
  searchsorted l v < length l /\ (v <= nth (searchsorted l v) l 0)%Q /\
  forall i, i < searchsorted l v -> (nth i l 0 < v)%Q.
Proof.
  induction l as [|x l IH]; intros v [y [Hy Hv]]; [contradiction|]. cbn [searchsorted].
  destruct (Qltb x v) eqn:E.
  - apply Qltb_true in E. destruct Hy as [<-|Hy]; [lra|].
    destruct (IH v (ex_intro _ y (conj Hy Hv))) as [I1 [I2 I3]].
    split; [simpl; lia|]. split; [exact I2|]. intros [|i] Hi; simpl; [exact E|apply I3; lia].
  - apply Qltb_false in E. split; [simpl; lia|]. split; [exact E|]. intros i Hi. lia.
Qed.
Lemma last_nth : forall (l : list Q), last l 0%Q = nth (length l - 1) l 0%Q.
Proof.
  induction l as [|x [|y l] IH]; [reflexivity|reflexivity|].
  change (last (x :: y :: l) 0%Q) with (last (y :: l) 0%Q). rewrite IH.
  cbn [length]. replace (S (S (length l)) - 1) with (S (S (length l) - 1)) by lia. reflexivity.
Qed.

Lemma frac_index_ascending : forall l v, ascending l -> (nth 0 l 0 <= v <= last l 0)%Q -> ~ constant l ->
  exists r, frac_index l v = Some r /\ interpolates l r v.
Proof.
  intros l v A [B1 B2] NC. rewrite last_nth in B2.
  assert (L : 2 <= length l).
  { destruct l as [|x [|y l]]; simpl; try lia; exfalso; apply NC.
    - intros a b [].
    - intros a b [<-|[]] [<-|[]]. reflexivity. }
  assert (FL : (nth 0 l 0 < nth (length l - 1) l 0)%Q).
  { pose proof (ascending_le l A (length l - 1) 0 ltac:(lia) ltac:(lia)) as LE.
    destruct (Qlt_le_dec (nth 0 l 0%Q) (nth (length l - 1) l 0%Q)) as [|G]; [assumption|exfalso].
    apply NC. assert (H0 : forall x, In x l -> (x == nth 0 l 0)%Q).
    { intros x Hx. destruct (In_nth l x 0%Q Hx) as [n [Hn <-]].
      pose proof (ascending_le l A n 0 ltac:(lia) Hn). pose proof (ascending_le l A (length l - 1) n ltac:(lia) ltac:(lia)). lra. }
    intros x y Hx Hy. rewrite (H0 x Hx), (H0 y Hy). reflexivity. }
  destruct (searchsorted_spec l v) as [S1 [S2 S3]].
  { exists (nth (length l - 1) l 0%Q). split; [apply nth_In; lia|exact B2]. }
  unfold frac_index. rewrite last_nth. destruct (searchsorted l v) as [|i] eqn:Es.
  - destruct (Qeq_bool _ _) eqn:E; [apply Qeq_bool_eq in E; lra|]. eexists. split; [reflexivity|].
    exists 0, 0%Q. split; [lia|]. split; [lra|].
    assert (V : (v == nth 0 l 0)%Q) by lra. split; [|rewrite V; ring].
    simpl (Z.of_nat 0). rewrite V. field. lra.
  - specialize (S3 i ltac:(lia)).
    destruct (Qeq_bool _ _) eqn:E; [apply Qeq_bool_eq in E; lra|]. eexists. split; [reflexivity|].
    set (x1 := nth i l 0%Q) in *. set (x2 := nth (S i) l 0%Q) in *.
    exists i, ((v - x1) / (x2 - x1))%Q. split; [lia|].
    split; [split|split].
    + apply Qle_shift_div_l; lra.
    + apply Qle_shift_div_r; lra.
    + replace (Z.of_nat (S i)) with (Z.of_nat i + 1)%Z by lia. rewrite inject_Z_plus. ring.
    + fold x1 x2. field. lra.
Qed.

Lemma interpolates_rev : forall l r v, interpolates (rev l) r v -> interpolates l (inject_Z (Z.of_nat (length l)) - 1 - r) v.
Proof.
  intros l r v [i [t [Hi [Ht [Hr Hv]]]]]. rewrite rev_length in Hi.
  exists (length l - 2 - i), (1 - t)%Q. split; [lia|]. split; [lra|]. split.
  - rewrite Hr. replace (Z.of_nat (length l - 2 - i)) with (Z.of_nat (length l) + - Z.of_nat i + - 2)%Z by lia.
    rewrite !inject_Z_plus, !inject_Z_opp. simpl (inject_Z 2). 
    change (inject_Z 2) with (2 # 1)%Q. ring.
  - rewrite Hv, !rev_nth by lia.
    replace (length l - S i) with (S (length l - 2 - i)) by lia.
    replace (length l - S (S i)) with (length l - 2 - i) by lia. ring.
Qed.
Lemma descending_rev : forall l, descending l -> ascending (rev l).
Proof.
  intros l H i Hi. rewrite rev_length in Hi. rewrite !rev_nth by lia.
  specialize (H (length l - S (S i)) ltac:(lia)).
  replace (S (length l - S (S i))) with (length l - S i) in H by lia. exact H.
Qed.
Lemma clamp_clamped : forall x r v,
  clamped (x :: r) v (clamp store_float (amin x r) (amax x r) v) /\
  (amin x r <= clamp store_float (amin x r) (amax x r) v <= amax x r)%Q.
Proof.
  intros x r v. destruct (amin_spec r x) as [N1 N2]. destruct (amax_spec r x) as [M1 M2].
  assert (LE : (amin x r <= amax x r)%Q) by (specialize (N2 x (or_introl eq_refl)); specialize (M2 x (or_introl eq_refl)); lra).
  unfold clamp, store_float. destruct (Qltb (amax x r) v) eqn:E1.
  - apply Qltb_true in E1. destruct (Qltb (amax x r) (amin x r)) eqn:E2; [apply Qltb_true in E2; lra|].
    split; [|lra]. exists (amin x r), (amax x r). repeat split; auto; intros; lra.
  - apply Qltb_false in E1. destruct (Qltb v (amin x r)) eqn:E2.
    + apply Qltb_true in E2. split; [|lra]. exists (amin x r), (amax x r). repeat split; auto; intros; lra.
    + apply Qltb_false in E2. split; [|lra]. exists (amin x r), (amax x r). repeat split; auto; intros; lra.
Qed.
Lemma ascending_range : forall x r v, ascending (x :: r) -> (amin x r <= v <= amax x r)%Q ->
  (nth 0 (x :: r) 0 <= v <= last (x :: r) 0)%Q.
Proof.
  intros x r v A H. destruct (amin_spec r x) as [N1 N2]. destruct (amax_spec r x) as [M1 M2].
  rewrite last_nth. set (l := x :: r) in *. assert (L : 0 < length l) by (unfold l; simpl; lia).
  destruct (In_nth l _ 0%Q N1) as [n [Hn En]]. destruct (In_nth l _ 0%Q M1) as [m [Hm Em]].
  pose proof (ascending_le l A n 0 ltac:(lia) Hn). pose proof (ascending_le l A (length l - 1) m ltac:(lia) ltac:(lia)).
  rewrite En in *. rewrite Em in *. lra.
Qed.

Lemma searchsorted_end : forall l v, searchsorted l v = length l <-> forall x, In x l -> (x < v)%Q.
Proof.
  induction l as [|x l IH]; intro v; [split; [intros _ y []|reflexivity]|]. cbn [searchsorted length]. destruct (Qltb x v) eqn:E.
  - apply Qltb_true in E. split.
    + intros H y [<-|I]; [exact E|]. apply (proj1 (IH v)); [lia|exact I].
    + intro H. f_equal. apply IH. intros y I. apply H. right. exact I.
  - apply Qltb_false in E. split; [discriminate|]. intro H. specialize (H x (or_introl eq_refl)). lra.
Qed.
(** The second neighbour exists exactly for values not above the whole array. *)
Lemma past_end : forall x r (d : bool) vs,
  existsb (fun v => Nat.eqb (searchsorted (if d then rev (x :: r) else x :: r) v) (length (if d then rev (x :: r) else x :: r))) vs = true <->
  exists v, In v vs /\ (amax x r < v)%Q.
Proof.
  intros x r d vs. rewrite existsb_exists. destruct (amax_spec r x) as [M1 M2].
  assert (S0 : forall v, Nat.eqb (searchsorted (if d then rev (x :: r) else x :: r) v) (length (if d then rev (x :: r) else x :: r)) = true <-> (amax x r < v)%Q).
  { intro v. rewrite Nat.eqb_eq, searchsorted_end. split.
    - intro H. apply H. destruct d; [apply in_rev; rewrite rev_involutive; exact M1|exact M1].
    - intros H y I. assert (In y (x :: r)) by (destruct d; [apply in_rev; exact I|exact I]). specialize (M2 y H0). lra. }
  split; intros [v [I H]]; exists v; (split; [exact I|apply S0; exact H]).
Qed.
Lemma floats_found : forall x r (d : bool) vals,
  existsb (fun v => Nat.eqb (searchsorted (if d then rev (x :: r) else x :: r) v) (length (if d then rev (x :: r) else x :: r))) (map (clamp store_float (amin x r) (amax x r)) vals) = false.
Proof.
  intros x r d vals. destruct (existsb _ _) eqn:E; [|reflexivity]. exfalso. apply past_end in E. destruct E as [v [I H]]. apply in_map_iff in I. destruct I as [u [<- _]].
  destruct (clamp_clamped x r u) as [_ C]. lra.
Qed.

(** For an array that is ascending or descending and not constant, each value is replaced
    by the nearest one in the range of the array, and the returned index is one at which
    linear interpolation gives it. *)
Theorem C30_find_idx : forall ar vals, ar <> [] -> ascending ar \/ descending ar -> ~ constant ar ->
  exists vs out, find_idx store_float ar vals = Some (vs, out) /\
    length vs = length vals /\ length out = length vals /\
    forall k, k < length vals ->
      clamped ar (nth k vals 0%Q) (nth k vs 0%Q) /\
      exists r, nth k out None = Some r /\ interpolates ar r (nth k vs 0%Q).
Proof.
  intros ar vals NE M NC. destruct ar as [|x r]; [congruence|]. unfold find_idx.
  assert (MB : negb (nondecreasing (x :: r)) && negb (nonincreasing (x :: r)) = false).
  { destruct M as [M|M]; [apply nondecreasing_iff in M|apply nonincreasing_iff in M]; rewrite M; simpl;
      [reflexivity|apply andb_false_r]. }
  rewrite MB. rewrite floats_found. eexists. eexists. split; [reflexivity|]. rewrite !map_length.
  split; [reflexivity|]. split; [reflexivity|]. intros k Hk.
  set (C := clamp store_float (amin x r) (amax x r)).
  rewrite (nth_indep (map C vals) 0%Q (C 0%Q)) by (rewrite map_length; exact Hk). rewrite (map_nth C).
  destruct (clamp_clamped x r (nth k vals 0%Q)) as [C1 C2]. fold C in C1, C2.
  split; [exact C1|]. rewrite map_map.
  set (F := fun v => option_map _ (frac_index _ (C v))).
  rewrite (nth_indep _ None (F 0%Q)) by (rewrite map_length; exact Hk). rewrite (map_nth F). unfold F.
  set (v := C (nth k vals 0%Q)) in *.
  destruct (nonincreasing (x :: r)) eqn:D.
  - apply nonincreasing_iff in D. pose proof (descending_rev _ D) as A.
    assert (ER : exists y s, rev (x :: r) = y :: s).
    { destruct (rev (x :: r)) eqn:E; [|eauto]. apply (f_equal (@length Q)) in E. rewrite rev_length in E. discriminate. }
    destruct ER as [y [s ER]].
    assert (RG : (amin y s <= v <= amax y s)%Q).
    { destruct (amin_spec r x) as [N1 N2]. destruct (amax_spec r x) as [M1 M2].
      destruct (amin_spec s y) as [N1' N2']. destruct (amax_spec s y) as [M1' M2'].
      rewrite <- ER in *. apply in_rev in N1, M1.
      split; [apply Qle_trans with (amin x r); [apply N2'; exact N1|apply C2]|
              apply Qle_trans with (amax x r); [apply C2|apply M2'; exact M1]]. }
    destruct (frac_index_ascending (rev (x :: r)) v A) as [o [E I]].
    + rewrite ER in A |- *. apply ascending_range; auto.
    + intro K. apply NC. intros a b Ha Hb. apply K; rewrite <- in_rev; assumption.
    + rewrite E. eexists. split; [reflexivity|]. apply interpolates_rev. exact I.
  - assert (A : ascending (x :: r)).
    { destruct M as [M|M]; [exact M|]. apply nonincreasing_iff in M. congruence. }
    destruct (frac_index_ascending (x :: r) v A) as [o [E I]]; [apply ascending_range; auto|exact NC|].
    rewrite E. eexists. split; [reflexivity|]. exact I.
Qed.
Print Assumptions C30_find_idx.

(** For floating-point values it raises exactly for an empty array and for one that goes up and down. *)
Theorem C30_raises_iff : forall ar vals,
  find_idx store_float ar vals = None <-> ar = [] \/ (~ ascending ar /\ ~ descending ar).
Proof.
  intros ar vals. destruct ar as [|x r]; unfold find_idx; [split; auto|].
  rewrite <- nondecreasing_iff, <- nonincreasing_iff. rewrite floats_found.
  destruct (nondecreasing (x :: r)), (nonincreasing (x :: r)); cbn [negb andb]; split; intro H;
    try discriminate H; try reflexivity;
    try (destruct H as [H|[H1 H2]]; [discriminate H|exfalso; auto]).
  right. split; discriminate.
Qed.
Print Assumptions C30_raises_iff.

Lemma if_none : forall {A} (b : bool) (x : A), (if b then None else Some x) = None <-> b = true. Proof. intros A [] x; split; congruence. Qed.
(** An integer above [q] and nearest to it among those not beyond zero: what is left of a negative number without its digits. *)
Lemma store_int_up : forall q, (q < store_int q)%Q <-> (q < 0)%Q /\ forall n : Z, ~ (inject_Z n == q)%Q.
Proof.
  intro q. unfold store_int. destruct (Qltb q 0) eqn:E.
  - apply Qltb_true in E. pose proof (Qle_ceiling q) as C. split.
    + intro H. split; [exact E|]. intros n En. assert (K : (inject_Z (Qceiling q) == inject_Z n)%Q). { rewrite <- En. rewrite Qceiling_Z. reflexivity. } rewrite K, En in H. lra.
    + intros [_ H]. destruct (Qlt_le_dec q (inject_Z (Qceiling q))) as [L|L]; [exact L|]. exfalso. apply (H (Qceiling q)). lra.
  - apply Qltb_false in E. pose proof (Qfloor_le q) as F. split; [intro H; lra|intros [H _]; lra].
Qed.
(** An integer array of values raises also when the array ends below zero between two whole numbers and a value lies above its end, because
    the end loses its digits when it is stored; and when both ends lie between the same two and a value lies below. *)
Theorem C30_integer_raises_iff : forall ar vals lo hi, ascending ar \/ descending ar -> In lo ar -> In hi ar -> (forall x, In x ar -> (lo <= x <= hi)%Q) ->
  (forall v, In v vals -> exists n : Z, v = inject_Z n) ->
  (find_idx store_int ar vals = None <->
   (hi < 0)%Q /\ (forall n : Z, ~ (inject_Z n == hi)%Q) /\ exists v, In v vals /\ ((hi < v)%Q \/ (v < lo)%Q /\ forall n : Z, ~ (lo <= inject_Z n <= hi)%Q)).
Proof.
  intros ar vals lo hi M Ilo Ihi B IV. destruct ar as [|x r]; [destruct Ilo|].
  destruct (amin_spec r x) as [N1 N2]. destruct (amax_spec r x) as [M1 M2].
  assert (EL : (amin x r == lo)%Q) by (apply Qle_antisym; [apply N2; exact Ilo|apply B; exact N1]).
  assert (EH : (amax x r == hi)%Q) by (apply Qle_antisym; [apply B; exact M1|apply M2; exact Ihi]).
  assert (LE : (lo <= hi)%Q) by exact (proj1 (B hi Ihi)).
  unfold find_idx. assert (MB : negb (nondecreasing (x :: r)) && negb (nonincreasing (x :: r)) = false).
  { destruct M as [M|M]; [apply nondecreasing_iff in M|apply nonincreasing_iff in M]; rewrite M; simpl; [reflexivity|apply andb_false_r]. }
  rewrite MB. cbv zeta. set (G := existsb _ _).
  assert (P : G = true <-> exists v, In v (map (clamp store_int (amin x r) (amax x r)) vals) /\ (amax x r < v)%Q) by apply past_end.
  rewrite if_none, P. clear P G.
  assert (UP := store_int_up). assert (UH := UP (amax x r)). assert (UL := UP (amin x r)).
  split.
  - intros [w [I H]]. apply in_map_iff in I. destruct I as [v [E I]]. subst w. unfold clamp in H.
    destruct (Qltb (amax x r) v) eqn:E1.
    + apply Qltb_true in E1. destruct (Qltb (store_int (amax x r)) (amin x r)) eqn:E2.
      * (* the low end is stored over the high one *) exfalso. apply Qltb_true in E2. destruct (proj1 UL ltac:(lra)) as [A1 A2].
        assert (Hm : (store_int (amax x r) < amax x r)%Q) by lra.
        unfold store_int in Hm, H. destruct (Qltb (amax x r) 0) eqn:E3; [pose proof (Qle_ceiling (amax x r)); lra|]. apply Qltb_false in E3.
        destruct (Qltb (amin x r) 0) eqn:E4; [|apply Qltb_false in E4; lra].
        pose proof (Qceiling_lt (amin x r)) as K. assert (K2 : (Qceiling (amin x r) <= 0)%Z). { rewrite <- (Qceiling_Z 0). apply Qceiling_resp_le. change (inject_Z 0) with 0%Q. lra. }
        assert (inject_Z (Qceiling (amin x r)) <= inject_Z 0)%Q by (rewrite <- Zle_Qle; exact K2). change (inject_Z 0) with 0%Q in *. lra.
      * destruct (proj1 UH H) as [A1 A2]. split; [lra|]. split; [intros n En; apply (A2 n); rewrite EH; exact En|]. exists v. split; [exact I|]. left. lra.
    + apply Qltb_false in E1. destruct (Qltb v (amin x r)) eqn:E2.
      * apply Qltb_true in E2. destruct (proj1 UL ltac:(lra)) as [A1 A2].
        assert (EC : store_int (amin x r) = inject_Z (Qceiling (amin x r))). { unfold store_int. destruct (Qltb (amin x r) 0) eqn:E3; [reflexivity|apply Qltb_false in E3; lra]. }
        rewrite EC in H.
        assert (NoI : forall n : Z, ~ (lo <= inject_Z n <= hi)%Q).
        { intros n [C1 C2]. assert (K : (Qceiling (amin x r) <= n)%Z). { rewrite <- (Qceiling_Z n). apply Qceiling_resp_le. lra. } assert (inject_Z (Qceiling (amin x r)) <= inject_Z n)%Q by (rewrite <- Zle_Qle; exact K). lra. }
        assert (K2 : (Qceiling (amin x r) <= 0)%Z). { rewrite <- (Qceiling_Z 0). apply Qceiling_resp_le. change (inject_Z 0) with 0%Q. lra. }
        assert (inject_Z (Qceiling (amin x r)) <= inject_Z 0)%Q by (rewrite <- Zle_Qle; exact K2). change (inject_Z 0) with 0%Q in *.
        split; [lra|]. split; [intros n En; apply (NoI n); lra|]. exists v. split; [exact I|]. right. split; [lra|exact NoI].
      * exfalso. lra.
  - intros (A1 & A2 & v & I & D).
    assert (U : (amax x r < store_int (amax x r))%Q) by (apply UH; split; [lra|intros n En; apply (A2 n); rewrite <- EH; exact En]).
    exists (clamp store_int (amin x r) (amax x r) v). split; [apply in_map; exact I|]. unfold clamp.
    destruct (Qltb (amax x r) v) eqn:E1.
    + destruct (Qltb (store_int (amax x r)) (amin x r)) eqn:E2; [apply Qltb_true in E2; lra|exact U].
    + apply Qltb_false in E1. destruct D as [D|[D NoI]]; [lra|]. destruct (Qltb v (amin x r)) eqn:E2; [|apply Qltb_false in E2; lra].
      assert (EC : store_int (amin x r) = inject_Z (Qceiling (amin x r))). { unfold store_int. destruct (Qltb (amin x r) 0) eqn:E3; [reflexivity|apply Qltb_false in E3; lra]. }
      rewrite EC. destruct (Qlt_le_dec (amax x r) (inject_Z (Qceiling (amin x r)))) as [L|L]; [exact L|]. exfalso. apply (NoI (Qceiling (amin x r))). pose proof (Qle_ceiling (amin x r)). lra.
Qed.
Print Assumptions C30_integer_raises_iff.
Example C30_integer_raises_iff_sat : find_idx store_int [- (3 # 2); - (1 # 2)]%Q [4]%Q = None /\ find_idx store_int [- (3 # 2); - (1 # 2)]%Q [- (1)]%Q <> None.
Proof. split; [reflexivity|discriminate]. Qed.

(** A constant array (also one of length one) gives NaN for every value. *)
Theorem C30_constant_nan : forall ar vals, ar <> [] -> constant ar ->
  exists vs, find_idx store_float ar vals = Some (vs, map (fun _ => None) vals).
Proof.
  intros ar vals NE K. destruct ar as [|x r]; [congruence|]. unfold find_idx.
  assert (A : ascending (x :: r)).
  { intros i Hi. rewrite (K (nth i (x :: r) 0%Q) (nth (S i) (x :: r) 0%Q)); [lra| |]; apply nth_In; lia. }
  assert (D : descending (x :: r)).
  { intros i Hi. rewrite (K (nth i (x :: r) 0%Q) (nth (S i) (x :: r) 0%Q)); [lra| |]; apply nth_In; lia. }
  pose proof (proj2 (nondecreasing_iff _) A) as A'. pose proof (proj2 (nonincreasing_iff _) D) as D'.
  rewrite A', D'. cbn [negb andb]. pose proof (floats_found x r true vals) as FF. cbv iota in FF. rewrite FF. eexists. f_equal. f_equal. rewrite map_map. apply map_ext_in. intros v _.
  set (c := clamp _ _ _ v). 
  assert (S0 : searchsorted (rev (x :: r)) c = 0).
  { destruct (rev (x :: r)) as [|y s] eqn:E; [reflexivity|]. cbn [searchsorted].
    destruct (Qltb y c) eqn:L; [|reflexivity]. apply Qltb_true in L.
    destruct (clamp_clamped x r v) as [_ [_ C2]]. fold c in C2.
    destruct (amax_spec r x) as [M1 M2]. rewrite (K (amax x r) y) in C2; auto; [lra|].
    apply in_rev. rewrite E. left. reflexivity. }
  unfold frac_index. rewrite S0.
  destruct (Qeq_bool _ 0) eqn:E; [reflexivity|]. apply Qeq_bool_neq in E. exfalso. apply E.
  rewrite last_nth. assert (L : 0 < length (rev (x :: r))) by (rewrite rev_length; simpl; lia).
  rewrite (K (nth 0 (rev (x :: r)) 0%Q) (nth (length (rev (x :: r)) - 1) (rev (x :: r)) 0%Q)); [ring| |];
    apply in_rev; apply nth_In; lia.
Qed.
Print Assumptions C30_constant_nan.
Example C30_constant_nan_sat : exists ar, ar <> [] /\ constant ar.
Proof. exists [3; 3; 3]%Q. split; [discriminate|]. intros x y [<- |[<- |[<- |[]]]] [<- |[<- |[<- |[]]]]; reflexivity. Qed.

(** If the values are an integer array, clamping truncates: 7 in [0, 1/2, 5/2] is found at
    2 instead of at the end of the array. *)
Theorem C30_integer_values_refuted :
  exists vs r, find_idx store_int [0; 1 # 2; 5 # 2]%Q [7 # 1]%Q = Some (vs, [Some r]) /\
    ~ clamped [0; 1 # 2; 5 # 2]%Q (7 # 1)%Q (nth 0 vs 0%Q) /\ (r < 2)%Q.
Proof.
  eexists. eexists. split; [reflexivity|]. split; [|reflexivity].
  intros [lo [hi [Hl [Hh [B [_ [C _]]]]]]]. simpl in C.
  assert (hi == (5 # 2))%Q.
  { assert ((5 # 2) <= hi)%Q by (apply (B (5 # 2)%Q); simpl; auto).
    destruct Hh as [<-|[<-|[<-|[]]]]; lra. }
  assert (L : (hi <= 7 # 1)%Q) by (rewrite H; lra). specialize (C L). rewrite H in C. 
  vm_compute in C. discriminate C.
Qed.
Print Assumptions C30_integer_values_refuted.

Example C30_sat : ascending [0; 1; 1; 3]%Q /\ ~ constant [0; 1; 1; 3]%Q /\
  find_idx store_float [0; 1; 1; 3]%Q [2]%Q <> None.
Proof.
  split; [|split].
  - intros [|[|[|[|i]]]] Hi; simpl in Hi; simpl; try lra; lia.
  - intro K. specialize (K 0%Q 1%Q ltac:(simpl; auto) ltac:(simpl; auto)). lra.
  - vm_compute. discriminate.
Qed.
