(** C44: coeval cubes. *)
From Coq Require Import List Arith ZArith QArith Bool Lia Lqa.
From Coq Require Import Sorting.Sorted.
From Verif Require Import QLib CoevalModel.
Import ListNotations.
Local Open Scope nat_scope.

(** File [j] is the one with the largest redshift below z, file [h] the one with the
    smallest redshift above z. *)
Definition just_below (zs : list Q) (z : Q) (j : nat) : Prop :=
  j < length zs /\ (nth j zs 0 < z)%Q /\ forall i, i < length zs -> (nth i zs 0 < z)%Q -> (nth i zs 0 <= nth j zs 0)%Q.
Definition just_above (zs : list Q) (z : Q) (h : nat) : Prop :=
  h < length zs /\ (z < nth h zs 0)%Q /\ forall i, i < length zs -> (z < nth i zs 0)%Q -> (nth h zs 0 <= nth i zs 0)%Q.

Lemma argmax_spec : forall l, l <> [] -> argmax l < length l /\ forall d k, k < length l -> (nth k l d <= nth (argmax l) l d)%Q.
Proof.
  induction l as [|x r IH]; intro N; [contradiction|]. cbn [argmax length].
  destruct r as [|y r'].
  - cbn [argmax nth]. assert (E : Qle_bool x x = true) by (apply Qle_bool_iff, Qle_refl). rewrite E.
    split; [lia|]. intros d k Hk. assert (k = 0) by (cbn [length] in Hk; lia). subst k. apply Qle_refl.
  - set (r := y :: r') in *. destruct (IH ltac:(discriminate)) as [I1 I2].
    assert (D : forall d, nth (argmax r) r d = nth (argmax r) r x) by (intro; apply nth_indep; exact I1).
    destruct (Qle_bool (nth (argmax r) r x) x) eqn:E.
    + apply Qle_bool_iff in E. split; [lia|]. intros d [|k] Hk; cbn [nth]; [apply Qle_refl|].
      eapply Qle_trans; [apply I2; lia|]. rewrite D. exact E.
    + apply Qle_bool_false in E. split; [lia|]. intros d [|k] Hk; cbn [nth].
      * rewrite D. apply Qlt_le_weak. exact E.
      * apply I2. lia.
Qed.
Lemma argmin_spec : forall l, l <> [] -> argmin l < length l /\ forall d k, k < length l -> (nth (argmin l) l d <= nth k l d)%Q.
Proof.
  induction l as [|x r IH]; intro N; [contradiction|]. cbn [argmin length].
  destruct r as [|y r'].
  - cbn [argmin nth]. assert (E : Qle_bool x x = true) by (apply Qle_bool_iff, Qle_refl). rewrite E.
    split; [lia|]. intros d k Hk. assert (k = 0) by (cbn [length] in Hk; lia). subst k. apply Qle_refl.
  - set (r := y :: r') in *. destruct (IH ltac:(discriminate)) as [I1 I2].
    assert (D : forall d, nth (argmin r) r d = nth (argmin r) r x) by (intro; apply nth_indep; exact I1).
    destruct (Qle_bool x (nth (argmin r) r x)) eqn:E.
    + apply Qle_bool_iff in E. split; [lia|]. intros d [|k] Hk; cbn [nth]; [apply Qle_refl|].
      eapply Qle_trans; [exact E|]. rewrite <- (D d). apply I2. lia.
    + apply Qle_bool_false in E. split; [lia|]. intros d [|k] Hk; cbn [nth].
      * rewrite D. apply Qlt_le_weak. exact E.
      * apply I2. lia.
Qed.
(** Each position of a filtered list comes from one position of the list. *)
Lemma filter_pos (P : Q -> bool) : forall l k, k < length (filter P l) ->
  exists i, i < length l /\ P (nth i l 0%Q) = true /\ nth k (filter P l) 0%Q = nth i l 0%Q /\ k = length (filter P (firstn i l)).
Proof.
  induction l as [|x l IH]; intros k Hk; [cbn in Hk; lia|]. cbn [filter] in *. destruct (P x) eqn:E.
  - destruct k as [|k].
    + exists 0. cbn [nth firstn filter length]. repeat split; auto. lia.
    + cbn [length] in Hk. destruct (IH k ltac:(lia)) as (i & I1 & I2 & I3 & I4). exists (S i). cbn [nth firstn filter length].
      rewrite E. cbn [length]. repeat split; auto; lia.
  - destruct (IH k Hk) as (i & I1 & I2 & I3 & I4). exists (S i). cbn [nth firstn filter length]. rewrite E. repeat split; auto. lia.
Qed.
Lemma filter_pos_inv (P : Q -> bool) : forall l i, i < length l -> P (nth i l 0%Q) = true ->
  exists k, k < length (filter P l) /\ nth k (filter P l) 0%Q = nth i l 0%Q.
Proof.
  intros l i Hi HP. assert (I : In (nth i l 0%Q) (filter P l)) by (apply filter_In; split; [apply nth_In; exact Hi|exact HP]).
  destruct (In_nth _ _ 0%Q I) as (k & K1 & K2). exists k. auto.
Qed.
Lemma filter_prefix_all {A} (P : A -> bool) (d : A) : forall l i, i <= length l ->
  (length (filter P (firstn i l)) = i <-> forall k, k < i -> P (nth k l d) = true).
Proof.
  induction l as [|x l IH]; intros i Hi.
  - cbn [length] in Hi. assert (i = 0) by lia. subst i. cbn. split; [intros _ k Hk; lia|reflexivity].
  - destruct i as [|i]; [cbn; split; [intros _ k Hk; lia|reflexivity]|]. cbn [length] in Hi. cbn [firstn filter].
    specialize (IH i ltac:(lia)). destruct (P x) eqn:E; cbn [length].
    + split.
      * intros H [|k] Hk; cbn [nth]; [exact E|]. apply IH; lia.
      * intro H. f_equal. apply IH. intros k Hk. specialize (H (S k) ltac:(lia)). exact H.
    + split.
      * intro H. exfalso. assert (F : forall u, length (filter P u) <= length u).
        { induction u as [|y u IHu]; cbn [filter length]; [lia|]. destruct (P y); cbn [length]; lia. }
        pose proof (F (firstn i l)) as F1. rewrite firstn_length in F1. lia.
      * intro H. specialize (H 0 ltac:(lia)). cbn [nth] in H. congruence.
Qed.

(** With [j] and [h] the positions of the right files, the files actually read are the
    ones as many places earlier as there are files before them on the other side of z. *)
Theorem C44_files_read : forall zs z, below zs z <> [] -> above zs z <> [] ->
  exists j h, just_below zs z j /\ just_above zs z h /\
    low_index zs z = length (filter (fun x => Qltb x z) (firstn j zs)) /\
    high_index zs z = length (filter (fun x => Qltb z x) (firstn h zs)) /\
    nth (low_index zs z) (below zs z) 0%Q = nth j zs 0%Q /\ nth (high_index zs z) (above zs z) 0%Q = nth h zs 0%Q /\
    (low_index zs z = j <-> forall i, i < j -> (nth i zs 0 < z)%Q) /\
    (high_index zs z = h <-> forall i, i < h -> (z < nth i zs 0)%Q).
Proof.
  intros zs z NB NA. destruct (argmax_spec _ NB) as [B1 B2]. destruct (argmin_spec _ NA) as [A1 A2].
  destruct (filter_pos (fun x => Qltb x z) zs (low_index zs z) B1) as (j & J1 & J2 & J3 & J4).
  destruct (filter_pos (fun x => Qltb z x) zs (high_index zs z) A1) as (h & H1 & H2 & H3 & H4).
  exists j, h. fold (below zs z) in J3. fold (above zs z) in H3.
  split; [|split; [|split; [exact J4|split; [exact H4|split; [exact J3|split; [exact H3|split]]]]]].
  - split; [exact J1|]. split; [apply Qltb_true; exact J2|]. intros i Hi Lt. apply Qltb_true in Lt.
    destruct (filter_pos_inv (fun x => Qltb x z) zs i Hi Lt) as (k & K1 & K2). rewrite <- K2, <- J3. apply B2. exact K1.
  - split; [exact H1|]. split; [apply Qltb_true; exact H2|]. intros i Hi Lt. apply Qltb_true in Lt.
    destruct (filter_pos_inv (fun x => Qltb z x) zs i Hi Lt) as (k & K1 & K2). rewrite <- K2, <- H3. apply A2. exact K1.
  - rewrite J4 at 1. rewrite (filter_prefix_all _ 0%Q zs j) by lia. split; intros H k Hk; apply Qltb_true; apply H; exact Hk.
  - rewrite H4 at 1. rewrite (filter_prefix_all _ 0%Q zs h) by lia. split; intros H k Hk; apply Qltb_true; apply H; exact Hk.
Qed.
Print Assumptions C44_files_read.
Example C44_files_read_sat : exists (zs : list Q) (z : Q), below zs z <> [] /\ above zs z <> [].
Proof. exists [6; 7; 8]%Q, (13#2)%Q. split; vm_compute; discriminate. Qed.

(** For distinct redshifts the code never reads the right pair of files. *)
Theorem C44_wrong_pair : forall zs z j h,
  (forall i k, i < length zs -> k < length zs -> (nth i zs 0 == nth k zs 0)%Q -> i = k) ->
  just_below zs z j -> just_above zs z h -> ~ (low_index zs z = j /\ high_index zs z = h).
Proof.
  intros zs z j h U (J1 & J2 & J3) (H1 & H2 & H3) [EJ EH].
  assert (NB : below zs z <> []).
  { intro E. assert (I : In (nth j zs 0%Q) (below zs z)) by (apply filter_In; split; [apply nth_In; exact J1|apply Qltb_true; exact J2]).
    rewrite E in I. contradiction. }
  assert (NA : above zs z <> []).
  { intro E. assert (I : In (nth h zs 0%Q) (above zs z)) by (apply filter_In; split; [apply nth_In; exact H1|apply Qltb_true; exact H2]).
    rewrite E in I. contradiction. }
  destruct (C44_files_read zs z NB NA) as (j' & h' & (a1 & a2 & a3) & (b1 & b2 & b3) & _ & _ & _ & _ & IJ & IH).
  assert (j' = j) by (apply U; auto; apply Qle_antisym; [apply J3|apply a3]; auto).
  assert (h' = h) by (apply U; auto; apply Qle_antisym; [apply b3|apply H3]; auto).
  subst j' h'. pose proof (proj1 IJ EJ) as PJ. pose proof (proj1 IH EH) as PH.
  destruct (Nat.lt_trichotomy j h) as [D|[D|D]].
  - specialize (PH j D). lra.
  - rewrite D in J2. lra.
  - specialize (PJ h D). lra.
Qed.
Print Assumptions C44_wrong_pair.
Example C44_wrong_pair_sat : exists (zs : list Q) (z : Q) (j : nat) (h : nat), ((forall i k, i < length zs -> k < length zs -> (nth i zs 0 == nth k zs 0)%Q -> i = k)) /\ just_below zs z j /\ just_above zs z h.
Proof. exists [6; 7; 8]%Q, (13#2)%Q, 0, 1. split. { intros [|[|[|i]]] [|[|[|k]]] A B E; cbn in A, B; try lia; cbn in E; discriminate. }
  split; (split; [cbn; lia|]; split; [reflexivity|]; intros [|[|[|i]]] A B; cbn in A; try lia; cbn in *; unfold Qle, Qlt in *; cbn in *; lia). Qed.

(** When the files are listed by increasing redshift the lower file is right and the
    other file is the first of the list. *)
Lemma filter_all_false {A} (P : A -> bool) : forall l, (forall x, In x l -> P x = false) -> filter P l = [].
Proof.
  induction l as [|x l IH]; intro H; [reflexivity|]. cbn [filter]. rewrite (H x (or_introl eq_refl)). apply IH.
  intros y I. apply H. right. exact I.
Qed.
Theorem C44_increasing : forall zs z j, (forall i k, i < k -> k < length zs -> (nth i zs 0 < nth k zs 0)%Q) ->
  just_below zs z j -> above zs z <> [] -> low_index zs z = j /\ high_index zs z = 0.
Proof.
  intros zs z j Inc (J1 & J2 & J3) NA.
  assert (NB : below zs z <> []).
  { intro E. assert (I : In (nth j zs 0%Q) (below zs z)) by (apply filter_In; split; [apply nth_In; exact J1|apply Qltb_true; exact J2]).
    rewrite E in I. contradiction. }
  destruct (C44_files_read zs z NB NA) as (j' & h & (a1 & a2 & a3) & (b1 & b2 & b3) & _ & EH & _ & _ & IJ & _).
  assert (j' = j).
  { pose proof (J3 j' a1 a2). pose proof (a3 j J1 J2). destruct (Nat.lt_trichotomy j j') as [D|[D|D]]; auto.
    - specialize (Inc j j' D a1). lra.
    - specialize (Inc j' j D J1). lra. }
  subst j'. split.
  - apply IJ. intros i Hi. specialize (Inc i j Hi J1). lra.
  - rewrite EH. rewrite filter_all_false; [reflexivity|]. intros x I. apply Qltb_false.
    destruct (In_nth _ _ 0%Q I) as (k & K1 & K2). rewrite firstn_length in K1.
    assert (K3 : nth k (firstn h zs) 0%Q = nth k zs 0%Q).
    { clear -K1. revert h K1. generalize k. induction zs as [|y l IHl]; intros k0 h K; [cbn in K; lia|].
      destruct h as [|h]; [cbn in K; lia|]. destruct k0 as [|k0]; [reflexivity|]. cbn [firstn nth]. apply IHl. cbn [length] in K. lia. }
    rewrite <- K2, K3. destruct (Qlt_le_dec z (nth k zs 0%Q)) as [D|D]; [|exact D].
    pose proof (b3 k ltac:(lia) D). specialize (Inc k h ltac:(lia) b1). lra.
Qed.
Print Assumptions C44_increasing.
Example C44_increasing_sat : exists (zs : list Q) (z : Q) (j : nat), ((forall i k, i < k -> k < length zs -> (nth i zs 0 < nth k zs 0)%Q)) /\ just_below zs z j /\ above zs z <> [].
Proof. exists [6; 7; 8]%Q, (13#2)%Q, 0. split. { intros [|[|[|i]]] [|[|[|k]]] A B; cbn in A, B; try lia; reflexivity. }
  split; [|vm_compute; discriminate]. split; [cbn; lia|]; split; [reflexivity|]; intros [|[|[|i]]] A B; cbn in A; try lia; cbn in *; unfold Qle, Qlt in *; cbn in *; lia. Qed.

(** The result: an interpolation with the right redshifts, of the files at the two
    positions above; never when the redshift itself is on disk. *)
Theorem C44_result : forall zs cubes z, length cubes = length zs ->
  (coeval_xfrac zs cubes z <> None <->
    (forall x, In x zs -> ~ (x == z)%Q) /\ (exists x, In x zs /\ (x < z)%Q) /\ (exists x, In x zs /\ (z < x)%Q)) /\
  (forall r, coeval_xfrac zs cubes z = Some r -> exists j h, just_below zs z j /\ just_above zs z h /\
    r = blend (nth (low_index zs z) cubes []) (nth (high_index zs z) cubes []) z (nth j zs 0%Q) (nth h zs 0%Q)).
Proof.
  intros zs cubes z L.
  assert (LB : forall P l, length (filter P l) <= @length Q l).
  { intros P l. induction l as [|y u IHu]; cbn [filter length]; [lia|]. destruct (P y); cbn [length]; lia. }
  assert (G : forall (NB : below zs z <> []) (NA : above zs z <> []),
    nth_error cubes (low_index zs z) = Some (nth (low_index zs z) cubes []) /\
    nth_error cubes (high_index zs z) = Some (nth (high_index zs z) cubes [])).
  { intros NB NA. split; apply nth_error_nth'.
    - eapply Nat.lt_le_trans; [apply (argmax_spec _ NB)|]. rewrite L. apply LB.
    - eapply Nat.lt_le_trans; [apply (argmin_spec _ NA)|]. rewrite L. apply LB. }
  assert (PB : present zs z = false <-> forall x, In x zs -> ~ (x == z)%Q).
  { unfold present. rewrite <- not_true_iff_false, existsb_exists. split.
    - intros H x I E. apply H. exists x. split; [exact I|]. apply Qeq_bool_iff. exact E.
    - intros H (x & I & E). apply Qeq_bool_iff in E. exact (H x I E). }
  assert (EB : below zs z <> [] <-> exists x, In x zs /\ (x < z)%Q).
  { split.
    - intro N. destruct (below zs z) as [|x r] eqn:E; [contradiction|]. assert (I : In x (below zs z)) by (rewrite E; left; reflexivity).
      apply filter_In in I. exists x. rewrite <- Qltb_true. exact I.
    - intros (x & I & Lt) E. assert (J : In x (below zs z)) by (apply filter_In; rewrite Qltb_true; auto). rewrite E in J. contradiction. }
  assert (EA : above zs z <> [] <-> exists x, In x zs /\ (z < x)%Q).
  { split.
    - intro N. destruct (above zs z) as [|x r] eqn:E; [contradiction|]. assert (I : In x (above zs z)) by (rewrite E; left; reflexivity).
      apply filter_In in I. exists x. rewrite <- Qltb_true. exact I.
    - intros (x & I & Lt) E. assert (J : In x (above zs z)) by (apply filter_In; rewrite Qltb_true; auto). rewrite E in J. contradiction. }
  rewrite <- PB, <- EB, <- EA. clear PB EB EA. unfold coeval_xfrac. split.
  - destruct (present zs z); [split; [congruence|intros [H _]; discriminate]|].
    destruct (below zs z) as [|b bs]; [split; [congruence|tauto]|].
    destruct (above zs z) as [|a as']; [split; [congruence|tauto]|].
    destruct (G ltac:(discriminate) ltac:(discriminate)) as [G1 G2]. rewrite G1, G2.
    split; [intros _; repeat split; congruence|discriminate].
  - intros r E. destruct (present zs z); [discriminate|].
    assert (NB : below zs z <> []) by (intro N; rewrite N in E; discriminate).
    assert (NA : above zs z <> []) by (intro N; rewrite N in E; destruct (below zs z); discriminate).
    destruct (G NB NA) as [G1 G2]. rewrite G1, G2 in E.
    destruct (C44_files_read zs z NB NA) as (j & h & J & H & _ & _ & E1 & E2 & _). exists j, h. split; [exact J|]. split; [exact H|].
    rewrite E1, E2 in E. destruct (below zs z); [contradiction|]. destruct (above zs z); [contradiction|]. congruence.
Qed.
Print Assumptions C44_result.

(** The value in each cell: the straight line through the two files' values at their two redshifts, in
    particular each file's own value at its redshift. *)
Theorem C44_blend : forall l h z z_l z_h i, length l = length h -> i < length l -> (z_l < z_h)%Q ->
  let v := nth i (blend l h z z_l z_h) 0%Q in
  ((v - nth i l 0) * (z_h - z_l) == (nth i h 0 - nth i l 0) * (z - z_l))%Q /\
  ((z == z_l -> v == nth i l 0) /\ (z == z_h -> v == nth i h 0))%Q.
Proof.
  intros l h z z_l z_h i L Hi Lt v.
  assert (E : v = (nth i h 0 + (nth i l 0 - nth i h 0) * (z - z_h) / (z_l - z_h))%Q).
  { unfold v, blend. set (f := fun p : Q * Q => (snd p + (fst p - snd p) * (z - z_h) / (z_l - z_h))%Q).
    rewrite (nth_indep _ 0%Q (f (0%Q, 0%Q))) by (rewrite map_length, combine_length; lia). rewrite map_nth, combine_nth by exact L. reflexivity. }
  assert (N : ~ (z_l - z_h == 0)%Q) by lra. rewrite E. split; [field; exact N|]. split; intro Z; rewrite Z; field; exact N.
Qed.
Print Assumptions C44_blend.
Example C44_blend_sat : exists (l : list Q) (h : list Q) (z_l : Q) (z_h : Q) (i : nat), length l = length h /\ i < length l /\ (z_l < z_h)%Q.
Proof. exists [1; 2]%Q, [3; 5]%Q, 6%Q, 8%Q, 1%nat. repeat split; first [lra | lia | reflexivity | discriminate | congruence | auto]. Qed.

(** The density variant scales one file; it is the nearest file above z exactly when all
    files listed before that one are above z too. *)
Theorem C44_density : forall zs cubes z, length cubes = length zs ->
  (forall x, In x zs -> ~ (x == z)%Q) -> above zs z <> [] ->
  exists h, just_above zs z h /\
    (high_index zs z = h <-> forall i, i < h -> (z < nth i zs 0)%Q) /\
    coeval_dens_c2ray zs cubes z = Some (map (fun x => (x * Qpower (1 + nth h zs 0) 3 / Qpower (1 + z) 3)%Q) (nth (high_index zs z) cubes [])).
Proof.
  intros zs cubes z L NP NA. destruct (argmin_spec _ NA) as [A1 A2].
  destruct (filter_pos (fun x => Qltb z x) zs (high_index zs z) A1) as (h & H1 & H2 & H3 & H4). fold (above zs z) in H3.
  exists h. split; [|split].
  - split; [exact H1|]. split; [apply Qltb_true; exact H2|]. intros i Hi Lt. apply Qltb_true in Lt.
    destruct (filter_pos_inv (fun x => Qltb z x) zs i Hi Lt) as (k & K1 & K2). rewrite <- K2, <- H3. apply A2. exact K1.
  - rewrite H4 at 1. rewrite (filter_prefix_all _ 0%Q zs h) by lia. split; intros H k Hk; apply Qltb_true; apply H; exact Hk.
  - unfold coeval_dens_c2ray. assert (P : present zs z = false).
    { unfold present. rewrite <- not_true_iff_false, existsb_exists. intros (x & I & E). apply Qeq_bool_iff in E. exact (NP x I E). }
    rewrite P. assert (LB : forall l, length (filter (fun x => Qltb z x) l) <= @length Q l).
    { intros l. induction l as [|y u IHu]; cbn [filter length]; [lia|]. destruct (Qltb z y); cbn [length]; lia. }
    rewrite (nth_error_nth' cubes []); [|rewrite L; eapply Nat.lt_le_trans; [exact A1|apply LB]].
    rewrite H3. destruct (above zs z); [contradiction|reflexivity].
Qed.
Print Assumptions C44_density.
Example C44_density_sat : exists zs (cubes : list (list Q)) z, length cubes = length zs /\ (forall x, In x zs -> ~ (x == z)%Q) /\ above zs z <> [].
Proof. exists [6; 7; 8]%Q, [[1]; [2]; [3]]%Q, (13#2)%Q. split; [reflexivity|]. split; [intros x [<-|[<-|[<-|[]]]]; discriminate|vm_compute; discriminate]. Qed.

Example C44_sat : let zs := [6#1; 7#1; 8#1; 9#1]%Q in
  low_index zs (15#2)%Q = 1 /\ high_index zs (15#2)%Q = 0 /\ just_below zs (15#2)%Q 1 /\ just_above zs (15#2)%Q 2 /\
  coeval_xfrac zs [[1#1];[2#1];[3#1];[4#1]]%Q (15#2)%Q <> None.
Proof.
  cbv zeta. split; [reflexivity|]. split; [reflexivity|]. split; [|split; [|vm_compute; discriminate]].
  - split; [cbn; lia|]. split; [reflexivity|]. intros i Hi Lt. do 4 (destruct i as [|i]; [cbn [nth] in *; lra|]). cbn in Hi; lia.
  - split; [cbn; lia|]. split; [reflexivity|]. intros i Hi Lt. do 4 (destruct i as [|i]; [cbn [nth] in *; lra|]). cbn in Hi; lia.
Qed.
