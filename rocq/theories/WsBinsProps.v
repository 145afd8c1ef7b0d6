(** More of C78: what each bin of the watershed size distribution counts. *)
From Coq Require Import List ZArith Reals Lia Lra Sorted Permutation.
From Verif Require Import WsModel WsProps.
Import ListNotations.
Local Open Scope R_scope.

(** The size belonging to a label is the radius of a ball of that volume... *)
Theorem C78_radius : forall v, 0 < v -> 0 < radius v /\ 4 / 3 * PI * radius v ^ 3 = v.
Proof. intros v H. split; [apply radius_pos|]. rewrite radius_cube by exact H. pose proof PI_bounds. field. lra. Qed.
Print Assumptions C78_radius.
Example C78_radius_sat : exists (v : R), 0 < v.
Proof. exists 2. repeat split; first [lra | lia | reflexivity | discriminate | congruence | auto]. Qed.

Lemma filter_map_length : forall {A B} (p : B -> bool) (g : A -> B) l, length (filter p (map g l)) = length (filter (fun x => p (g x)) l).
Proof. intros A B p g l. induction l as [|x l IH]; [reflexivity|]. cbn [map filter]. destruct (p (g x)); cbn [length]; now rewrite IH. Qed.
Lemma filter_perm_length : forall {A} (p : A -> bool) l l', Permutation l l' -> length (filter p l) = length (filter p l').
Proof. intros A p l l' H. induction H as [|x l l' H IH|x y l|l l' l'' H1 IH1 H2 IH2]; [reflexivity| | |congruence]; cbn [filter]; [destruct (p x); cbn [length]; congruence|destruct (p x), (p y); reflexivity]. Qed.
Lemma sorted_nodup : forall l, StronglySorted Z.lt l -> NoDup l.
Proof. intros l H. induction H as [|u r H IH F]; constructor; [|exact IH]. intro I. rewrite Forall_forall in F. specialize (F u I). lia. Qed.

(** ... and the k-th bin holds the share of the labels whose size is k cells to the nearest half cell, upper bound excluded
    except in the last bin. The number of bins is one more than the largest size rounded down, so labels whose size exceeds
    that by more than one half are in no bin. *)
Theorem C78_values : forall labels box n rs fl f ls, NoDup ls -> (forall v, In v ls <-> is_region labels v) ->
  watershed_bsd labels box n = Some (rs, fl, f) ->
  (exists v, In v ls /\ INR (length f) - 1 <= radius (IZR v)) /\ (forall v, In v ls -> radius (IZR v) < INR (length f)) /\
  exists T, 0 < T /\ forall k (sel : Z -> bool), (k < length f)%nat ->
    (forall v, In v ls -> (sel v = true <-> INR k - 1 / 2 <= radius (IZR v) /\ (radius (IZR v) < INR k + 1 / 2 \/ (radius (IZR v) = INR k + 1 / 2 /\ S k = length f)))) ->
    nth k f 0 * T = INR (length (filter sel ls)).
Proof.
  intros labels box n rs fl f ls ND HL E. unfold watershed_bsd in E.
  assert (P : Permutation (unique_labels labels) ls).
  { apply NoDup_Permutation; [apply sorted_nodup, unique_sorted|exact ND|]. intro v. rewrite unique_in, HL. reflexivity. }
  destruct (unique_labels labels) as [|u0 ul] eqn:U; [discriminate|]. rewrite <- U in P.
  set (rl := r_list labels) in *. set (es := edges rl) in *. set (h := histogram es rl) in *.
  destruct (Req_EM_T (total h) 0) as [Z0|Z0]; [discriminate|].
  assert (Ef : f = map (fun v => v / total h) h) by congruence. clear E.
  assert (RLn : rl <> []) by (unfold rl, r_list; rewrite U; discriminate).
  assert (INl : forall v, In v ls -> In (radius (IZR v)) rl).
  { intros v Hv. unfold rl, r_list. apply in_map_iff. exists v. split; [reflexivity|]. eapply Permutation_in; [apply Permutation_sym; exact P|exact Hv]. }
  assert (RM : exists v, largest rl = radius (IZR v) /\ In v (unique_labels labels)).
  { assert (G : forall r, In r rl -> exists v, r = radius (IZR v) /\ In v (unique_labels labels)) by (intros r Hr; unfold rl, r_list in Hr; apply in_map_iff in Hr as [v [Ev Iv]]; exists v; auto).
    exact (G _ (largest_in rl RLn)). }
  assert (LP : 0 < largest rl) by (destruct RM as [v [Ev _]]; rewrite Ev; apply radius_pos).
  set (z := Int_part (largest rl + 2)) in *. destruct (base_Int_part (largest rl + 2)) as [B1 B2]. fold z in B1, B2.
  assert (Zp : (2 <= z)%Z). { assert (1 < z)%Z; [|lia]. apply lt_IZR. lra. }
  assert (Le : length es = Z.to_nat z) by (unfold es; now rewrite edges_length).
  assert (Lf : length f = (Z.to_nat z - 1)%nat) by (rewrite Ef, map_length; unfold h, histogram; now rewrite map_length, seq_length, Le).
  assert (Lz : INR (length f) = IZR z - 1) by (rewrite Lf, minus_INR, INR_IZR_INZ, Z2Nat.id by lia; cbn [INR]; lra).
  split; [|split].
  - destruct RM as [v [Ev Iv]]. exists v. split; [eapply Permutation_in; [exact P|exact Iv]|]. rewrite Lz, <- Ev. lra.
  - intros v Hv. pose proof (largest_ge rl _ (INl v Hv)). rewrite Lz. lra.
  - assert (Hp : 0 < total h).
    { assert (G : forall l, (forall x, In x l -> 0 <= x) -> 0 <= total l).
      { intro l. induction l as [|x l IH]; intro G; cbn [total fold_right]; [lra|]. pose proof (G x (or_introl eq_refl)). specialize (IH (fun y Hy => G y (or_intror Hy))). unfold total in IH. lra. }
      specialize (G h (histogram_nonneg es rl)). lra. }
    exists (total h). split; [exact Hp|]. intros k sel Hk S.
    assert (Kh : (k < length es - 1)%nat) by (rewrite Le, <- Lf; exact Hk).
    rewrite Ef. rewrite (nth_indep _ 0 (0 / total h)) by (rewrite map_length; unfold h, histogram; now rewrite map_length, seq_length).
    rewrite (map_nth (fun v => v / total h)). unfold h at 1, histogram.
    rewrite (nth_indep _ 0 (INR (length (filter (in_bin es 0) rl)))) by (now rewrite map_length, seq_length).
    rewrite (map_nth (fun k => INR (length (filter (in_bin es k) rl)))), seq_nth by exact Kh. cbn [Nat.add].
    unfold rl at 1, r_list. rewrite filter_map_length. rewrite (filter_perm_length _ _ _ P).
    rewrite (filter_ext_in (fun x => in_bin es k (radius (IZR x))) sel); [field; lra|].
    intros v Hv. specialize (S v Hv). unfold in_bin. unfold es. rewrite !edges_nth by (fold es; lia). fold es.
    rewrite S_INR. assert (SK : Nat.eqb (Datatypes.S (Datatypes.S k)) (length es) = Nat.eqb (Datatypes.S k) (length f)).
    { rewrite Le, Lf. destruct (Nat.eqb_spec (Datatypes.S k) (Z.to_nat z - 1)); [apply Nat.eqb_eq|apply Nat.eqb_neq]; lia. }
    rewrite SK. set (r := radius (IZR v)) in *. symmetry.
    destruct (Rle_dec (INR k - 0.5) r) as [A|A].
    + destruct (Rlt_dec r (INR k + 1 - 0.5)) as [C|C].
      * apply S. split; [lra|left; lra].
      * destruct (Req_EM_T r (INR k + 1 - 0.5)) as [D|D].
        -- destruct (Nat.eqb_spec (Datatypes.S k) (length f)) as [F|F].
           ++ apply S. split; [lra|right; split; [lra|exact F]].
           ++ destruct (sel v); [|reflexivity]. exfalso. destruct (proj1 S eq_refl) as [_ [X|[_ X]]]; [lra|contradiction].
        -- destruct (sel v); [|reflexivity]. exfalso. destruct (proj1 S eq_refl) as [_ [X|[X _]]]; lra.
    + destruct (sel v); [|reflexivity]. exfalso. destruct (proj1 S eq_refl) as [X _]. lra.
Qed.
Print Assumptions C78_values.

Example C78_values_sat : NoDup [1; 2; 3; 4; 5]%Z /\ (forall v, In v [1; 2; 3; 4; 5]%Z <-> is_region [1; 2; 3; 4; 5; 0; 5]%Z v).
Proof. split; [repeat constructor; cbn; intuition congruence|]. intro v. unfold is_region. cbn. intuition lia. Qed.
