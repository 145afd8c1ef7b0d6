(** C90: tapers are multiplied into the caller's array. *)
From Coq Require Import String Ascii.
From Coq Require Import List Arith Reals Lra Lia Bool.
From Verif Require Import RLib FourierModel WindowModel.
Import ListNotations.
Local Open Scope R_scope.

(** * Specification *)
(** The taper a window argument stands for. *)
Inductive taper := Flat | BlackmanHarris | Tukey.
Definition names (w : window) (t : taper) : Prop :=
  match w, t with NoWindow, Flat => True | Name s, BlackmanHarris => lower s = "blackmanharris"%string | Name s, Tukey => lower s = "tukey"%string | _, _ => False end.
Definition taper_value (t : taper) (M k : nat) : R := match t with Flat => 1 | BlackmanHarris => blackmanharris M k | Tukey => tukey M k end.

(** A window is usable iff it is absent or one of the two names in any capitalisation, and then only for floating-point arrays of at least three
    axes: the documented windows given as arrays are refused. *)
Theorem C90_accepted : forall d w, (exists d', apply_window d w = Some d') <-> exists t, names w t /\ (t = Flat \/ (floating d = true /\ (3 <= length (dims d))%nat)).
Proof.
  intros d w. unfold apply_window, multiply. split.
  - intros [d' H]. destruct w as [|s|v]; [exists Flat; cbn; auto| |discriminate]. destruct (String.eqb_spec (lower s) "blackmanharris") as [E|_].
    + exists BlackmanHarris. split; [exact E|]. destruct (floating d); [|discriminate]. destruct (Nat.leb_spec 3 (length (dims d))); [auto|discriminate].
    + destruct (String.eqb_spec (lower s) "tukey") as [E|_]; [|discriminate]. exists Tukey. split; [exact E|]. destruct (floating d); [|discriminate]. destruct (Nat.leb_spec 3 (length (dims d))); [auto|discriminate].
  - intros (t & N & H). destruct w as [|s|v]; destruct t; cbn in N; try contradiction; [eexists; reflexivity| |]; destruct H as [H|[F L]]; try discriminate; rewrite N, F; cbn [String.eqb Ascii.eqb Bool.eqb andb]; destruct (Nat.leb_spec 3 (length (dims d))); try lia; eexists; reflexivity.
Qed.
Print Assumptions C90_accepted.
(** The tapered value depends on the position along the last axis only, whichever axis is the line of sight. *)
Theorem C90_value : forall d w t d', names w t -> apply_window d w = Some d' -> dims d' = dims d /\ floating d' = floating d /\ forall i, content d' i = content d i * taper_value t (last (dims d) 0%nat) (last i 0%nat).
Proof.
  intros d w t d' N H. unfold apply_window, multiply in H. destruct w as [|s|v]; destruct t; cbn in N; try contradiction.
  - injection H as <-. repeat split; auto. intro. cbn. ring.
  - rewrite N in H. cbn [String.eqb Ascii.eqb Bool.eqb] in H. destruct (floating d) eqn:F; [|discriminate]. destruct (3 <=? length (dims d))%nat; [|discriminate]. injection H as <-. repeat split; auto.
  - rewrite N in H. cbn [String.eqb Ascii.eqb Bool.eqb] in H. destruct (floating d) eqn:F; [|discriminate]. destruct (3 <=? length (dims d))%nat; [|discriminate]. injection H as <-. repeat split; auto.
Qed.
Print Assumptions C90_value.
Example C90_value_sat : exists (d : data) (w : window) (t : taper) (d' : data), names w t /\ apply_window d w = Some d'.
Proof. eexists (Data [2; 2; 3]%nat true (fun _ => 1)), (Name "Tukey"%string), Tukey, _. split; [reflexivity|reflexivity]. Qed.
Example C90_sat : names (Name "BlackmanHarris") BlackmanHarris /\ names (Name "TUKEY") Tukey /\ exists d', apply_window (Data [2; 2; 3]%nat true (fun _ => 1)) (Name "Tukey") = Some d'.
Proof. repeat split. eexists. reflexivity. Qed.

(** Over any history of calls with accepted windows the caller's array ends up multiplied with all tapers, and each statistic is that of the
    array multiplied with all tapers so far. *)
Lemma calls_dims : forall {T} (stat : data -> T) ws d, dims (fst (calls stat d ws)) = dims d /\ floating (fst (calls stat d ws)) = floating d.
Proof.
  intros T stat. induction ws as [|w ws IH]; intro d; [split; reflexivity|]. cbn [calls]. unfold spectrum_call. destruct (apply_window d w) as [d1|] eqn:A.
  - assert (E : dims d1 = dims d /\ floating d1 = floating d).
    { unfold apply_window, multiply in A. destruct w as [|s|v]; [injection A as <-; auto| |discriminate]. destruct (String.eqb (lower s) "blackmanharris"); [|destruct (String.eqb (lower s) "tukey"); [|discriminate]]; destruct (floating d) eqn:F; try discriminate; destruct (3 <=? length (dims d))%nat; try discriminate; injection A as <-; auto. }
    specialize (IH d1). destruct (calls stat d1 ws). cbn [fst] in *. destruct IH, E. split; congruence.
  - specialize (IH d). destruct (calls stat d ws). cbn [fst] in *. exact IH.
Qed.
Definition product_of (ts : list taper) (M k : nat) : R := fold_right (fun t p => taper_value t M k * p) 1 ts.
Theorem C90_history : forall {T} (stat : data -> T) ts ws d, Forall2 names ws ts -> floating d = true -> (3 <= length (dims d))%nat ->
  (forall i, content (fst (calls stat d ws)) i = content d i * product_of ts (last (dims d) 0%nat) (last i 0%nat)) /\
  (forall m, (m < length ws)%nat -> exists d', nth_error (snd (calls stat d ws)) m = Some (Some (stat d')) /\ d' = fst (calls stat d (firstn (S m) ws)) /\ forall i, content d' i = content d i * product_of (firstn (S m) ts) (last (dims d) 0%nat) (last i 0%nat)).
Proof.
  intros T stat ts ws d F FL L. revert d FL L. induction F as [|w t ws ts N F IH]; intros d FL L.
  - split; [intro; cbn; ring|]. intros m Hm. cbn in Hm. lia.
  - destruct (proj2 (C90_accepted d w)) as [d1 A]; [exists t; split; [exact N|right; split; assumption]|]. destruct (C90_value d w t d1 N A) as (D1 & F1 & V1).
    assert (FL1 : floating d1 = true) by congruence. assert (L1 : (3 <= length (dims d1))%nat) by (rewrite D1; exact L). destruct (IH d1 FL1 L1) as [I1 I2]. rewrite D1 in I1, I2. cbn [calls]. unfold spectrum_call. rewrite A. split.
    + intro i. destruct (calls stat d1 ws) as [d2 os] eqn:C. cbn [fst] in *. rewrite I1, V1. cbn [product_of fold_right]. unfold product_of. ring.
    + intros m Hm. destruct m as [|m].
      * exists d1. destruct (calls stat d1 ws) as [d2 os]. cbn [snd nth_error firstn calls]. unfold spectrum_call. rewrite A. cbn [fst]. split; [reflexivity|]. split; [reflexivity|]. intro i. rewrite V1. cbn [product_of firstn fold_right]. ring.
      * destruct (I2 m ltac:(cbn in Hm; lia)) as (d' & E1 & E2 & E3). exists d'. destruct (calls stat d1 ws) as [d2 os] eqn:C. cbn [snd nth_error] in *. split; [exact E1|]. split.
        -- cbn [firstn calls]. unfold spectrum_call. rewrite A. cbn [firstn] in E2. destruct (calls stat d1 (match ws with [] => [] | a :: l => a :: firstn m l end)) as [d3 os3] eqn:C3. cbn [fst] in *. exact E2.
        -- intro i. rewrite E3, V1. cbn [firstn product_of fold_right]. unfold product_of. ring.
Qed.
Print Assumptions C90_history.
Example C90_history_sat : exists (ts : list taper) (ws : list window) (d : data), Forall2 names ws ts /\ floating d = true /\ (3 <= length (dims d))%nat.
Proof. exists [Tukey; Flat; BlackmanHarris], [Name "TUKEY"%string; NoWindow; Name "BlackmanHarris"%string], (Data [2; 2; 3]%nat true (fun _ => 1)). split; [repeat constructor|]. split; [reflexivity|cbn; lia]. Qed.
(** Without a window nothing changes; with an unusable one the call fails and the array is untouched. *)
Theorem C90_untouched : forall {T} (stat : data -> T) d w, (w = NoWindow -> spectrum_call stat d w = (d, Some (stat d))) /\ (apply_window d w = None -> spectrum_call stat d w = (d, None)) /\ (forall v, spectrum_call stat d (Table v) = (d, None)).
Proof. intros T stat d w. split; [intros ->; reflexivity|]. split; [intro H; unfold spectrum_call; rewrite H; reflexivity|reflexivity]. Qed.
Print Assumptions C90_untouched.

(** * The tapers *)
Lemma bh_poly : forall x, 0.35875 + 0.48829 * cos x + 0.14128 * cos (2 * x) + 0.01168 * cos (3 * x) = 0.00006 + (1 + cos x) * (0.21741 + 0.23584 * cos x + 0.04672 * cos x ^ 2).
Proof.
  intro x. assert (C2 : cos (2 * x) = 2 * cos x ^ 2 - 1) by (rewrite cos_2a_cos; ring). assert (C3 : cos (3 * x) = 4 * cos x ^ 3 - 3 * cos x).
  { replace (3 * x) with (2 * x + x) by ring. rewrite cos_plus, C2, sin_2a. replace (2 * sin x * cos x * sin x) with (2 * (Rsqr (sin x)) * cos x) by (unfold Rsqr; ring). rewrite sin2. unfold Rsqr. ring. }
  rewrite C2, C3. lra.
Qed.
Lemma bh_bounds : forall x, 0.00006 <= 0.35875 + 0.48829 * cos x + 0.14128 * cos (2 * x) + 0.01168 * cos (3 * x) <= 1.
Proof.
  intro x. rewrite bh_poly. pose proof (COS_bound x) as [A B]. set (c := cos x) in *. clearbody c. assert (Q1 : 0 <= 0.21741 + 0.23584 * c + 0.04672 * c ^ 2).
  { assert (E : 0.21741 + 0.23584 * c + 0.04672 * c ^ 2 = 0.02829 + (1 + c) * (0.18912 + 0.04672 * c)) by lra. nra. }
  nra.
Qed.
Lemma cos_turn : forall x k, cos (2 * INR k * PI - x) = cos x.
Proof. intros x k. rewrite <- (cos_neg (2 * INR k * PI - x)). replace (- (2 * INR k * PI - x)) with (x - 2 * INR k * PI) by ring. rewrite <- (cos_period (x - 2 * INR k * PI) k). f_equal. ring. Qed.
Lemma cos_reflect : forall x y, x + y = 0 -> cos x = cos y.
Proof. intros x y H. replace y with (- x) by lra. rewrite cos_neg. reflexivity. Qed.
Lemma half_cos : forall x, 0 <= 0.5 * (1 + cos x) <= 1.
Proof. intro x. pose proof (COS_bound x). lra. Qed.
(** Both tapers are symmetric, lie between zero and one; the ends of a Blackman-Harris taper are 0.00006 and those of a Tukey taper zero, and
    the latter is one in the middle half. *)
Theorem C90_tapers : forall t M k, (k < M)%nat -> 0 <= taper_value t M k <= 1 /\ taper_value t M (M - 1 - k) = taper_value t M k.
Proof.
  intros t M k K. destruct t; cbn [taper_value]; [split; [lra|reflexivity]| |].
  - unfold blackmanharris. destruct (Nat.leb_spec M 1); [split; [lra|reflexivity]|]. cbv zeta. split; [pose proof (bh_bounds (bh_angle M k)); lra|].
    assert (N : INR (M - 1) <> 0) by (apply not_0_INR; lia). assert (E : bh_angle M (M - 1 - k) = - bh_angle M k) by (unfold bh_angle; rewrite minus_INR by lia; field; exact N).
    rewrite E. replace (2 * - bh_angle M k) with (- (2 * bh_angle M k)) by ring. replace (3 * - bh_angle M k) with (- (3 * bh_angle M k)) by ring. rewrite !cos_neg. reflexivity.
  - unfold tukey. destruct (Nat.leb_spec M 1); [split; [lra|reflexivity]|]. cbv zeta. set (w := ((M - 1) / 4)%nat). assert (W : (4 * w <= M - 1)%nat) by (unfold w; apply Nat.mul_div_le; lia). assert (W2 : (M - 1 < 4 * w + 4)%nat) by (unfold w; pose proof (Nat.mod_upper_bound (M - 1) 4); pose proof (Nat.div_mod (M - 1) 4); lia).
    assert (N : INR (M - 1) <> 0) by (apply not_0_INR; lia). split.
    + destruct (k <=? w)%nat; [apply half_cos|]. destruct (k <? M - w - 1)%nat; [lra|apply half_cos].
    + destruct (Nat.leb_spec k w); destruct (Nat.leb_spec (M - 1 - k) w); destruct (Nat.ltb_spec k (M - w - 1)); destruct (Nat.ltb_spec (M - 1 - k) (M - w - 1)); try lia; try reflexivity.
      all: f_equal; f_equal; apply cos_reflect; rewrite minus_INR by lia; rewrite ?minus_INR by lia; rewrite minus_INR in N by lia; cbn [INR] in *; change 0.5 with (5 / 10); field; repeat split; (exact N || lra).
Qed.
Print Assumptions C90_tapers.
Example C90_tapers_sat : exists (M : nat) (k : nat), (k < M)%nat.
Proof. exists 5%nat, 3%nat. repeat split; first [lra | lia | reflexivity | discriminate | congruence | auto]. Qed.
Lemma angle_0 : forall M, bh_angle M 0 = - PI.
Proof. intro M. unfold bh_angle. cbn [INR]. ring. Qed.
Theorem C90_ends : forall M, (2 <= M)%nat -> blackmanharris M 0 = 0.00006 /\ blackmanharris M (M - 1) = 0.00006 /\ tukey M 0 = 0 /\ tukey M (M - 1) = 0 /\ (forall k, (M - 1 <= 4 * k)%nat -> (4 * k <= 3 * (M - 1))%nat -> tukey M k = 1).
Proof.
  intros M H. assert (B0 : blackmanharris M 0 = 0.00006). { unfold blackmanharris. destruct (Nat.leb_spec M 1); [lia|]. cbv zeta. rewrite bh_poly, angle_0, cos_neg, cos_PI. lra. }
  assert (T0 : tukey M 0 = 0). { unfold tukey. destruct (Nat.leb_spec M 1); [lia|]. cbv zeta. cbn [Nat.leb INR]. replace (PI * (-1 + 2 * 0 / 0.5 / INR (M - 1))) with (- PI) by (unfold Rdiv; ring). rewrite cos_neg, cos_PI. lra. }
  split; [exact B0|]. split; [|split; [exact T0|split]].
  - destruct (C90_tapers BlackmanHarris M 0 ltac:(lia)) as [_ E]. cbn [taper_value] in E. rewrite Nat.sub_0_r in E. rewrite E. exact B0.
  - destruct (C90_tapers Tukey M 0 ltac:(lia)) as [_ E]. cbn [taper_value] in E. rewrite Nat.sub_0_r in E. rewrite E. exact T0.
  - intros k K1 K2. unfold tukey. destruct (Nat.leb_spec M 1); [lia|]. cbv zeta. set (w := ((M - 1) / 4)%nat). assert (W : (4 * w <= M - 1)%nat) by (unfold w; apply Nat.mul_div_le; lia). assert (N : INR (M - 1) <> 0) by (apply not_0_INR; lia).
    destruct (Nat.leb_spec k w).
    + assert (E : (4 * k = M - 1)%nat) by lia. assert (E' : INR (M - 1) = 4 * INR k) by (rewrite <- E, mult_INR; cbn [INR]; lra). rewrite E' in *. replace (PI * (-1 + 2 * INR k / 0.5 / (4 * INR k))) with 0; [rewrite cos_0; lra|]. assert (INR k <> 0) by lra. change 0.5 with (5 / 10). field. repeat split; (assumption || lra).
    + destruct (Nat.ltb_spec k (M - w - 1)); [reflexivity|]. assert (E : (4 * k = 3 * (M - 1))%nat) by lia. assert (E' : 4 * INR k = 3 * INR (M - 1)) by (apply (f_equal INR) in E; rewrite !mult_INR in E; cbn [INR] in E; lra).
      replace (PI * (-2 / 0.5 + 1 + 2 * INR k / 0.5 / INR (M - 1))) with 0; [rewrite cos_0; lra|]. replace (INR k) with (3 * INR (M - 1) / 4) by lra. change 0.5 with (5 / 10). field. repeat split; (exact N || lra).
Qed.
Print Assumptions C90_ends.
Example C90_ends_sat : exists (M : nat), (2 <= M)%nat.
Proof. exists 5%nat. repeat split; first [lra | lia | reflexivity | discriminate | congruence | auto]. Qed.
(** So a second identical call gives another result: after one Tukey taper the two end slices of the caller's data are zero whatever they were,
    and after Blackman-Harris tapers they shrink by 0.00006 each time. *)
Theorem C90_repeat_refuted : forall {T} (stat : data -> T) d a b, floating d = true -> dims d = [a; b; 2]%nat ->
  (forall i, (last i 0 < 2)%nat -> content (fst (calls stat d [Name "tukey"])) i = 0) /\
  (forall m i, (last i 0 < 2)%nat -> content (fst (calls stat d (repeat (Name "blackmanharris") m))) i = content d i * 0.00006 ^ m).
Proof.
  intros T stat d a b F D. assert (L : (3 <= length (dims d))%nat) by (rewrite D; cbn; lia). destruct (C90_ends 2 ltac:(lia)) as (B0 & B1 & T0 & T1 & _). cbn [Nat.sub] in B1, T1. split.
  - intros i Hi. destruct (C90_history stat [Tukey] [Name "tukey"] d ltac:(repeat constructor) F L) as [H _]. rewrite H, D. cbn [last product_of fold_right taper_value]. destruct (last i 0%nat) as [|[|k]]; [rewrite T0|rewrite T1|lia]; ring.
  - intros m i Hi. destruct (C90_history stat (repeat BlackmanHarris m) (repeat (Name "blackmanharris") m) d) as [H _]; [induction m; constructor; [reflexivity|assumption]|exact F|exact L|]. rewrite H, D. cbn [last]. f_equal. clear H. induction m as [|m IH]; [reflexivity|]. cbn [repeat product_of fold_right taper_value pow]. unfold product_of in IH. rewrite IH. destruct (last i 0%nat) as [|[|k]]; [rewrite B0|rewrite B1|lia]; reflexivity.
Qed.
Print Assumptions C90_repeat_refuted.
