(** C76: the primary beam. *)
From Coq Require Import List Arith Reals Lra Lia Bool.
From Verif Require Import BeamPModel.
Import ListNotations.
Local Open Scope R_scope.

Lemma largest_ge : forall l v, In v l -> v <= largest l.
Proof. intros l. induction l as [|w r IH]; intros v H; [destruct H|]. destruct r as [|u r]; [destruct H as [-> |[]]; cbn; lra|]. change (largest (w :: u :: r)) with (Rmax w (largest (u :: r))). destruct H as [-> |H]; [apply Rmax_l|]. eapply Rle_trans; [|apply Rmax_r]. apply IH, H. Qed.
Lemma largest_in : forall l, l <> [] -> In (largest l) l.
Proof. intros l. induction l as [|w r IH]; intro H; [congruence|]. destruct r as [|u r]; [left; reflexivity|]. change (largest (w :: u :: r)) with (Rmax w (largest (u :: r))). apply (Rmax_case w (largest (u :: r)) (fun v => In v (w :: u :: r))); [left; reflexivity|right; apply IH; discriminate]. Qed.
Lemma grid_in : forall n p q, (p < n)%nat -> (q < n)%nat -> In (p, q) (grid n).
Proof. intros n p q Hp Hq. apply in_prod; apply in_seq; lia. Qed.
Lemma profile_nonneg : forall j1 b l r, 0 <= profile j1 b l r.
Proof.
  intros j1 b l r. unfold profile. destruct b.
  - destruct (Rle_dec r (l / 2)); lra.
  - left. apply exp_pos.
  - destruct (Req_EM_T r 0); [lra|]. apply pow2_ge_0.
  - cbv zeta. set (e := exp _). assert (0 < e) by apply exp_pos. assert (1 / (1 + e) <= 1); [|lra]. apply (Rmult_le_reg_r (1 + e)); [lra|]. unfold Rdiv. rewrite Rmult_assoc, Rinv_l by lra. lra.
Qed.

(** * Theorems *)
(** Whatever the profile, the beam lies between 0 and 1 and is 1 in some cell. *)
Theorem C76_range : forall j1 b n box l f, circular_beam j1 b n box l = Some f ->
  (forall p q, (p < n)%nat -> (q < n)%nat -> 0 <= f p q <= 1) /\ exists p q, (p < n)%nat /\ (q < n)%nat /\ f p q = 1.
Proof.
  intros j1 b n box l f H. unfold circular_beam in H. cbv zeta in H. destruct (Nat.eqb n 0) eqn:E0; [discriminate|]. apply Nat.eqb_neq in E0.
  set (raw := fun p q => profile j1 b l (rr n box p q)) in *. set (vals := map (fun c => raw (fst c) (snd c)) (grid n)) in *.
  change ((if Req_EM_T (largest vals) 0 then None else Some (fun p q => raw p q / largest vals)) = Some f) in H.
  destruct (Req_EM_T (largest vals) 0) as [|N]; [discriminate|]. injection H as <-.
  assert (NE : vals <> []). { assert (I : In (raw 0%nat 0%nat) vals) by (apply (in_map (fun c => raw (fst c) (snd c)) (grid n) (0%nat, 0%nat)), grid_in; lia). intro Z. rewrite Z in I. destruct I. }
  assert (G : forall p q, (p < n)%nat -> (q < n)%nat -> raw p q <= largest vals) by (intros p q Hp Hq; apply largest_ge; apply (in_map (fun c => raw (fst c) (snd c)) (grid n) (p, q)), grid_in; assumption).
  assert (P : 0 < largest vals). { pose proof (G 0%nat 0%nat ltac:(lia) ltac:(lia)). pose proof (profile_nonneg j1 b l (rr n box 0 0)). fold (raw 0%nat 0%nat) in H0. lra. }
  split.
  - intros p q Hp Hq. specialize (G p q Hp Hq). pose proof (profile_nonneg j1 b l (rr n box p q)) as Q. fold (raw p q) in Q. split; [apply Rmult_le_pos; [exact Q|left; apply Rinv_0_lt_compat, P]|].
    apply (Rmult_le_reg_r (largest vals)); [exact P|]. unfold Rdiv. rewrite Rmult_assoc, Rinv_l by lra. lra.
  - pose proof (largest_in vals NE) as I. unfold vals in I at 2. apply in_map_iff in I. destruct I as ([p q] & E & I). apply in_prod_iff in I. destruct I as [Ip Iq]. apply in_seq in Ip. apply in_seq in Iq. exists p, q. cbn [fst snd] in E. split; [lia|]. split; [lia|]. rewrite E. field. exact N.
Qed.
Print Assumptions C76_range.

Lemma np_power_le : forall r s y, 0 <= r <= s -> 0 < y -> np_power r y <= np_power s y.
Proof.
  intros r s y H Hy. unfold np_power. destruct (Req_EM_T r 0) as [-> |N]; destruct (Req_EM_T s 0) as [-> |M]; try lra.
  - left. apply exp_pos.
  - destruct (Req_dec r s) as [-> |D]; [lra|]. left. apply Rlt_Rpower_l; lra.
Qed.
Lemma exp_le : forall x y, x <= y -> exp x <= exp y.
Proof. intros x y H. destruct (Req_dec x y) as [-> |]; [lra|]. left. apply exp_increasing. lra. Qed.
Lemma profile_decreasing : forall j1 b l r s, b <> Bessel -> 0 < l -> 0 <= r <= s -> profile j1 b l s <= profile j1 b l r.
Proof.
  intros j1 b l r s B L H. unfold profile. destruct b.
  - destruct (Rle_dec s (l / 2)); destruct (Rle_dec r (l / 2)); lra.
  - cbv zeta. apply exp_le. set (sg := l / 1.186 / 2.355). assert (0 < sg) by (unfold sg; apply Rdiv_lt_0_compat; [apply Rdiv_lt_0_compat; lra|lra]). unfold Rdiv. apply Rmult_le_compat_r; [left; apply Rinv_0_lt_compat; nra|]. nra.
  - congruence.
  - cbv zeta. assert (Q : 0 < sqrt 2) by (apply sqrt_lt_R0; lra). pose proof (np_power_le r s (sqrt 2) H Q). set (e := exp (0.5 * (l / 2) - 0.5 * np_power s (sqrt 2))). set (d := exp (0.5 * (l / 2) - 0.5 * np_power r (sqrt 2))).
    assert (0 < e) by apply exp_pos. assert (e <= d) by (apply exp_le; lra). assert (1 / (1 + d) <= 1 / (1 + e)); [|lra]. unfold Rdiv. rewrite !Rmult_1_l. apply Rinv_le_contravar; lra.
Qed.
(** Step, Gaussian and sigmoid beams never grow with the distance from the centre. *)
Theorem C76_decreasing : forall j1 b n box l f p q p' q', b <> Bessel -> 0 < l -> 0 < box -> circular_beam j1 b n box l = Some f ->
  (INR p - INR n / 2) ^ 2 + (INR q - INR n / 2) ^ 2 <= (INR p' - INR n / 2) ^ 2 + (INR q' - INR n / 2) ^ 2 -> f p' q' <= f p q.
Proof.
  intros j1 b n box l f p q p' q' B L X H D. unfold circular_beam in H. cbv zeta in H. destruct (Nat.eqb n 0) eqn:E0; [discriminate|]. apply Nat.eqb_neq in E0.
  set (top := largest _) in H. destruct (Req_EM_T top 0) as [|N]; [discriminate|]. injection H as <-.
  assert (P : 0 < top).
  { assert (0 <= top); [|lra]. eapply Rle_trans; [apply (profile_nonneg j1 b l (rr n box 0 0))|]. apply largest_ge. apply (in_map (fun c => profile j1 b l (rr n box (fst c) (snd c))) (grid n) (0%nat, 0%nat)), grid_in; lia. }
  apply Rmult_le_compat_r; [left; apply Rinv_0_lt_compat, P|]. apply profile_decreasing; [exact B|exact L|]. unfold rr. split; [apply sqrt_pos|]. apply sqrt_le_1_alt. unfold coord.
  assert (0 < INR n) by (apply lt_0_INR; lia). assert (0 <= (box / INR n) ^ 2) by apply pow2_ge_0.
  replace (((INR p - INR n / 2) * box / INR n) ^ 2 + ((INR q - INR n / 2) * box / INR n) ^ 2) with (((INR p - INR n / 2) ^ 2 + (INR q - INR n / 2) ^ 2) * (box / INR n) ^ 2) by (field; lra).
  replace (((INR p' - INR n / 2) * box / INR n) ^ 2 + ((INR q' - INR n / 2) * box / INR n) ^ 2) with (((INR p' - INR n / 2) ^ 2 + (INR q' - INR n / 2) ^ 2) * (box / INR n) ^ 2) by (field; lra).
  apply Rmult_le_compat_r; assumption.
Qed.
Print Assumptions C76_decreasing.
(** With an even number of cells the peak is cell n/2; with an odd number the four cells around the point half a cell beyond the middle one share it. *)
Theorem C76_centre : forall n box p, (0 < n)%nat -> 0 < box ->
  (coord n box p = 0 <-> (2 * p = n)%nat) /\ (Nat.odd n = true -> Rabs (coord n box p) = box / INR n / 2 <-> (2 * p + 1 = n)%nat \/ (2 * p = n + 1)%nat) /\
  (coord n box (n - p) = - coord n box p <-> (p <= n)%nat).
Proof.
  intros n box p Hn Hb. assert (Pn : 0 < INR n) by (apply lt_0_INR; exact Hn). assert (Q : 0 < box / INR n) by (apply Rdiv_lt_0_compat; assumption).
  assert (C : forall p, coord n box p = (INR p - INR n / 2) * (box / INR n)) by (intro; unfold coord; field; lra). rewrite !C. split; [|split].
  - split; intro H.
    + apply Rmult_integral in H. destruct H as [H|H]; [|lra]. apply INR_eq. rewrite mult_INR. change (INR 2) with 2. lra.
    + subst n. rewrite mult_INR. change (INR 2) with 2. field. rewrite mult_INR in Pn. change (INR 2) with 2 in Pn. lra.
  - intro O. rewrite Rabs_mult, (Rabs_right (box / INR n)) by lra. split; intro H.
    + assert (A : Rabs (INR p - INR n / 2) = / 2). { apply (Rmult_eq_reg_r (box / INR n)); [|lra]. rewrite H. field. lra. }
      unfold Rabs in A. destruct (Rcase_abs (INR p - INR n / 2)) as [R|R]; [left|right]; apply INR_eq; rewrite ?plus_INR, ?mult_INR, ?plus_INR; change (INR 2) with 2; change (INR 1) with 1; lra.
    + assert (A : Rabs (INR p - INR n / 2) = / 2). { destruct H as [H|H]; apply (f_equal INR) in H; rewrite ?plus_INR, ?mult_INR in H; change (INR 2) with 2 in H; change (INR 1) with 1 in H; unfold Rabs; destruct (Rcase_abs (INR p - INR n / 2)); lra. } rewrite A. unfold Rdiv. ring.
  - split; intro H.
    + destruct (Nat.le_gt_cases p n) as [A|A]; [exact A|]. exfalso. replace (n - p)%nat with 0%nat in H by lia. change (INR 0) with 0 in H. apply lt_INR in A. assert ((0 - INR n / 2) = - (INR p - INR n / 2)); [|lra]. apply (Rmult_eq_reg_r (box / INR n)); lra.
    + rewrite minus_INR by exact H. ring_simplify. field. lra.
Qed.
Print Assumptions C76_centre.
Example C76_centre_sat : exists (n : nat) (box : R), (0 < n)%nat /\ 0 < box.
Proof. exists 5%nat, 100. repeat split; first [lra | lia | reflexivity | discriminate | congruence | auto]. Qed.
(** The only beam without values: a step beam on an odd grid so coarse that no cell centre is within half of l_null. *)
Theorem C76_defined : forall j1 b n box l, (0 < n)%nat -> 0 < box -> 0 < l -> b <> Bessel ->
  (circular_beam j1 b n box l = None <-> b = Step /\ Nat.odd n = true /\ l / 2 < box / INR n * sqrt (1 / 2)).
Proof.
  intros j1 b n box l Hn Hb Hl NB. assert (Pn : 0 < INR n) by (apply lt_0_INR; exact Hn). unfold circular_beam. cbv zeta. destruct (Nat.eqb n 0) eqn:E0; [apply Nat.eqb_eq in E0; lia|].
  set (vals := map _ _). assert (Q : 0 < box / INR n) by (apply Rdiv_lt_0_compat; assumption).
  assert (C : forall p, coord n box p = (INR p - INR n / 2) * (box / INR n)) by (intro; unfold coord; field; lra).
  assert (G : forall p q, (p < n)%nat -> (q < n)%nat -> profile j1 b l (rr n box p q) <= largest vals) by (intros p q Hp Hq; apply largest_ge; apply (in_map (fun c => profile j1 b l (rr n box (fst c) (snd c))) (grid n) (p, q)), grid_in; assumption).
  assert (NZ : (exists p q, (p < n)%nat /\ (q < n)%nat /\ 0 < profile j1 b l (rr n box p q)) -> largest vals <> 0) by (intros (p & q & Hp & Hq & P); specialize (G p q Hp Hq); lra).
  destruct (Req_EM_T (largest vals) 0) as [E|E].
  - split; [intros _|reflexivity]. destruct b; [|exfalso; apply NZ; [exists 0%nat, 0%nat; split; [lia|]; split; [lia|]; apply exp_pos|exact E]|congruence|].
    + split; [reflexivity|]. assert (S0 : forall p q, (p < n)%nat -> (q < n)%nat -> l / 2 < rr n box p q).
      { intros p q Hp Hq. specialize (G p q Hp Hq). rewrite E in G. unfold profile in G. destruct (Rle_dec (rr n box p q) (l / 2)); lra. }
      destruct (Nat.odd n) eqn:O.
      * split; [reflexivity|]. pose proof (Nat.div2_odd n) as D. rewrite O in D. cbn [Nat.b2n] in D. set (h := Nat.div2 n) in *. specialize (S0 h h ltac:(lia) ltac:(lia)). unfold rr in S0. rewrite C in S0.
        assert (H2 : INR n = 2 * INR h + 1) by (rewrite D, plus_INR, mult_INR; change (INR 2) with 2; change (INR 1) with 1; ring).
        assert (HH : INR h - INR n / 2 = - (1 / 2)) by lra. rewrite HH in S0. replace ((- (1 / 2) * (box / INR n)) ^ 2 + (- (1 / 2) * (box / INR n)) ^ 2) with ((box / INR n) ^ 2 * (1 / 2)) in S0 by (field; lra).
        rewrite sqrt_mult in S0; [|apply pow2_ge_0|lra]. rewrite sqrt_pow2 in S0 by lra. exact S0.
      * exfalso. pose proof (Nat.div2_odd n) as D. rewrite O in D. cbn [Nat.b2n] in D. set (h := Nat.div2 n) in *. specialize (S0 h h ltac:(lia) ltac:(lia)). unfold rr in S0. rewrite C in S0.
        assert (H2 : INR n = 2 * INR h) by (rewrite D, plus_INR, mult_INR; change (INR 2) with 2; change (INR 0) with 0; ring).
        replace (((INR h - INR n / 2) * (box / INR n)) ^ 2 + ((INR h - INR n / 2) * (box / INR n)) ^ 2) with 0 in S0; [rewrite sqrt_0 in S0; lra|]. replace (INR h - INR n / 2) with 0 by lra. ring.
    + exfalso. apply NZ; [|exact E]. exists 0%nat, 0%nat. split; [lia|]. split; [lia|]. unfold profile. cbv zeta. set (e := exp _). assert (0 < e) by apply exp_pos. assert (1 / (1 + e) < 1); [|lra]. apply (Rmult_lt_reg_r (1 + e)); [lra|]. unfold Rdiv. rewrite Rmult_assoc, Rinv_l by lra. lra.
  - split; [discriminate|]. intros (-> & O & D). exfalso. apply E.
    assert (NE : vals <> []). { assert (I : In (profile j1 Step l (rr n box 0 0)) vals) by (apply (in_map (fun c => profile j1 Step l (rr n box (fst c) (snd c))) (grid n) (0%nat, 0%nat)), grid_in; lia). intro Z. rewrite Z in I. destruct I. }
    pose proof (largest_in vals NE) as I. unfold vals in I at 2. apply in_map_iff in I. destruct I as ([p q] & Ev & _). rewrite <- Ev. cbn [fst snd profile]. destruct (Rle_dec (rr n box p q) (l / 2)) as [A|A]; [|reflexivity]. exfalso.
    assert (H4 : forall p, / 4 <= (INR p - INR n / 2) ^ 2).
    { intro u. rewrite (Nat.div2_odd n), O. cbn [Nat.b2n]. set (h := Nat.div2 n). rewrite plus_INR, mult_INR. change (INR 2) with 2. change (INR 1) with 1.
      destruct (Nat.le_gt_cases u h) as [B|B]; [apply le_INR in B; nra|]. apply le_INR in B. rewrite S_INR in B. nra. }
    assert (box / INR n * sqrt (1 / 2) <= rr n box p q); [|lra]. unfold rr. rewrite !C. rewrite <- (sqrt_pow2 (box / INR n)) at 1 by lra. rewrite <- sqrt_mult; [|apply pow2_ge_0|lra]. apply sqrt_le_1_alt.
    pose proof (H4 p). pose proof (H4 q). assert (0 < (box / INR n) ^ 2) by (apply pow_lt; exact Q). rewrite !Rpow_mult_distr. nra.
Qed.
Print Assumptions C76_defined.
Example C76_defined_sat : exists (b : beam_kind) (n : nat) (box : R) (l : R), (0 < n)%nat /\ 0 < box /\ 0 < l /\ b <> Bessel.
Proof. exists Sigmoid, 5%nat, 100, 20. repeat split; first [lra | lia | reflexivity | discriminate | congruence | auto]. Qed.
(** The sigmoid falls to one half of its supremum at r with r^sqrt2 = l_null/2, i.e. at l_null/2 itself only when that is 1. *)
Theorem C76_sigmoid : forall j1 l r, 0 < l -> 0 < r -> (profile j1 Sigmoid l r = 1 / 2 <-> Rpower r (sqrt 2) = l / 2) /\ (profile j1 Sigmoid l (l / 2) = 1 / 2 <-> l = 2).
Proof.
  intros j1 l r Hl Hr. assert (A : forall r, 0 < r -> (profile j1 Sigmoid l r = 1 / 2 <-> Rpower r (sqrt 2) = l / 2)).
  { intros s Hs. unfold profile, np_power. destruct (Req_EM_T s 0) as [|_]; [lra|]. cbv zeta. set (e := exp (0.5 * (l / 2) - 0.5 * Rpower s (sqrt 2))). assert (P : 0 < e) by apply exp_pos. split; intro H.
    - assert (E1 : e = 1). { assert (F : 1 / (1 + e) = 1 / 2) by lra. apply (f_equal (fun v => v * (1 + e) * 2)) in F. replace (1 / (1 + e) * (1 + e) * 2) with 2 in F by (field; lra). lra. }
      unfold e in E1. rewrite <- exp_0 in E1. apply exp_inv in E1. lra.
    - unfold e. rewrite H. replace (0.5 * (l / 2) - 0.5 * (l / 2)) with 0 by ring. rewrite exp_0. lra. }
  split; [apply A, Hr|]. rewrite A by lra. assert (Q : 1 < sqrt 2) by (rewrite <- sqrt_1 at 1; apply sqrt_lt_1; lra). split; intro H.
  - unfold Rpower in H. rewrite <- (exp_ln (l / 2)) in H at 2 by lra. apply exp_inv in H. assert (L0 : ln (l / 2) = 0) by nra. rewrite <- ln_1 in L0. apply ln_inv in L0; lra.
  - subst l. replace (2 / 2) with 1 by field. unfold Rpower. rewrite ln_1, Rmult_0_r. apply exp_0.
Qed.
Print Assumptions C76_sigmoid.
Example C76_sigmoid_sat : exists (l : R) (r : R), 0 < l /\ 0 < r.
Proof. exists 20, 3. repeat split; first [lra | lia | reflexivity | discriminate | congruence | auto]. Qed.

(** * Maps and cubes *)
(** The values on even grids, where the peak is a cell: with r the distance from it in the unit of the box, the step beam is 1 up to
    half the null and 0 beyond; the Gaussian has the full width l_null/1.186 at half maximum (with 2.355 for 2 sqrt(2 ln 2)). *)
Theorem C76_values : forall j1 n box l p q, (0 < n)%nat -> Nat.even n = true -> 0 < box -> 0 < l ->
  let r := box / INR n * sqrt ((INR p - INR n / 2) ^ 2 + (INR q - INR n / 2) ^ 2) in
  (forall f, circular_beam j1 Step n box l = Some f -> (r <= l / 2 -> f p q = 1) /\ (l / 2 < r -> f p q = 0)) /\
  (forall f, circular_beam j1 Gaussian n box l = Some f -> f p q = exp (- (1 / 2) * (r / (l / 1.186 / 2.355)) ^ 2)) /\
  (forall f, circular_beam j1 Sigmoid n box l = Some f -> f p q = (1 + exp (- (l / 4))) / (1 + exp ((np_power r (sqrt 2) - l / 2) / 2))).
Proof.
  intros j1 n box l p q Hn EV HB HL r. assert (HN : 0 < INR n) by (apply lt_0_INR; exact Hn).
  assert (RR : forall p q, rr n box p q = box / INR n * sqrt ((INR p - INR n / 2) ^ 2 + (INR q - INR n / 2) ^ 2)).
  { intros p' q'. unfold rr, coord. assert (K : 0 < box / INR n) by (apply Rdiv_lt_0_compat; assumption).
    rewrite <- (sqrt_pow2 (box / INR n)) by lra. rewrite <- sqrt_mult_alt by apply pow2_ge_0. f_equal. field. lra. }
  apply Nat.even_spec in EV as [m M]. assert (Z0 : rr n box m m = 0).
  { rewrite RR. subst n. rewrite mult_INR. replace ((INR m - INR 2 * INR m / 2) ^ 2 + (INR m - INR 2 * INR m / 2) ^ 2) with 0 by (cbn [INR]; field). rewrite sqrt_0. ring. }
  assert (MM : (m < n)%nat) by lia.
  assert (TOP : forall b, b <> Bessel -> largest (map (fun c => profile j1 b l (rr n box (fst c) (snd c))) (grid n)) = profile j1 b l 0).
  { intros b Hb. apply Rle_antisym.
    - assert (NE : map (fun c => profile j1 b l (rr n box (fst c) (snd c))) (grid n) <> []) by (intro E; apply map_eq_nil in E; pose proof (grid_in n m m MM MM) as I; rewrite E in I; exact I).
      pose proof (largest_in _ NE) as I. apply in_map_iff in I as [c [<- _]]. apply profile_decreasing; [exact Hb|exact HL|]. split; [lra|]. unfold rr. apply sqrt_pos.
    - rewrite <- Z0. apply largest_ge. apply in_map_iff. exists (m, m). split; [reflexivity|now apply grid_in]. }
  assert (VAL : forall b f, b <> Bessel -> circular_beam j1 b n box l = Some f -> f p q = profile j1 b l r / profile j1 b l 0).
  { intros b f Hb H. unfold circular_beam in H. rewrite (TOP b Hb) in H. replace (Nat.eqb n 0) with false in H by (symmetry; apply Nat.eqb_neq; lia).
    destruct (Req_EM_T (profile j1 b l 0) 0); [discriminate|]. assert (E : f = fun p q => profile j1 b l (rr n box p q) / profile j1 b l 0) by congruence. rewrite E, RR. reflexivity. }
  split; [|split].
  - intros f H. rewrite (VAL Step f ltac:(discriminate) H). unfold profile. destruct (Rle_dec 0 (l / 2)); [|lra].
    split; intro C; destruct (Rle_dec r (l / 2)); try lra; field.
  - intros f H. rewrite (VAL Gaussian f ltac:(discriminate) H). unfold profile. replace (- (0 ^ 2) / (2 * (l / 1.186 / 2.355) ^ 2)) with 0 by (field; lra). rewrite exp_0.
    replace (- (1 / 2) * (r / (l / 1.186 / 2.355)) ^ 2) with (- r ^ 2 / (2 * (l / 1.186 / 2.355) ^ 2)) by (field; lra). field.
  - intros f H. rewrite (VAL Sigmoid f ltac:(discriminate) H). unfold profile. unfold np_power at 2. destruct (Req_EM_T 0 0); [|lra].
    replace (0.5 * (l / 2) - 0.5 * np_power r (sqrt 2)) with (- ((np_power r (sqrt 2) - l / 2) / 2)) by lra.
    replace (0.5 * (l / 2) - 0.5 * 0) with (l / 4) by lra. rewrite !exp_Ropp.
    set (a := exp ((np_power r (sqrt 2) - l / 2) / 2)). assert (0 < a) by apply exp_pos. set (b := exp (l / 4)). assert (0 < b) by apply exp_pos.
    field. repeat split; lra.
Qed.
Print Assumptions C76_values.
Example C76_values_sat : exists (n : nat) (box : R) (l : R), (0 < n)%nat /\ Nat.even n = true /\ 0 < box /\ 0 < l.
Proof. exists 6%nat, 100, 20. repeat split; first [lra | lia | reflexivity | discriminate | congruence | auto]. Qed.

(** A two-dimensional map ignores the null the user asks for. *)
Theorem C76_2d_null : forall j1 null b n box z l x, primary_beam_2d j1 null b n box z (Some l) x = primary_beam_2d j1 null b n box z None x.
Proof. reflexivity. Qed.
Print Assumptions C76_2d_null.
Lemma all_beams_some : forall f zs l, all_beams f zs = Some l -> length l = length zs /\ forall k z, nth_error zs k = Some z -> exists b, f z = Some b /\ nth_error l k = Some b.
Proof.
  intros f zs. induction zs as [|z r IH]; intros l H; cbn [all_beams] in H; [injection H as <-; split; [reflexivity|]; intros k z H; destruct k; discriminate|].
  destruct (f z) as [b|] eqn:E; [|discriminate]. destruct (all_beams f r) as [l'|]; [|discriminate]. injection H as <-. destruct (IH l' eq_refl) as [L P]. split; [cbn; rewrite L; reflexivity|]. intros [|k] w H; cbn in *; [injection H as ->; eauto|]. apply P, H.
Qed.
Lemma all_beams_none : forall f zs, all_beams f zs = None <-> exists z, In z zs /\ f z = None.
Proof.
  intros f zs. induction zs as [|z r IH]; cbn [all_beams]; [split; [discriminate|intros (z & [] & _)]|]. destruct (f z) as [b|] eqn:E.
  - destruct (all_beams f r) as [l|]; split; intro H; try discriminate; [|apply IH in H|reflexivity].
    + destruct H as (w & [-> |I] & F); [congruence|]. assert (Some l = None) by (apply IH; eauto). discriminate.
    + destruct H as (w & I & F). exists w. split; [right; exact I|exact F].
  - split; [intros _|reflexivity]. exists z. split; [left; reflexivity|exact E].
Qed.
(** Which shapes work: square maps with the frequency last and no more redshifts than slices; any other frequency axis needs a cube. *)
Definition accepted (s : shape) (nu_axis : nat) (zs : list R) : Prop :=
  let '(n0, n1, n2) := s in (nu_axis <= 2)%nat -> n0 = n1 /\ (nu_axis = 2%nat \/ n1 = n2) /\ (length zs = 1%nat \/ (length zs <= n2)%nat).
Theorem C76_shapes : forall j1 null b n0 n1 n2 box a zs l x, (a <= 2)%nat -> zs <> [] -> (2 <= n0)%nat -> (2 <= n1)%nat -> (2 <= n2)%nat -> 
  (forall z, In z zs -> circular_beam j1 b n0 box (match l with Some l => l | None => null z end) <> None) ->
  (primary_beam_3d j1 null b (n0, n1, n2) box a zs l x <> None <-> accepted (n0, n1, n2) a zs).
Proof.
  intros j1 null b n0 n1 n2 box a zs l x Ha NE H0 H1 H2 OK. unfold primary_beam_3d, accepted.
  assert (LZ : forall m, (0 < m)%nat -> length (match zs with [z] => repeat z m | _ => zs end) = (if Nat.eqb (length zs) 1 then m else length zs) /\ (forall z, In z (match zs with [z] => repeat z m | _ => zs end) -> In z zs)).
  { intros m Hm. destruct zs as [|z [|z' r]]; [congruence|cbn; rewrite repeat_length; split; [reflexivity|]; intros w Hw; apply repeat_spec in Hw; auto|cbn; auto]. }
  assert (LP : (1 <= length zs)%nat) by (destruct zs; [congruence|cbn; lia]).
  destruct a as [|[|[|a]]]; [| | |lia]; cbn [swap_shape].
  1: destruct (LZ n0 ltac:(lia)) as [L I]. 2: destruct (LZ n1 ltac:(lia)) as [L I]. 3: destruct (LZ n2 ltac:(lia)) as [L I].
  all: set (zs' := match zs with [z] => _ | _ => zs end) in *; rewrite L; unfold shape_eqb; destruct (Nat.eqb_spec (length zs) 1) as [L1|L1];
    repeat match goal with |- context [Nat.ltb ?u ?v] => destruct (Nat.ltb_spec u v) end; try (split; [intro K; exfalso; apply K; reflexivity|intro K; specialize (K Ha); exfalso; lia]);
    repeat match goal with |- context [Nat.eqb ?u ?v] => destruct (Nat.eqb_spec u v) end; cbn [negb andb]; try (split; [intro K; exfalso; apply K; reflexivity|intro K; specialize (K Ha); exfalso; lia]);
    (split; [intros _ _; lia|]); intros _; match goal with |- context [all_beams ?f ?z] => destruct (all_beams f z) eqn:AB end; try discriminate; apply all_beams_none in AB; destruct AB as (z & Iz & Fz); exfalso; apply (OK z (I z Iz)); first [exact Fz | (assert (EQ : n2 = n0) by lia; rewrite EQ in Fz; exact Fz)].
Qed.
Print Assumptions C76_shapes.
(** Every slice is multiplied by the beam of its own redshift; slices without one become zero. *)
Theorem C76_slices : forall j1 null b n n2 box zs l x y, (2 <= length zs)%nat -> primary_beam_3d j1 null b (n, n, n2) box 2 zs l x = Some y ->
  forall i j k, (k < n2)%nat ->
  match nth_error zs k with
  | Some z => exists f, circular_beam j1 b n box (match l with Some l => l | None => null z end) = Some f /\ y i j k = x i j k * f i j
  | None => y i j k = 0
  end.
Proof.
  intros j1 null b n n2 box zs l x y LZ H i j k Hk. unfold primary_beam_3d in H. cbn [swap_shape] in H. destruct zs as [|z0 [|z1 r]]; [cbn in LZ; lia|cbn in LZ; lia|]. set (zs := z0 :: z1 :: r) in *.
  destruct (Nat.ltb n2 (length zs)); [discriminate|]. destruct (negb (Nat.eqb (length zs) 0) && negb (Nat.eqb n n && Nat.eqb n n))%bool; [discriminate|]. destruct (negb _); [discriminate|].
  match type of H with context [all_beams ?f zs] => set (F := f) in H end. destruct (all_beams F zs) as [bs|] eqn:AB; [|discriminate]. injection H as <-. cbn [swap_cube]. destruct (all_beams_some F zs bs AB) as [L P].
  destruct (nth_error zs k) as [z|] eqn:E.
  - destruct (P k z E) as (f & Ef & Nf). exists f. split; [exact Ef|]. f_equal. rewrite (nth_error_nth bs k (fun _ _ => 0) Nf). reflexivity.
  - apply nth_error_None in E. rewrite nth_overflow by lia. ring.
Qed.
Print Assumptions C76_slices.
Theorem C76_one_redshift : forall j1 null b n n2 box z l x y, primary_beam_3d j1 null b (n, n, n2) box 2 [z] l x = Some y -> 
  forall i j k, (k < n2)%nat -> exists f, circular_beam j1 b n box (match l with Some l => l | None => null z end) = Some f /\ y i j k = x i j k * f i j.
Proof.
  intros j1 null b n n2 box z l x y H i j k Hk. unfold primary_beam_3d in H. cbn [swap_shape] in H.
  destruct (Nat.ltb _ _); [discriminate|]. destruct (negb _ && negb _)%bool; [discriminate|]. destruct (negb _); [discriminate|].
  match type of H with context [all_beams ?f ?zs] => set (F := f) in H; set (zz := zs) in H end. destruct (all_beams F zz) as [bs|] eqn:AB; [|discriminate]. injection H as <-. cbn [swap_cube]. destruct (all_beams_some F zz bs AB) as [L P].
  assert (E : nth_error zz k = Some z). { unfold zz. clear - Hk. revert k Hk. induction n2 as [|m IH]; intros k Hk; [lia|]. destruct k; [reflexivity|]. cbn. apply IH. lia. }
  destruct (P k z E) as (f & Ef & Nf). exists f. split; [exact Ef|]. f_equal. rewrite (nth_error_nth bs k (fun _ _ => 0) Nf). reflexivity.
Qed.
Print Assumptions C76_one_redshift.
Example C76_sat : forall j1, circular_beam j1 Gaussian 5 100 20 <> None /\ circular_beam j1 Step 5 100 20 = None /\
  accepted (4, 4, 8)%nat 2 [8] /\ ~ accepted (8, 4, 4)%nat 0 [8].
Proof.
  intro j1. split; [|split; [|split]].
  - intro H. apply C76_defined in H; try lia; try lra; try discriminate. destruct H as [H _]. discriminate.
  - apply C76_defined; try lia; try lra; try discriminate. split; [reflexivity|]. split; [reflexivity|]. rewrite INR_IZR_INZ. cbn [Z.of_nat Pos.of_succ_nat Pos.succ].
    assert (7 / 10 < sqrt (1 / 2)) by (rewrite <- (sqrt_square (7 / 10)) by lra; apply sqrt_lt_1; lra). lra.
  - intros _. cbn. auto.
  - intro H. specialize (H ltac:(lia)). lia.
Qed.
Example C76_range_sat : exists (j1 : R -> R) (b : beam_kind) (n : nat) (box : R) (l : R) (f : nat -> nat -> R), circular_beam j1 b n box l = Some f.
Proof. destruct (circular_beam (fun x => x) Gaussian 5 100 20) as [f|] eqn:E; [exists (fun x => x), Gaussian, 5%nat, 100, 20, f; exact E|destruct (proj1 (C76_sat (fun x => x)) E)]. Qed.
Example C76_decreasing_sat : exists (j1 : R -> R) (b : beam_kind) (n : nat) (box : R) (l : R) (f : nat -> nat -> R) (p : nat) (q : nat) (p' : nat) (q' : nat), b <> Bessel /\ 0 < l /\ 0 < box /\ circular_beam j1 b n box l = Some f /\ (INR p - INR n / 2) ^ 2 + (INR q - INR n / 2) ^ 2 <= (INR p' - INR n / 2) ^ 2 + (INR q' - INR n / 2) ^ 2.
Proof. destruct (circular_beam (fun x => x) Gaussian 5 100 20) as [f|] eqn:E; [|destruct (proj1 (C76_sat (fun x => x)) E)]. exists (fun x => x), Gaussian, 5%nat, 100, 20, f, 2%nat, 3%nat, 4%nat, 0%nat.
split; [discriminate|]. split; [lra|]. split; [lra|]. split; [exact E|]. cbn. lra. Qed.
Example C76_shapes_sat : exists (j1 : R -> R) (null : R -> R) (b : beam_kind) (n0 : nat) (n1 : nat) (n2 : nat) (box : R) (a : nat) (zs : list R) (l : option R), (a <= 2)%nat /\ zs <> [] /\ (2 <= n0)%nat /\ (2 <= n1)%nat /\ (2 <= n2)%nat /\ (forall z, In z zs -> circular_beam j1 b n0 box (match l with Some l => l | None => null z end) <> None).
Proof. exists (fun x => x), (fun _ => 20), Gaussian, 5%nat, 5%nat, 3%nat, 100, 2%nat, [8], None. repeat split; try lia; try discriminate. intros z _. exact (proj1 (C76_sat (fun x => x))). Qed.
Example C76_slices_sat : exists (j1 : R -> R) (null : R -> R) (b : beam_kind) (n : nat) (n2 : nat) (box : R) (zs : list R) (l : option R) (x : cube) (y : cube), (2 <= length zs)%nat /\ primary_beam_3d j1 null b (n, n, n2) box 2 zs l x = Some y /\ exists k, (k < n2)%nat.
Proof. destruct (primary_beam_3d (fun x => x) (fun _ => 20) Gaussian (5, 5, 3)%nat 100 2 [8; 9; 10] None (fun _ _ _ => 1)) as [y|] eqn:E.
exists (fun x => x), (fun _ => 20), Gaussian, 5%nat, 3%nat, 100, [8; 9; 10], None, (fun _ _ _ => 1), y. split; [cbn; lia|]. split; [exact E|exists 2%nat; lia].
exfalso. unfold primary_beam_3d in E. cbn [swap_shape length Nat.ltb Nat.leb Nat.eqb negb andb repeat all_beams] in E. destruct (circular_beam (fun x => x) Gaussian 5 100 20) eqn:F; [discriminate|]. exact (proj1 (C76_sat (fun x => x)) F). Qed.
Example C76_one_redshift_sat : exists (j1 : R -> R) (null : R -> R) (b : beam_kind) (n : nat) (n2 : nat) (box : R) (z : R) (l : option R) (x : cube) (y : cube), primary_beam_3d j1 null b (n, n, n2) box 2 [z] l x = Some y /\ exists k, (k < n2)%nat.
Proof. destruct (primary_beam_3d (fun x => x) (fun _ => 20) Gaussian (5, 5, 3)%nat 100 2 [8] None (fun _ _ _ => 1)) as [y|] eqn:E.
exists (fun x => x), (fun _ => 20), Gaussian, 5%nat, 3%nat, 100, 8, None, (fun _ _ _ => 1), y. split; [exact E|exists 2%nat; lia].
exfalso. unfold primary_beam_3d in E. cbn [swap_shape length Nat.ltb Nat.leb Nat.eqb negb andb repeat all_beams] in E. destruct (circular_beam (fun x => x) Gaussian 5 100 20) eqn:F; [discriminate|]. exact (proj1 (C76_sat (fun x => x)) F). Qed.
