(** C89: the hits of a gain map are those of a map without gains. *)
From Coq Require Import List Arith ZArith QArith Reals Lra Lia Bool ZifyBool.
From Verif Require Import RLib FourierModel UvGridModel UvGridSpec UvGridProofs UvGridProps UvImageModel DftLib GainModel GainProps GainCountModel.
Import ListNotations.
Local Open Scope R_scope.

Lemma astype_int_whole : forall k, astype_int (IZR k) = k.
Proof.
  assert (P : forall k, Int_part (IZR k) = k).
  { intro k. unfold Int_part. rewrite <- (tech_up (IZR k) (k + 1)); [lia| |]; rewrite plus_IZR; lra. }
  intro k. unfold astype_int. destruct (Rle_dec 0 (IZR k)); [apply P|]. rewrite <- opp_IZR, P. lia.
Qed.
Lemma rsum_nat : forall {A} (g : A -> nat) l, rsum (map (fun a => INR (g a)) l) = INR (list_sum (map g l)).
Proof. intros A g l. induction l as [|a l IH]; [reflexivity|]. cbn [map list_sum fold_right rsum]. unfold rsum, list_sum in IH. rewrite IH, plus_INR. reflexivity. Qed.
Lemma cell_hits : forall n theta rows i j, cell_sum false n theta rows i j 0%nat = INR (hits 0 n theta (map fst rows) (Z.of_nat i) (Z.of_nat j)).
Proof.
  intros n theta rows i j. unfold cell_sum, visible_rows, hits, weight, hit, lands. induction rows as [|r rows IH]; [reflexivity|]. cbn [map filter].
  change (mask n (pix theta (fst r))) with (in_bound n (gx theta (fst r)) && in_bound n (gy theta (fst r)))%bool. rewrite !in_range_b_bound in *. rewrite !Z.add_0_r.
  change (fst (pix theta (fst r))) with (gx theta (fst r)). change (snd (pix theta (fst r))) with (gy theta (fst r)).
  destruct (in_bound n (gx theta (fst r)) && in_bound n (gy theta (fst r)))%bool; cbn [andb]; [|exact IH]. cbn [map rsum fold_right]. unfold rsum in IH. rewrite IH.
  change (fst (pix theta (fst r))) with (gx theta (fst r)). change (snd (pix theta (fst r))) with (gy theta (fst r)).
  destruct (Z.eqb (gx theta (fst r) mod Z.of_nat n) (Z.of_nat i) && Z.eqb (gy theta (fst r) mod Z.of_nat n) (Z.of_nat j))%bool; cbn [length]; [rewrite S_INR|]; cbn [chan]; ring.
Qed.

(** Whatever the gains and however often they are renewed, the hit map of an observation counts, for each cell, the baselines that land on it over all time
    steps: nothing is lost by the conversion to integers. *)
Theorem C89_counts : forall n theta ts int_time total draw rotate bs, ts <> [] -> (forall t, map fst (draw t) = bs) ->
  exists f, uv_map_with_gains false n theta ts int_time total draw rotate = Some f /\
  forall i j, gain_uv_map_to_uv_map f i j = Z.of_nat (list_sum (map (fun t => hits 0 n theta (map (rotate t) bs) (Z.of_nat i) (Z.of_nat j)) (seq 0 total))).
Proof.
  intros n theta ts int_time total draw rotate bs T D. destruct (proj1 (C89_observation false n theta ts int_time draw rotate total) T) as (f & F & A & V). exists f. split; [exact F|]. intros i j.
  unfold gain_uv_map_to_uv_map. rewrite V.
  rewrite (rsum_ext _ (fun t => INR (hits 0 n theta (map (rotate t) bs) (Z.of_nat i) (Z.of_nat j)))).
  - rewrite rsum_nat, INR_IZR_INZ. apply astype_int_whole.
  - intros t _. destruct (A t) as (t0 & -> & _). rewrite cell_hits. do 2 f_equal. rewrite map_map. cbn [fst]. rewrite <- (D t0), map_map. reflexivity.
Qed.
Print Assumptions C89_counts.
Example C89_counts_sat : exists (draw : nat -> list (baseline * products)) bs, [10%nat] <> [] /\ length bs = 2%nat /\ forall t, map fst (draw t) = bs.
Proof.
  exists (fun t => [((1, 0, 0)%Q, Products (INR t) 0 1 0); ((0, 2, 1)%Q, Products 1 (INR t) 0 1)]), [(1, 0, 0)%Q; (0, 2, 1)%Q]. split; [discriminate|]. split; [reflexivity|]. intro t. reflexivity.
Qed.

Lemma sum_slices_nat : forall T g, (sum_slices T (fun t => inject_Z (Z.of_nat (g (t - 1)%nat))) == inject_Z (Z.of_nat (list_sum (map g (seq 0 T)))))%Q.
Proof.
  intros T g. unfold sum_slices. rewrite <- seq_shift, map_map.
  induction (seq 0 T) as [|a l IH]; [reflexivity|]. cbn [map fold_right list_sum]. change (fold_right Init.Nat.add 0%nat (map g l)) with (list_sum (map g l)). rewrite IH, Nat2Z.inj_add, inject_Z_plus. replace (S a - 1)%nat with a by lia. reflexivity.
Qed.
(** On a grid of even size these are the counts of the map made without gains from the same rotated baselines, times the number of time steps by which that map
    is divided. *)
Theorem C89_counts_plain : forall n theta ts int_time total draw rotate bs f, ts <> [] -> (forall t, map fst (draw t) = bs) -> Nat.even n = true -> (0 < total)%nat ->
  uv_map_with_gains false n theta ts int_time total draw rotate = Some f ->
  exists m, uv_daily false n theta total (fun t => map (rotate (t - 1)%nat) bs) = Some m /\
  forall i j, (i < n)%nat -> (j < n)%nat -> exists q, entry m i j = Some q /\ (q * inject_Z (Z.of_nat total) == inject_Z (gain_uv_map_to_uv_map f i j))%Q.
Proof.
  intros n theta ts int_time total draw rotate bs f T D E P F. destruct (C89_counts n theta ts int_time total draw rotate bs T D) as (f' & F' & V). assert (f' = f) by congruence. subst f'.
  destruct (C05_uv_daily_pixel n theta total (fun t => map (rotate (t - 1)%nat) bs) P) as (m & M & W). exists m. split; [exact M|]. intros i j Hi Hj. destruct (W i j Hi Hj) as (q & Q & Eq). exists q. split; [exact Q|].
  rewrite Eq, V, E. rewrite <- (sum_slices_nat total (fun t => hits 0 n theta (map (rotate t) bs) (Z.of_nat i) (Z.of_nat j))). field.
  intro X. unfold Qeq, inject_Z in X. cbn in X. lia.
Qed.
Print Assumptions C89_counts_plain.
(** On a grid of odd size the two maps put the same baseline on different cells: the mode of the mean is at (0, 0) here, but at the last cell of the map without
    gains. *)
Theorem C89_counts_odd_refuted : forall n theta ts int_time total g, Nat.odd n = true -> (1 < n)%nat -> ts <> [] -> (0 < total)%nat ->
  let b := (0, 0, 0)%Q in
  exists f m, uv_map_with_gains false n theta ts int_time total (fun _ => [(b, g)]) (fun _ x => x) = Some f /\ uv_daily false n theta total (fun _ => [b]) = Some m /\
  gain_uv_map_to_uv_map f 0 0 = Z.of_nat total /\ exists q, entry m 0 0 = Some q /\ (q == 0)%Q.
Proof.
  intros n theta ts int_time total g O N T P b. destruct (C89_counts n theta ts int_time total (fun _ => [(b, g)]) (fun _ x => x) [b] T (fun _ => eq_refl)) as (f & F & V).
  destruct (C05_uv_daily_pixel n theta total (fun _ => [b]) P) as (m & M & W). exists f, m. split; [exact F|]. split; [exact M|].
  assert (G : gx theta b = 0%Z /\ gy theta b = 0%Z).
  { assert (Z0 : PyBase.round_half_even (0 * theta)%Q = 0%Z) by (destruct theta as [a d]; reflexivity). split; exact Z0. }
  destruct G as [Gx Gy]. assert (R0 : in_range_b n 0 = true) by (unfold in_range_b; destruct (Z_le_dec (- Z.of_nat n) (2 * 0)); [|lia]; destruct (Z_lt_dec (2 * 0) (Z.of_nat n)); [reflexivity|lia]).
  split.
  - rewrite V. f_equal. rewrite (map_ext _ (fun _ => 1%nat)).
    + clear. rewrite <- (seq_length total 0) at 2. induction (seq 0 total) as [|a l IH]; [reflexivity|]. cbn [map list_sum fold_right length]. unfold list_sum in IH. rewrite IH. reflexivity.
    + intro t. unfold hits. cbn [map filter]. rewrite Gx, Gy, R0. rewrite Z.mod_0_l by lia. reflexivity.
  - destruct (W 0%nat 0%nat ltac:(lia) ltac:(lia)) as (q & Q & Eq). exists q. split; [exact Q|]. rewrite Eq.
    assert (Ev : Nat.even n = false) by (rewrite <- Nat.negb_odd, O; reflexivity). rewrite Ev.
    assert (H : hits (-1) n theta [b] (Z.of_nat 0) (Z.of_nat 0) = 0%nat).
    { unfold hits. cbn [map filter]. rewrite Gx, Gy, R0. assert (X : ((0 + -1) mod Z.of_nat n =? Z.of_nat 0)%Z = false). { rewrite <- (Z_mod_plus_full (0 + -1) 1), Z.mod_small by lia. lia. } rewrite X. reflexivity. }
    rewrite H. unfold sum_slices. clear. assert (S0 : (fold_right Qplus 0 (map (fun _ : nat => inject_Z (Z.of_nat 0)) (seq 1 total)) == 0)%Q).
    { induction (seq 1 total) as [|a l IH]; [reflexivity|]. cbn [map fold_right]. rewrite IH. reflexivity. }
    rewrite S0. unfold Qdiv. ring.
Qed.
Print Assumptions C89_counts_odd_refuted.
Example C89_counts_plain_sat : exists (draw : nat -> list (baseline * products)) bs f, (forall t, map fst (draw t) = bs) /\ Nat.even 4 = true /\
  uv_map_with_gains false 4 1 [10%nat] 10 3 draw (fun _ x => x) = Some f /\ gain_uv_map_to_uv_map f 1 0 = 3%Z.
Proof.
  destruct (C89_counts 4 1 [10%nat] 10 3 (fun t => [((1, 0, 0)%Q, Products (INR t) 0 1 0)]) (fun _ x => x) [(1, 0, 0)%Q] ltac:(discriminate) ltac:(reflexivity)) as (f & F & V).
  exists (fun t => [((1, 0, 0)%Q, Products (INR t) 0 1 0)]), [(1, 0, 0)%Q], f. split; [reflexivity|]. split; [reflexivity|]. split; [exact F|]. rewrite V. vm_compute. reflexivity.
Qed.
(** With perfect gains the response of an observation is that of the hit map without gains: [apply_uv_with_gains_response_on_image] with the gain map is
    [apply_uv_response_on_image] with the hit map taken from it. *)
Theorem C89_unit_gains : forall n theta ts int_time total draw rotate bs f x, ts <> [] -> (forall t, map fst (draw t) = bs) -> (forall t, equal_gains (1, 0) (draw t)) ->
  uv_map_with_gains false n theta ts int_time total draw rotate = Some f ->
  exists seen, apply_uv_response_on_image [n; n] [n; n] x (fun j => IZR (gain_uv_map_to_uv_map f (nth 0 j 0%nat) (nth 1 j 0%nat))) = Some seen /\ forall a, gains_response n f x a = seen a.
Proof.
  intros n theta ts int_time total draw rotate bs f x T D G F. unfold apply_uv_response_on_image. destruct (list_eq_dec Nat.eq_dec [n; n] [n; n]) as [_|N]; [|congruence]. eexists. split; [reflexivity|]. intro a.
  destruct (proj1 (C89_observation false n theta ts int_time draw rotate total) T) as (f' & F' & A & V). assert (f' = f) by congruence. subst f'. clear F'.
  destruct (C89_counts n theta ts int_time total draw rotate bs T D) as (f' & F' & C). assert (f' = f) by congruence. subst f'. clear F'.
  assert (EG : forall t t0, equal_gains (1, 0) (map (fun r => (rotate t (fst r), snd r)) (draw t0))) by (intros t t0 r I; apply in_map_iff in I; destruct I as (r0 & <- & I); exact (G t0 r0 I)).
  assert (H1 : forall i j, f i j 1%nat = f i j 0%nat).
  { intros i j. rewrite !V. apply rsum_ext. intros t _. destruct (A t) as (t0 & -> & _). destruct (equal_cell false n theta _ (1, 0) i j (EG t t0)) as (E1 & _). rewrite E1. cbn [fst]. ring. }
  assert (H2 : forall i j, f i j 2%nat = 0).
  { intros i j. rewrite !V. rewrite (rsum_ext _ (fun _ => 0)); [rewrite rsum_const; ring|]. intros t _. destruct (A t) as (t0 & -> & _). destruct (equal_cell false n theta _ (1, 0) i j (EG t t0)) as (_ & E2 & _). rewrite E2. cbn [snd]. ring. }
  assert (H0 : forall i j, f i j 0%nat = IZR (gain_uv_map_to_uv_map f i j)).
  { intros i j. rewrite C, <- INR_IZR_INZ, <- rsum_nat, V. apply rsum_ext. intros t _. destruct (A t) as (t0 & -> & _). rewrite cell_hits. do 2 f_equal. rewrite map_map. cbn [fst]. rewrite <- (D t0), map_map. reflexivity. }
  unfold gains_response, response, ifft_re. f_equal. apply rsum_ext. intros j _. unfold masked, eff_re, eff_im. cbv zeta. rewrite H1, H2, <- H0. set (h := f (nth 0 j 0%nat) (nth 1 j 0%nat) 0%nat).
  destruct (Req_EM_T h 0) as [Z0|Z0]; [ring|]. replace (h / h) with 1 by (field; exact Z0). replace (0 / h) with 0 by (field; exact Z0). destruct (csqrt_real 1 ltac:(lra)) as [-> ->]. rewrite sqrt_1. ring.
Qed.
Print Assumptions C89_unit_gains.
Example C89_unit_gains_sat : exists (draw : nat -> list (baseline * products)) bs f, length bs = 2%nat /\ (forall t, map fst (draw t) = bs) /\ (forall t, equal_gains (1, 0) (draw t)) /\
  uv_map_with_gains false 4 1 [10%nat] 10 3 draw (fun _ x => x) = Some f.
Proof.
  set (draw := fun _ : nat => [((1, 0, 0)%Q, product (1, 0) (1, 0)); ((0, -2, 1)%Q, product (1, 0) (1, 0))]).
  destruct (C89_counts 4 1 [10%nat] 10 3 draw (fun _ x => x) [(1, 0, 0)%Q; (0, -2, 1)%Q] ltac:(discriminate) ltac:(reflexivity)) as (f & F & _).
  exists draw, [(1, 0, 0)%Q; (0, -2, 1)%Q], f. split; [reflexivity|]. split; [reflexivity|]. split; [|exact F]. intros t r [<- |[<- |[]]]; reflexivity.
Qed.
