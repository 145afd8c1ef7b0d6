From Coq Require Import List Arith ZArith Bool Lia.
From Verif Require Import PadModel.
Import ListNotations.
Local Open Scope nat_scope.

Ltac fits := repeat match goal with
  | |- context [?a =? ?b] => destruct (Nat.eqb_spec a b); try lia
  end.
Lemma mod_twice : forall i n, n <= i -> i < 2 * n -> i mod n = i - n.
Proof. intros i n H1 H2. symmetry. apply (Nat.mod_unique i n 1); lia. Qed.

(** * Success: periodic continuation *)
Theorem C42_padded_slice : forall {A} (zero : A) n m x p, 0 < n -> m = n \/ m = 1 -> n = 1 \/ n <= p <= 2 * n ->
  exists out, get_padded_slice zero (n, m, x) p = Some (p, p, out) /\
  forall i j, i < p -> j < p -> out i j = x (i mod n) (j mod m).
Proof.
  intros A zero n m x p N M P. destruct (Nat.eq_dec n 1) as [->|N1].
  - assert (m = 1) as -> by lia. unfold get_padded_slice, assign, bind, fits_axis, slice_to.
    replace (Z.of_nat 1 <? 0)%Z with false by reflexivity. rewrite Nat2Z.id.
    destruct (Nat.eq_dec p 0) as [->|P0]; [cbn; eexists; split; [reflexivity|]; intros; lia|].
    replace (Z.of_nat p - Z.of_nat 1 <? 0)%Z with false by (symmetry; apply Z.ltb_ge; lia).
    replace (Z.to_nat (Z.of_nat p - Z.of_nat 1)) with (p - 1) by lia.
    replace (Nat.min 1 p) with 1 by lia. replace (Nat.min p p) with p by lia. change (Nat.min 1 1) with 1. change (1 - 0) with 1.
    destruct (Nat.eq_dec p 1) as [->|P1].
    + cbn. eexists. split; [reflexivity|]. intros [|i] [|j] Hi Hj; try lia. reflexivity.
    + replace (Nat.min (p - 1) 1) with 1 by lia. change (1 =? 1) with true. assert (H1p : Nat.min 1 p = 1) by lia.
      repeat (rewrite ?H1p, ?Nat.min_id, ?Nat.sub_0_r, ?orb_true_r; cbn [andb]).
      eexists. split; [reflexivity|]. intros i j Hi Hj. rewrite !Nat.mod_1_r.
      destruct (Nat.leb_spec 1 i); destruct (Nat.ltb_spec i p); destruct (Nat.leb_spec 1 j); destruct (Nat.ltb_spec j p); destruct (Nat.leb_spec 0 i); destruct (Nat.ltb_spec i 1); destruct (Nat.leb_spec 0 j); destruct (Nat.ltb_spec j 1); try lia; reflexivity.
  - destruct P as [P|P]; [lia|]. unfold get_padded_slice, assign, bind, fits_axis, slice_to.
    replace (Z.of_nat n <? 0)%Z with false by (symmetry; apply Z.ltb_ge; lia). rewrite Nat2Z.id.
    replace (Z.of_nat p - Z.of_nat n <? 0)%Z with false by (symmetry; apply Z.ltb_ge; lia).
    replace (Z.to_nat (Z.of_nat p - Z.of_nat n)) with (p - n) by lia.
    replace (Nat.min n p) with n by lia. replace (Nat.min p p) with p by lia. replace (Nat.min (p - n) n) with (p - n) by lia. rewrite !Nat.sub_0_r.
    destruct M as [M|M]; subst m.
    + assert (Hnp : Nat.min n p = n) by lia. assert (Hpn : Nat.min (p - n) n = p - n) by lia.
      repeat (rewrite ?Hnp, ?Hpn, ?Nat.min_id, ?Nat.sub_0_r, ?Nat.eqb_refl; cbn [orb andb]). eexists. split; [reflexivity|].
      intros i j Hi Hj. destruct (Nat.eqb_spec n 1); [lia|].
      destruct (Nat.leb_spec n i) as [Li|Li]; destruct (Nat.leb_spec n j) as [Lj|Lj]; rewrite ?(mod_twice i n), ?(mod_twice j n), ?(Nat.mod_small i n), ?(Nat.mod_small j n) by lia;
      destruct (Nat.ltb_spec i p); destruct (Nat.ltb_spec j p); destruct (Nat.leb_spec 0 i); destruct (Nat.ltb_spec i n); destruct (Nat.leb_spec 0 j); destruct (Nat.ltb_spec j n); try lia; cbn [andb]; rewrite ?Nat.sub_0_r; try reflexivity; f_equal; fits.
    + assert (Hnp : Nat.min n p = n) by lia. assert (Hpn : Nat.min (p - n) n = p - n) by lia. assert (Hn1 : Nat.min n 1 = 1) by lia.
      assert (Hq : (Nat.min (p - n) 1 =? p - n) || (Nat.min (p - n) 1 =? 1) = true).
      { destruct (Nat.eq_dec p n) as [->|]; [rewrite Nat.sub_diag; reflexivity|]. replace (Nat.min (p - n) 1) with 1 by lia. rewrite orb_true_r. reflexivity. }
      repeat (rewrite ?Hnp, ?Hpn, ?Hn1, ?Hq, ?Nat.min_id, ?Nat.sub_0_r, ?Nat.eqb_refl, ?orb_true_r; cbn [orb andb]). eexists. split; [reflexivity|].
      intros i j Hi Hj. rewrite Nat.mod_1_r. destruct (Nat.eqb_spec n 1); [lia|].
      destruct (Nat.leb_spec n i) as [Li|Li]; destruct (Nat.leb_spec n j) as [Lj|Lj]; rewrite ?(mod_twice i n), ?(Nat.mod_small i n) by lia;
      destruct (Nat.ltb_spec i p); destruct (Nat.ltb_spec j p); destruct (Nat.leb_spec 0 i); destruct (Nat.ltb_spec i n); destruct (Nat.leb_spec 0 j); destruct (Nat.ltb_spec j n); try lia; cbn [andb]; rewrite ?Nat.sub_0_r; try reflexivity; f_equal; fits.
Qed.
Print Assumptions C42_padded_slice.
Example C42_padded_slice_sat : 0 < 4 /\ (4 = 4 \/ 4 = 1) /\ (4 = 1 \/ 4 <= 7 <= 2 * 4). Proof. lia. Qed.

(** It raises in all other cases: non-square slices, targets smaller than the slice or more
    than twice as large. *)
Theorem C42_padded_slice_iff : forall {A} (zero : A) n m x p, 0 < n -> 0 < m ->
  ((exists out, get_padded_slice zero (n, m, x) p = Some out) <-> (m = n \/ m = 1) /\ (n = 1 \/ n <= p <= 2 * n)).
Proof.
  intros A zero n m x p N M. split.
  - intros [out E]. unfold get_padded_slice in E. unfold bind at 1 in E.
    destruct (assign (p, p, fun _ _ => zero) 0 n 0 n (n, m, x)) as [p1|] eqn:E1; [|discriminate].
    unfold bind at 1 in E. destruct (assign p1 n p 0 n (slice_to n (Z.of_nat p - Z.of_nat n), slice_to m (Z.of_nat n), x)) as [p2|] eqn:E2; [|discriminate].
    clear E. unfold assign in E1. unfold fits_axis in E1. rewrite !Nat.sub_0_r in E1.
    destruct (((n =? Nat.min n p) || (n =? 1)) && ((m =? Nat.min n p) || (m =? 1))) eqn:T; [|discriminate]. injection E1 as E1. subst p1.
    apply andb_true_iff in T. destruct T as [T1 T2]. apply orb_true_iff in T1. apply orb_true_iff in T2. rewrite !Nat.eqb_eq in T1, T2.
    unfold assign, fits_axis in E2. destruct (((slice_to n (Z.of_nat p - Z.of_nat n) =? Nat.min p p - n) || (slice_to n (Z.of_nat p - Z.of_nat n) =? 1)) && _) eqn:T; [|discriminate].
    apply andb_true_iff in T. destruct T as [T3 _]. apply orb_true_iff in T3. rewrite !Nat.eqb_eq in T3. unfold slice_to in T3. rewrite Nat.min_id in T3.
    destruct (Z.ltb_spec (Z.of_nat p - Z.of_nat n) 0) as [Z|Z]; [|].
    + lia.
    + lia.
  - intros [H1 H2]. destruct (C42_padded_slice zero n m x p N H1 H2) as [out [E _]]. eauto.
Qed.
Print Assumptions C42_padded_slice_iff.
Example C42_padded_slice_iff_sat : exists (n : nat) (m : nat), 0 < n /\ 0 < m.
Proof. exists 6%nat, 4%nat. repeat split; lia. Qed.

(** Cropping gives back the input. *)
Corollary C42_crop_back : forall {A} (zero : A) n x p out, 0 < n -> get_padded_slice zero (n, n, x) p = Some out ->
  forall i j, i < n -> j < n -> i < p -> j < p -> snd out i j = x i j.
Proof.
  intros A zero n x p out N E i j Hi Hj Pi Pj. destruct (proj1 (C42_padded_slice_iff zero n n x p N N) (ex_intro _ out E)) as [H1 H2].
  destruct (C42_padded_slice zero n n x p N H1 H2) as [o [F G]]. rewrite F in E. injection E as <-. cbn [snd]. rewrite G by assumption. rewrite !Nat.mod_small by assumption. reflexivity.
Qed.

(** * Padding of a light cone *)
Theorem C42_padding_lightcone : forall {A} n m l (lc : nat -> nat -> nat -> A) o, 0 < n -> 0 < m ->
  let p := match o with Some p => p | None => m / 2 end in
  exists out, padding_lightcone n m l lc o = (n + 2 * p, m + 2 * p, l, out) /\
  (forall i j k, i < n -> j < m -> out (i + p) (j + p) k = lc i j k) /\
  (forall i j k, out (i + n) j k = out i j k) /\ (forall i j k, out i (j + m) k = out i j k).
Proof.
  intros A n m l lc o N M p. eexists. split; [reflexivity|]. split; [|split].
  - intros i j k Hi Hj. f_equal.
    + fold p. rewrite Nat2Z.inj_add, Z.add_simpl_r. rewrite Z.mod_small by lia. apply Nat2Z.id.
    + fold p. rewrite Nat2Z.inj_add, Z.add_simpl_r. rewrite Z.mod_small by lia. apply Nat2Z.id.
  - intros i j k. f_equal. f_equal. rewrite Nat2Z.inj_add. replace (Z.of_nat i + Z.of_nat n - Z.of_nat match o with Some p0 => p0 | None => m / 2 end)%Z with (Z.of_nat i - Z.of_nat match o with Some p0 => p0 | None => m / 2 end + 1 * Z.of_nat n)%Z by lia. apply Z.mod_add. lia.
  - intros i j k. f_equal. f_equal. rewrite Nat2Z.inj_add. replace (Z.of_nat j + Z.of_nat m - Z.of_nat match o with Some p0 => p0 | None => m / 2 end)%Z with (Z.of_nat j - Z.of_nat match o with Some p0 => p0 | None => m / 2 end + 1 * Z.of_nat m)%Z by lia. apply Z.mod_add. lia.
Qed.
Print Assumptions C42_padding_lightcone.
Example C42_padding_lightcone_sat : exists (n : nat) (m : nat), 0 < n /\ 0 < m.
Proof. exists 6%nat, 4%nat. repeat split; lia. Qed.
