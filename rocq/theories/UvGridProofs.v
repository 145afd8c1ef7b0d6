(** Proofs about the gridding of uv tracks. *)
From Coq Require Import List Arith ZArith QArith Lia Bool ZifyBool.
From Verif Require Import PyBase PyBaseProofs UvGridModel UvGridSpec.
Import ListNotations.
Local Open Scope nat_scope.
Ltac Zify.zify_post_hook ::= Z.div_mod_to_equations.

(** Offset between a baseline's coordinates and its pixel: 0 for even grids,
    -1 for odd ones. *)
Definition shift (n : nat) : Z := if Nat.even n then 0%Z else (-1)%Z.

Lemma in_range_b_bound n x : in_range_b n x = in_bound n x.
Proof.
  unfold in_range_b, in_bound.
  destruct (Z_le_dec (- Z.of_nat n) (2 * x)), (Z_lt_dec (2 * x) (Z.of_nat n)); lia.
Qed.

Lemma half n : (Z.of_nat (n / 2) = Z.of_nat n / 2)%Z.
Proof. exact (Nat2Z.inj_div n 2). Qed.

(** Where the shifted array looks: cell [i] of the output is cell
    [x + n/2] of the histogram iff [(x + shift) mod n = i]. *)
Lemma shifted_cell n i x :
  i < n -> in_bound n x = true ->
  (Z.of_nat ((i + (n - n / 2)) mod n) = x + Z.of_nat (n / 2))%Z
  <-> ((x + shift n) mod Z.of_nat n = Z.of_nat i)%Z.
Proof.
  intros Hi Hb. unfold in_bound in Hb. unfold shift.
  rewrite Nat2Z.inj_mod, Nat2Z.inj_add, Nat2Z.inj_sub by (apply Nat.div_le_upper_bound; lia).
  rewrite half. set (N := Z.of_nat n) in *.
  assert (HN : (0 < N)%Z) by lia.
  assert (Hi' : (0 <= Z.of_nat i < N)%Z) by lia.
  set (I := Z.of_nat i) in *. clearbody I.
  destruct (Nat.even n) eqn:Ev.
  - assert (exists k, N = 2 * k)%Z as [k Hk].
    { apply Nat.even_spec in Ev as [k ->]. exists (Z.of_nat k). unfold N. lia. }
    clearbody N. subst N. replace (2 * k / 2)%Z with k by lia.
    replace (x + 0)%Z with x by lia.
    assert (0 <= x + k < 2 * k)%Z by lia.
    split; intros H1.
    + assert (E : exists q, (x = I + 2 * k * q)%Z).
      { exists (- ((I + (2 * k - k)) / (2 * k)))%Z.
        pose proof (Z.div_mod (I + (2 * k - k)) (2 * k) ltac:(lia)). lia. }
      destruct E as [q ->]. rewrite (Z.mul_comm (2 * k) q), Z.mod_add by lia.
      apply Z.mod_small. lia.
    + rewrite <- H1. replace (x mod (2 * k) + (2 * k - k))%Z with (x mod (2*k) + k)%Z by lia.
      rewrite Zplus_mod_idemp_l. apply Z.mod_small. lia.
  - assert (exists k, N = 2 * k + 1)%Z as [k Hk].
    { rewrite <- Nat.negb_odd in Ev. apply negb_false_iff in Ev.
      apply Nat.odd_spec in Ev as [k ->]. exists (Z.of_nat k). unfold N. lia. }
    clearbody N. subst N. replace ((2 * k + 1) / 2)%Z with k by lia.
    assert (0 <= x + k < 2 * k + 1)%Z by lia.
    split; intros H1.
    + assert (E : exists q, (x + -1 = I + (2 * k + 1) * q)%Z).
      { exists (1 - 1 - ((I + (2 * k + 1 - k)) / (2 * k + 1)))%Z.
        pose proof (Z.div_mod (I + (2 * k + 1 - k)) (2 * k + 1) ltac:(lia)). lia. }
      destruct E as [q ->]. rewrite (Z.mul_comm (2 * k + 1) q), Z.mod_add by lia. apply Z.mod_small. lia.
    + rewrite <- H1.
      rewrite Zplus_mod_idemp_l. replace (x + -1 + (2 * k + 1 - k))%Z with (x + k)%Z by lia.
      apply Z.mod_small. lia.
Qed.

Lemma flat_index_range n p : mask n p = true ->
  (0 <= flat_index n p < Z.of_nat (n * n))%Z.
Proof.
  destruct p as [x y]. unfold mask, in_bound, flat_index; cbn [fst snd]. intros H.
  rewrite half, Nat2Z.inj_mul. set (N := Z.of_nat n) in *.
  assert (0 <= x + N / 2 <= N - 1)%Z by lia.
  assert (0 <= y + N / 2 <= N - 1)%Z by lia. nia.
Qed.

Lemma fold_max_bound (xs : list Z) m :
  (forall x, In x xs -> (0 <= x < Z.of_nat m)%Z) ->
  fold_right (fun x a => Nat.max (S (Z.to_nat x)) a) 0 xs <= m.
Proof.
  induction xs as [|x xs IH]; cbn [fold_right]; intros H; [lia|].
  assert (Hx : (0 <= x < Z.of_nat m)%Z) by (apply H; now left).
  apply Nat.max_lub; [lia|]. apply IH. intros y Hy. apply H. now right.
Qed.

Lemma bincount_ok xs m :
  (forall x, In x xs -> (0 <= x < Z.of_nat m)%Z) ->
  bincount xs m = Some (map (fun i => count_occ Z.eq_dec xs (Z.of_nat i)) (seq 0 m)).
Proof.
  intros H. unfold bincount.
  destruct (existsb (fun x => (x <? 0)%Z) xs) eqn:E.
  - apply existsb_exists in E as (x & Hx & Hlt). specialize (H x Hx). lia.
  - rewrite Nat.max_l; [reflexivity|]. now apply fold_max_bound.
Qed.

Lemma count_occ_map_filter {A} (g : A -> Z) (p : A -> bool) l v :
  count_occ Z.eq_dec (map g (filter p l)) v
  = length (filter (fun a => p a && (g a =? v)%Z) l).
Proof.
  induction l as [|a l IH]; simpl; [reflexivity|].
  destruct (p a); simpl; [|exact IH].
  destruct (Z.eq_dec (g a) v) as [E|E].
  - rewrite E, Z.eqb_refl. simpl. now rewrite IH.
  - rewrite IH. replace (g a =? v)%Z with false by (symmetry; now apply Z.eqb_neq). reflexivity.
Qed.

Lemma filter_map_length {A B} (g : A -> B) (p : B -> bool) l :
  length (filter p (map g l)) = length (filter (fun a => p (g a)) l).
Proof.
  induction l as [|a l IH]; simpl; [reflexivity|].
  destruct (p (g a)); simpl; now rewrite IH.
Qed.

Lemma nth_map_seq {A} (g : nat -> A) d m k : k < m -> nth k (map g (seq 0 m)) d = g k.
Proof.
  intros H. rewrite nth_indep with (d' := g 0) by (now rewrite map_length, seq_length).
  rewrite map_nth, seq_nth by exact H. reflexivity.
Qed.

Lemma table2_ext {A} n (f g : nat -> nat -> A) :
  (forall i j, i < n -> j < n -> f i j = g i j) -> table2 n f = table2 n g.
Proof.
  intros H. unfold table2. apply map_ext_in. intros i Hi. apply map_ext_in. intros j Hj.
  apply in_seq in Hi, Hj. apply H; lia.
Qed.

Definition scale (mirror : bool) (k : nat) : Q :=
  (if mirror then inject_Z (Z.of_nat k) / 2 else inject_Z (Z.of_nat k))%Q.

Definition all_baselines (mirror : bool) (bs : list baseline) : list baseline :=
  if mirror then bs ++ map bneg bs else bs.

(** The whole function in one equation. *)
Lemma grid_eq mirror n theta bs :
  grid_uv_tracks mirror n theta bs
  = Some (table2 n (fun i j =>
      scale mirror (hits (shift n) n theta (all_baselines mirror bs) (Z.of_nat i) (Z.of_nat j)))).
Proof.
  unfold grid_uv_tracks. fold (all_baselines mirror bs).
  set (L := all_baselines mirror bs).
  rewrite bincount_ok.
  2:{ intros x Hx. apply in_map_iff in Hx as (p & <- & Hp). apply filter_In in Hp as [_ Hp].
      now apply flat_index_range. }
  unfold reshape2. rewrite map_length, seq_length, Nat.eqb_refl.
  f_equal. apply table2_ext. intros i j Hi Hj.
  unfold fftshift2.
  set (a := (i + (n - n / 2)) mod n). set (b := (j + (n - n / 2)) mod n).
  assert (Ha : a < n) by (apply Nat.mod_upper_bound; lia).
  assert (Hb : b < n) by (apply Nat.mod_upper_bound; lia).
  assert (E : nth (a * n + b)
            (map (fun i0 => count_occ Z.eq_dec
               (map (flat_index n) (filter (mask n) (map (pix theta) L))) (Z.of_nat i0))
               (seq 0 (n * n))) 0
          = hits (shift n) n theta L (Z.of_nat i) (Z.of_nat j)).
  { rewrite nth_map_seq by nia. rewrite count_occ_map_filter, filter_map_length.
    unfold hits. f_equal. apply filter_ext. intros bl.
    rewrite !in_range_b_bound. unfold mask, pix; cbn [fst snd].
    fold (gx theta bl). fold (gy theta bl).
    set (x := gx theta bl). set (y := gy theta bl).
    destruct (in_bound n x) eqn:Ex; [|reflexivity].
    destruct (in_bound n y) eqn:Ey; [|reflexivity]. simpl.
    pose proof (shifted_cell n i x Hi Ex) as Sx. fold a in Sx.
    pose proof (shifted_cell n j y Hj Ey) as Sy. fold b in Sy.
    unfold flat_index; cbn [fst snd].
    assert (Rx : (0 <= x + Z.of_nat (n / 2) < Z.of_nat n)%Z)
      by (rewrite half; unfold in_bound in Ex; lia).
    assert (Ry : (0 <= y + Z.of_nat (n / 2) < Z.of_nat n)%Z)
      by (rewrite half; unfold in_bound in Ey; lia).
    set (X := (x + Z.of_nat (n / 2))%Z) in *. set (Y := (y + Z.of_nat (n / 2))%Z) in *.
    apply eq_true_iff_eq. rewrite Z.eqb_eq, andb_true_iff, !Z.eqb_eq, <- Sx, <- Sy.
    split.
    - intros H. split; nia.
    - intros [<- <-]. lia. }
  rewrite E. unfold scale. destruct mirror; reflexivity.
Qed.

Lemma entry_table2 {A} n (f : nat -> nat -> A) i j :
  i < n -> j < n -> entry (table2 n f) i j = Some (f i j).
Proof.
  intros Hi Hj. unfold entry, table2.
  rewrite nth_error_map, nth_error_nth' with (d := 0) by (now rewrite seq_length).
  rewrite seq_nth by exact Hi. simpl.
  rewrite nth_error_map, nth_error_nth' with (d := 0) by (now rewrite seq_length).
  rewrite seq_nth by exact Hj. reflexivity.
Qed.

Lemma table2_shape {A} n (f : nat -> nat -> A) :
  length (table2 n f) = n /\ Forall (fun r => length r = n) (table2 n f).
Proof.
  unfold table2. split; [now rewrite map_length, seq_length|].
  apply Forall_forall. intros r Hr. apply in_map_iff in Hr as (i & <- & _).
  now rewrite map_length, seq_length.
Qed.

(** ** Sums *)

Definition sum2 (n : nat) (h : nat -> nat -> nat) : nat :=
  list_sum (map (fun i => list_sum (map (h i) (seq 0 n))) (seq 0 n)).

Lemma list_sum_add {A} (f g : A -> nat) l :
  list_sum (map (fun a => f a + g a) l) = list_sum (map f l) + list_sum (map g l).
Proof. induction l as [|a l IH]; simpl; [reflexivity|]. rewrite IH. lia. Qed.

Lemma sum2_add n f g : sum2 n (fun i j => f i j + g i j) = sum2 n f + sum2 n g.
Proof.
  unfold sum2. rewrite <- list_sum_add. f_equal. apply map_ext. intros i.
  apply list_sum_add.
Qed.

Lemma sum_indicator n a : (0 <= a < Z.of_nat n)%Z -> forall k,
  list_sum (map (fun j => if (a =? Z.of_nat j)%Z then k else 0) (seq 0 n)) = k.
Proof.
  intros H k.
  assert (G : forall s m, list_sum (map (fun j => if (a =? Z.of_nat j)%Z then k else 0) (seq s m))
     = if (Z.of_nat s <=? a)%Z && (a <? Z.of_nat (s + m))%Z then k else 0).
  { intros s m. revert s. induction m as [|m IH]; intros s; simpl.
    - replace (s + 0) with s by lia.
      destruct (Z.of_nat s <=? a)%Z eqn:E1, (a <? Z.of_nat s)%Z eqn:E2; simpl; lia.
    - rewrite IH. destruct (a =? Z.of_nat s)%Z eqn:E1;
      destruct ((Z.of_nat (S s) <=? a)%Z && (a <? Z.of_nat (S s + m))%Z) eqn:E2;
      destruct ((Z.of_nat s <=? a)%Z && (a <? Z.of_nat (s + S m))%Z) eqn:E3; lia. }
  rewrite G. replace ((Z.of_nat 0 <=? a)%Z && (a <? Z.of_nat (0 + n))%Z) with true; [reflexivity|lia].
Qed.

Lemma sum2_indicator n a b : (0 <= a < Z.of_nat n)%Z -> (0 <= b < Z.of_nat n)%Z ->
  sum2 n (fun i j => if (a =? Z.of_nat i)%Z && (b =? Z.of_nat j)%Z then 1 else 0) = 1.
Proof.
  intros Ha Hb. unfold sum2.
  rewrite <- (sum_indicator n a Ha 1) at 1. f_equal. apply map_ext. intros i.
  destruct (a =? Z.of_nat i)%Z; simpl.
  - now apply sum_indicator.
  - induction (seq 0 n); simpl; auto.
Qed.

Lemma sum2_zero n : sum2 n (fun _ _ => 0) = 0.
Proof.
  unfold sum2. induction (seq 0 n) as [|a l IH] at 2; simpl; [reflexivity|].
  rewrite IH. induction (seq 0 n); simpl; auto.
Qed.

Lemma sum2_ext n f g : (forall i j, f i j = g i j) -> sum2 n f = sum2 n g.
Proof. intros H. unfold sum2. f_equal. apply map_ext. intros. f_equal. apply map_ext. auto. Qed.

Lemma sum2_hits s n theta bs :
  sum2 n (fun i j => hits s n theta bs (Z.of_nat i) (Z.of_nat j)) = visible n theta bs.
Proof.
  induction bs as [|b bs IH].
  - apply sum2_zero.
  - unfold visible in *. simpl.
    set (v := in_range_b n (gx theta b) && in_range_b n (gy theta b)).
    rewrite (sum2_ext n _ (fun i j =>
       (if v && (((gx theta b + s) mod Z.of_nat n =? Z.of_nat i)%Z
                 && ((gy theta b + s) mod Z.of_nat n =? Z.of_nat j)%Z) then 1 else 0)
       + hits s n theta bs (Z.of_nat i) (Z.of_nat j))).
    2:{ intros i j. unfold hits. simpl. fold v. rewrite <- andb_assoc.
        destruct (v && _); reflexivity. }
    rewrite sum2_add, IH. destruct v eqn:Ev; simpl.
    + assert (0 < n).
      { unfold v in Ev. rewrite !in_range_b_bound in Ev. unfold in_bound in Ev. lia. }
      rewrite sum2_indicator; [reflexivity| |]; apply Z.mod_pos_bound; lia.
    + now rewrite sum2_zero.
Qed.

Lemma Qsum_scale mirror (h : nat -> nat) l :
  (fold_right Qplus 0 (map (fun j => scale mirror (h j)) l)
   == scale mirror (list_sum (map h l)))%Q.
Proof.
  induction l as [|a l IH]; simpl; [destruct mirror; reflexivity|].
  rewrite IH. unfold scale. rewrite Nat2Z.inj_add, inject_Z_plus.
  destruct mirror; field.
Qed.

Lemma total_scale mirror n h :
  (total (table2 n (fun i j => scale mirror (h i j))) == scale mirror (sum2 n h))%Q.
Proof.
  unfold total, table2, sum2. rewrite map_map.
  rewrite <- Qsum_scale.
  induction (seq 0 n) as [|i l IH] at 2 4; simpl; [reflexivity|].
  rewrite IH. rewrite Qsum_scale. reflexivity.
Qed.

Lemma grid_total mirror n theta bs m :
  grid_uv_tracks mirror n theta bs = Some m ->
  (total m == scale mirror (visible n theta (all_baselines mirror bs)))%Q.
Proof.
  rewrite grid_eq. intros H. injection H as <-.
  rewrite total_scale, sum2_hits. reflexivity.
Qed.

(** ** Mirror symmetry *)

Lemma gx_bneg theta b : gx theta (bneg b) = (- gx theta b)%Z.
Proof.
  unfold gx, bneg, bu; simpl. rewrite <- round_half_even_opp.
  apply round_half_even_Qeq. ring.
Qed.

Lemma gy_bneg theta b : gy theta (bneg b) = (- gy theta b)%Z.
Proof.
  unfold gy, bneg, bv; simpl. rewrite <- round_half_even_opp.
  apply round_half_even_Qeq. ring.
Qed.

Lemma hits_app s n theta l1 l2 i j :
  hits s n theta (l1 ++ l2) i j = hits s n theta l1 i j + hits s n theta l2 i j.
Proof. unfold hits. now rewrite filter_app, app_length. Qed.

(** Negating an in-range coordinate whose residue is not the Nyquist one. *)
Lemma neg_coord k x i :
  (0 < k)%Z -> (0 <= i < 2 * k)%Z -> i <> k ->
  ((- (2 * k) <= 2 * (- x) < 2 * k) /\ ((- x) mod (2 * k) = i)
   <-> (- (2 * k) <= 2 * x < 2 * k) /\ (x mod (2 * k) = (- i) mod (2 * k)))%Z.
Proof.
  intros Hk Hi Hn.
  assert (A : forall y j, (0 <= j < 2 * k -> (y mod (2 * k) = j <-> exists q, y = 2 * k * q + j))%Z).
  { intros y j Hj. split.
    - intros <-. exists (y / (2 * k))%Z. apply Z.div_mod. lia.
    - intros [q ->]. rewrite Z.add_comm, (Z.mul_comm (2 * k) q), Z.mod_add by lia. apply Z.mod_small. lia. }
  assert (B : ((- i) mod (2 * k) = if i =? 0 then 0 else 2 * k - i)%Z).
  { destruct (Z.eqb_spec i 0) as [->|Hi0]; [reflexivity|].
    rewrite A by lia. exists (-1)%Z. lia. }
  rewrite B. rewrite A by lia. destruct (Z.eqb_spec i 0) as [->|Hi0].
  - rewrite (A x 0%Z) by lia. split; intros [H1 [q Hq]].
    + split; [assert (x <> k)%Z; [intros ->; assert (E : (k * (2 * q + 1) = 0)%Z) by (rewrite <- (Z.add_0_r (2*k*q)) in Hq; nia); apply Z.mul_eq_0 in E; lia|lia]|]. exists (- q)%Z. try (apply Z.opp_inj; rewrite Hq); try rewrite Hq; ring.
    + split; [assert (x <> - k)%Z; [intros ->; assert (E : (k * (2 * q + 1) = 0)%Z) by nia; apply Z.mul_eq_0 in E; lia|lia]|]. exists (- q)%Z. try (apply Z.opp_inj; rewrite Hq); try rewrite Hq; ring.
  - rewrite (A x (2 * k - i)%Z) by lia. split; intros [H1 [q Hq]].
    + split; [|exists (- q - 1)%Z; try (apply Z.opp_inj; rewrite Hq); try rewrite Hq; ring]. assert (x <> k)%Z; [|lia]. intros ->. assert (E : (k * (2 * q + 1) = - i)%Z) by nia.
      assert (2 * q + 1 = -1 \/ 2 * q + 1 <= -3 \/ 2 * q + 1 >= 1)%Z as [C|[C|C]] by lia; nia.
    + split; [|exists (- q - 1)%Z; try (apply Z.opp_inj; rewrite Hq); try rewrite Hq; ring]. assert (x <> - k)%Z; [|lia].
      intros ->. assert (Hq' : (k * (2 * q + 3) = i)%Z) by lia.
      assert (2 * q + 3 = 1 \/ 2 * q + 3 <= -1 \/ 2 * q + 3 >= 3)%Z as [C|[C|C]] by lia; nia.
Qed.

Lemma hits_neg k theta bs i j :
  (0 <= i < 2 * Z.of_nat k)%Z -> (0 <= j < 2 * Z.of_nat k)%Z ->
  i <> Z.of_nat k -> j <> Z.of_nat k ->
  hits 0 (2 * k) theta (map bneg bs) i j
  = hits 0 (2 * k) theta bs ((- i) mod Z.of_nat (2 * k)) ((- j) mod Z.of_nat (2 * k)).
Proof.
  intros Hi Hj Hin Hjn. assert (Hk : (0 < Z.of_nat k)%Z) by lia.
  unfold hits. rewrite filter_map_length. f_equal.
  apply filter_ext. intros b. rewrite gx_bneg, gy_bneg.
  set (x := gx theta b). set (y := gy theta b).
  rewrite !in_range_b_bound. unfold in_bound.
  rewrite !Nat2Z.inj_mul. change (Z.of_nat 2) with 2%Z.
  rewrite !Z.add_0_r.
  pose proof (neg_coord (Z.of_nat k) x i Hk Hi Hin) as Cx.
  pose proof (neg_coord (Z.of_nat k) y j Hk Hj Hjn) as Cy.
  apply eq_true_iff_eq.
  rewrite !andb_true_iff, !Z.ltb_lt, !Z.leb_le, !Z.eqb_eq.
  set (K := (2 * Z.of_nat k)%Z) in *. tauto.
Qed.

Lemma mirror_symmetric k theta bs m i j :
  grid_uv_tracks true (2 * k) theta bs = Some m ->
  i < 2 * k -> j < 2 * k -> i <> k -> j <> k ->
  entry m i j = entry m ((2 * k - i) mod (2 * k)) ((2 * k - j) mod (2 * k)).
Proof.
  rewrite grid_eq. intros H Hi Hj Hin Hjn.
  match type of H with Some ?t = _ => assert (E : m = t) by congruence end.
  rewrite E; clear E H.
  rewrite !entry_table2 by (try apply Nat.mod_upper_bound; lia).
  apply f_equal, f_equal.
  assert (Es : shift (2 * k) = 0%Z).
  { unfold shift. rewrite Nat.even_mul. reflexivity. }
  rewrite Es. unfold all_baselines. rewrite !hits_app.
  assert (R : forall a, a < 2 * k -> Z.of_nat ((2 * k - a) mod (2 * k)) = ((- Z.of_nat a) mod Z.of_nat (2 * k))%Z).
  { intros a Ha. rewrite Nat2Z.inj_mod, Nat2Z.inj_sub by lia.
    rewrite <- (Z.mod_add (- Z.of_nat a) 1) by lia. f_equal. lia. }
  assert (NN : forall a, (0 <= a < Z.of_nat (2 * k))%Z ->
             ((- ((- a) mod Z.of_nat (2 * k))) mod Z.of_nat (2 * k) = a)%Z).
  { intros a Ha. set (N := Z.of_nat (2 * k)) in *.
    pose proof (Z.div_mod (- a) N ltac:(lia)) as D.
    replace (- ((- a) mod N))%Z with (a + (- a / N) * N)%Z by lia.
    rewrite Z.mod_add by lia. apply Z.mod_small. lia. }
  rewrite !R by lia.
  rewrite (hits_neg k theta bs (Z.of_nat i) (Z.of_nat j)) by lia.
  rewrite hits_neg.
  - rewrite !NN by lia. lia.
  - replace (2 * Z.of_nat k)%Z with (Z.of_nat (2 * k)) by lia. apply Z.mod_pos_bound. lia.
  - replace (2 * Z.of_nat k)%Z with (Z.of_nat (2 * k)) by lia. apply Z.mod_pos_bound. lia.
  - rewrite <- R by lia. intros E. apply Hin. apply Nat2Z.inj in E.
    destruct (Nat.eq_dec i 0) as [->|]; [rewrite Nat.sub_0_r, Nat.mod_same in E; lia|].
    rewrite Nat.mod_small in E; lia.
  - rewrite <- R by lia. intros E. apply Hjn. apply Nat2Z.inj in E.
    destruct (Nat.eq_dec j 0) as [->|]; [rewrite Nat.sub_0_r, Nat.mod_same in E; lia|].
    rewrite Nat.mod_small in E; lia.
Qed.

(** ** Daily observation *)

Lemma combine_map_same {A B C} (f : A -> B) (g : A -> C) l :
  combine (map f l) (map g l) = map (fun a => (f a, g a)) l.
Proof. induction l; simpl; f_equal; auto. Qed.

Lemma add_map_table n f g :
  add_map (table2 n f) (table2 n g) = table2 n (fun i j => f i j + g i j)%Q.
Proof.
  unfold add_map, table2. rewrite combine_map_same, map_map. apply map_ext. intros i.
  cbn [fst snd]. rewrite combine_map_same, map_map. reflexivity.
Qed.

Lemma daily_fold mirror n theta (rot : nat -> list baseline) ts f :
  fold_left (fun acc t =>
      match acc, grid_uv_tracks mirror n theta (rot t) with
      | Some m, Some g => Some (add_map m g)
      | _, _ => None
      end) ts (Some (table2 n f))
  = Some (table2 n (fun i j => fold_left (fun a t => a + scale mirror
        (hits (shift n) n theta (all_baselines mirror (rot t)) (Z.of_nat i) (Z.of_nat j)))%Q
        ts (f i j))).
Proof.
  revert f. induction ts as [|t ts IH]; intros f; [reflexivity|].
  cbn [fold_left]. rewrite grid_eq, add_map_table, IH. reflexivity.
Qed.

Lemma fold_left_Qplus (h : nat -> Q) ts a :
  (fold_left (fun a t => a + h t)%Q ts a == a + fold_right Qplus 0 (map h ts))%Q.
Proof.
  revert a. induction ts as [|t ts IH]; intros a; simpl; [ring|]. rewrite IH. ring.
Qed.

Definition daily_cell mirror n theta T (rot : nat -> list baseline) (i j : nat) : Q :=
  sum_slices T (fun t => scale mirror
     (hits (shift n) n theta (all_baselines mirror (rot t)) (Z.of_nat i) (Z.of_nat j))).

Lemma daily_eq mirror n theta T rot :
  0 < T -> exists f,
    uv_daily mirror n theta T rot = Some (table2 n f) /\
    forall i j, (f i j == daily_cell mirror n theta T rot i j / inject_Z (Z.of_nat T))%Q.
Proof.
  intros HT. unfold uv_daily. rewrite daily_fold.
  replace (Nat.eqb T 0) with false by (symmetry; apply Nat.eqb_neq; lia).
  eexists. split.
  - f_equal. unfold table2. rewrite map_map. apply map_ext. intros i.
    rewrite map_map. reflexivity.
  - intros i j. cbn beta. rewrite fold_left_Qplus, Qplus_0_l. rewrite seq_shift. reflexivity.
Qed.

Lemma total_ext n f g : (forall i j, (f i j == g i j)%Q) -> (total (table2 n f) == total (table2 n g))%Q.
Proof.
  intros H. unfold total, table2. rewrite !map_map.
  induction (seq 0 n) as [|i l IH] at 2 4; simpl; [reflexivity|]. rewrite IH.
  apply Qplus_comp; [|reflexivity]. clear IH.
  induction (seq 0 n) as [|j l' IH']; simpl; [reflexivity|]. rewrite IH', H. reflexivity.
Qed.

Lemma total_div n f c : (total (table2 n (fun i j => f i j / c)) == total (table2 n f) / c)%Q.
Proof.
  assert (R : forall (g : nat -> Q) l, (fold_right Qplus 0 (map (fun j => g j / c) l)
              == fold_right Qplus 0 (map g l) / c)%Q).
  { intros g l. unfold Qdiv. induction l as [|a l IH]; simpl; [ring|]. rewrite IH. ring. }
  unfold total, table2. rewrite !map_map. rewrite <- R.
  induction (seq 0 n) as [|i l IH] at 2 4; simpl; [reflexivity|]. rewrite IH, R. reflexivity.
Qed.

Lemma total_zero n : (total (table2 n (fun _ _ => 0)) == 0)%Q.
Proof.
  unfold total, table2. rewrite map_map.
  induction (seq 0 n) as [|i l IH] at 2; simpl; [reflexivity|]. rewrite IH. clear IH.
  induction (seq 0 n) as [|j l' IH']; simpl; [reflexivity|].
  rewrite Qplus_0_l. exact IH'.
Qed.

Lemma total_add n f g :
  (total (table2 n (fun i j => f i j + g i j)) == total (table2 n f) + total (table2 n g))%Q.
Proof.
  assert (R : forall (f g : nat -> Q) l, (fold_right Qplus 0 (map (fun j => f j + g j) l)
              == fold_right Qplus 0 (map f l) + fold_right Qplus 0 (map g l))%Q).
  { intros f' g' l. induction l as [|a l IH]; simpl; [ring|]. rewrite IH. ring. }
  unfold total, table2. rewrite !map_map. rewrite <- R.
  generalize (seq 0 n) at 2 5 as l. intros l.
  induction l as [|i l IH]; cbn [map fold_right]; [reflexivity|]. rewrite IH, R. reflexivity.
Qed.

Lemma daily_total mirror n theta T rot m :
  uv_daily mirror n theta T rot = Some m ->
  (total m == sum_slices T (fun t => scale mirror (visible n theta (all_baselines mirror (rot t))))
              / inject_Z (Z.of_nat T))%Q.
Proof.
  intros H. destruct (Nat.eq_dec T 0) as [->|HT].
  { unfold uv_daily in H. rewrite daily_fold in H. discriminate. }
  destruct (daily_eq mirror n theta T rot ltac:(lia)) as (f & E & Hf).
  rewrite E in H. assert (Em : m = table2 n f) by congruence. rewrite Em.
  rewrite (total_ext n f (fun i j => daily_cell mirror n theta T rot i j / inject_Z (Z.of_nat T))%Q) by exact Hf.
  rewrite total_div. apply Qdiv_comp; [|reflexivity].
  unfold daily_cell, sum_slices. clear.
  induction (seq 1 T) as [|t l IH]; cbn [map fold_right]; [apply total_zero|].
  rewrite total_add, IH, total_scale, sum2_hits. reflexivity.
Qed.

(** ** The older implementation *)

Lemma wrap_index_ok n x : in_bound n x = true ->
  exists k, wrap_index n x = Some k /\ Z.of_nat k = (x mod Z.of_nat n)%Z.
Proof.
  intros H. unfold in_bound in H. unfold wrap_index.
  destruct (Z_le_dec 0 x).
  - replace ((0 <=? x)%Z && (x <? Z.of_nat n)%Z) with true by lia.
    eexists. split; [reflexivity|]. rewrite Z.mod_small; lia.
  - replace ((0 <=? x)%Z && (x <? Z.of_nat n)%Z) with false by lia.
    replace ((- Z.of_nat n <=? x)%Z && (x <? 0)%Z) with true by lia.
    eexists. split; [reflexivity|].
    rewrite <- (Z.mod_add x 1) by lia. rewrite Z.mod_small; lia.
Qed.

Definition cov_step n (acc : option (nat -> nat -> nat)) (t : Z * Z * Z) :=
    match acc, wrap_index n (fst (fst t)), wrap_index n (snd (fst t)) with
    | Some f, Some x, Some y =>
        Some (fun i j : nat => if Nat.eqb i x && Nat.eqb j y then S (f i j) else f i j)
    | _, _, _ => None
    end.

Lemma cov_fold n ts f :
  (forall t, In t ts -> in_bound n (fst (fst t)) = true /\ in_bound n (snd (fst t)) = true) ->
  exists g, fold_left (cov_step n) ts (Some f) = Some g /\
    forall i j, g i j = length (filter (fun t : Z * Z * Z =>
       (fst (fst t) mod Z.of_nat n =? Z.of_nat i)%Z && (snd (fst t) mod Z.of_nat n =? Z.of_nat j)%Z) ts)
       + f i j.
Proof.
  revert f. induction ts as [|t ts IH]; intros f H.
  - exists f. split; reflexivity.
  - destruct (H t (or_introl eq_refl)) as [Hx Hy].
    destruct (wrap_index_ok n _ Hx) as (x & Ex & Mx).
    destruct (wrap_index_ok n _ Hy) as (y & Ey & My).
    cbn [fold_left]. unfold cov_step at 2. rewrite Ex, Ey.
    destruct (IH (fun i j => if Nat.eqb i x && Nat.eqb j y then S (f i j) else f i j)
                 (fun u Hu => H u (or_intror Hu))) as (g & Eg & Hg).
    exists g. split; [exact Eg|]. intros i j. rewrite Hg. cbn [filter]. rewrite <- Mx, <- My.
    destruct (Nat.eqb_spec i x) as [->|Ni]; [|
      replace (Z.of_nat x =? Z.of_nat i)%Z with false by (symmetry; apply Z.eqb_neq; lia); reflexivity].
    destruct (Nat.eqb_spec j y) as [->|Nj]; [|
      replace (Z.of_nat y =? Z.of_nat j)%Z with false by (symmetry; apply Z.eqb_neq; lia);
      rewrite !andb_false_r; reflexivity].
    rewrite !Z.eqb_refl. simpl. lia.
Qed.

Lemma coverage_eq n theta bs :
  get_uv_coverage n theta bs
  = Some (table2 n (fun i j => hits3 n (theta / 2)%Q bs (Z.of_nat i) (Z.of_nat j))).
Proof.
  unfold get_uv_coverage. fold (cov_step n).
  match goal with |- context [fold_left _ ?ts _] =>
    destruct (cov_fold n ts (fun _ _ => 0)) as (g & Eg & Hg) end.
  { intros t Ht. apply filter_In in Ht as [_ Ht]. apply andb_true_iff in Ht as [Ht _].
    now apply andb_true_iff in Ht. }
  rewrite Eg. f_equal. apply table2_ext. intros i j Hi Hj.
  rewrite Hg, Nat.add_0_r. unfold hits3.
  assert (Q2 : forall q, (q * theta / 2 == q * (theta / 2))%Q) by (intros; field).
  clear Eg Hg. induction bs as [|b bs IH]; [reflexivity|].
  cbn [map filter fst snd].
  unfold gx, gy, gz. rewrite !in_range_b_bound.
  rewrite <- !(round_half_even_Qeq _ _ (Q2 _)).
  destruct (in_bound n (round_half_even (bu b * theta / 2)) &&
     in_bound n (round_half_even (bv b * theta / 2)) &&
     in_bound n (round_half_even (bw b * theta / 2))); cbn [andb filter fst snd].
  - destruct (_ && _); cbn [length]; now rewrite IH.
  - exact IH.
Qed.
