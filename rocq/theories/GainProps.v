(** C89: antenna gains. *)
From Coq Require Import List Arith ZArith QArith Reals Lra Lia Bool ZifyBool.
From Verif Require Import RLib FourierModel FourierSpec FourierProofs DftLib UvGridModel UvGridProofs GainModel.
Import ListNotations.
Local Open Scope R_scope.

(** * Specification *)
(** The pixel (x, y) is cell (i, j), counted modulo the size. *)
Definition lands (n : nat) (p : Z * Z) (i j : nat) : bool := (Z.eqb (fst p mod Z.of_nat n) (Z.of_nat i) && Z.eqb (snd p mod Z.of_nat n) (Z.of_nat j))%Z.
Definition opposite (p : Z * Z) : Z * Z := (- fst p, - snd p)%Z.
Definition hit (n : nat) (p : Z * Z) (i j : nat) : R := if lands n p i j then 1 else 0.
Definition weight (mirror : bool) (n : nat) (p : Z * Z) (i j : nat) : R := hit n p i j + (if mirror then hit n (opposite p) i j else 0).
Definition visible_rows (n : nat) (theta : Q) (rows : list (baseline * products)) : list (baseline * products) := filter (fun r => mask n (pix theta (fst r))) rows.
Definition cell_sum (mirror : bool) (n : nat) (theta : Q) (rows : list (baseline * products)) : gmap :=
  fun i j c => rsum (map (fun r => weight mirror n (pix theta (fst r)) i j * chan (snd r) c) (visible_rows n theta rows)).

(** * Gridding *)
Lemma opposite_index : forall n x, in_bound n x = true -> exists k, wrap_index n (- x) = Some k /\ (k < n)%nat /\ Z.of_nat k = ((- x) mod Z.of_nat n)%Z.
Proof.
  intros n x H. unfold in_bound in H. unfold wrap_index. assert (N : (0 < Z.of_nat n)%Z) by lia.
  destruct (Z.leb 0 (- x) && Z.ltb (- x) (Z.of_nat n))%Z eqn:E.
  - exists (Z.to_nat (- x)). split; [reflexivity|]. split; [lia|]. rewrite Z.mod_small; lia.
  - assert (E2 : (Z.leb (- Z.of_nat n) (- x) && Z.ltb (- x) 0)%Z = true) by lia. rewrite E2. exists (Z.to_nat (- x + Z.of_nat n)). split; [reflexivity|]. split; [lia|]. rewrite <- (Z_mod_plus_full (- x) 1), Z.mod_small; lia.
Qed.
Lemma bump_value : forall n x y g f i j c a b, wrap_index n x = Some a -> wrap_index n y = Some b -> Z.of_nat a = (x mod Z.of_nat n)%Z -> Z.of_nat b = (y mod Z.of_nat n)%Z ->
  exists f', bump_at n x y g (Some f) = Some f' /\ (forall i j c, f' i j c = f i j c + hit n (x, y) i j * chan g c) /\ f' i j c = f i j c + hit n (x, y) i j * chan g c.
Proof.
  intros n x y g f i j c a b A B Ma Mb. assert (V : forall i j c, bump f a b g i j c = f i j c + hit n (x, y) i j * chan g c).
  { intros i0 j0 c0. unfold bump, hit, lands. cbn [fst snd]. rewrite <- Ma, <- Mb. replace (Z.eqb (Z.of_nat a) (Z.of_nat i0)) with (Nat.eqb i0 a) by lia. replace (Z.eqb (Z.of_nat b) (Z.of_nat j0)) with (Nat.eqb j0 b) by lia. destruct (Nat.eqb i0 a && Nat.eqb j0 b)%bool; ring. }
  exists (bump f a b g). split; [unfold bump_at; rewrite A, B; reflexivity|]. split; [exact V|apply V].
Qed.
Lemma grid_value : forall mirror n theta rows f, exists f', grid_gains mirror n theta rows (Some f) = Some f' /\ forall i j c, f' i j c = f i j c + cell_sum mirror n theta rows i j c.
Proof.
  intros mirror n theta rows. unfold grid_gains, cell_sum, visible_rows. induction rows as [|r rows IH]; intro f; [exists f; split; [reflexivity|intros; cbn; ring]|]. cbn [map filter fst snd]. destruct (mask n (pix theta (fst r))) eqn:M; [|apply IH].
  cbn [fold_left map]. destruct (pix theta (fst r)) as [x y] eqn:P. unfold mask in M. cbn [fst snd] in *. apply andb_true_iff in M. destruct M as [Mx My]. destruct (wrap_index_ok n x Mx) as (a & Ea & Za). destruct (wrap_index_ok n y My) as (b & Eb & Zb).
  destruct (bump_value n x y (snd r) f 0%nat 0%nat 0%nat a b Ea Eb Za Zb) as (f1 & E1 & V1 & _). rewrite E1. destruct mirror.
  - destruct (opposite_index n x Mx) as (a' & Ea' & _ & Za'). destruct (opposite_index n y My) as (b' & Eb' & _ & Zb'). destruct (bump_value n (- x) (- y) (snd r) f1 0%nat 0%nat 0%nat a' b' Ea' Eb' Za' Zb') as (f2 & E2 & V2 & _). rewrite E2.
    destruct (IH f2) as (f' & E' & V'). exists f'. split; [exact E'|]. intros i j c. rewrite V', V2, V1. cbn [map rsum fold_right]. unfold weight at 2. unfold opposite. cbn [fst snd]. unfold rsum. ring.
  - destruct (IH f1) as (f' & E' & V'). exists f'. split; [exact E'|]. intros i j c. rewrite V', V1. cbn [map rsum fold_right]. unfold weight at 2. unfold rsum. ring.
Qed.
(** One snapshot never fails and adds to every cell the products of exactly the baselines that land on it (and on its opposite). *)
Theorem C89_cells : forall mirror n theta rows f, exists f', grid_gains mirror n theta rows (Some f) = Some f' /\ forall i j c, f' i j c = f i j c + cell_sum mirror n theta rows i j c.
Proof. exact grid_value. Qed.
Print Assumptions C89_cells.
Lemma hit_total : forall n p, (0 < n)%nat -> rsum (map (fun i => rsum (map (fun j => hit n p i j) (seq 0 n))) (seq 0 n)) = 1.
Proof.
  intros n p N. assert (Zn : (0 < Z.of_nat n)%Z) by lia. pose proof (Z.mod_pos_bound (fst p) _ Zn) as Bx. pose proof (Z.mod_pos_bound (snd p) _ Zn) as By. set (x := Z.to_nat (fst p mod Z.of_nat n)). set (y := Z.to_nat (snd p mod Z.of_nat n)).
  assert (S1 : forall k, (k < n)%nat -> rsum (map (fun i => if Nat.eqb i k then 1 else 0) (seq 0 n)) = 1).
  { intros k K. assert (G : forall a m, rsum (map (fun i => if Nat.eqb i k then 1 else 0) (seq a m)) = if (Nat.leb a k && Nat.ltb k (a + m))%bool then 1 else 0). { intros a m. revert a. induction m as [|m IH]; intro a; [cbn [seq map]; destruct (Nat.leb a k && Nat.ltb k (a + 0))%bool eqn:E0; [lia|reflexivity]|]. cbn [seq map rsum fold_right]. unfold rsum in IH. rewrite IH. destruct (Nat.eqb_spec a k); destruct (Nat.leb (S a) k && Nat.ltb k (S a + m))%bool eqn:E1; destruct (Nat.leb a k && Nat.ltb k (a + S m))%bool eqn:E2; try ring; lia. }
    rewrite G. replace (Nat.leb 0 k && Nat.ltb k (0 + n))%bool with true by lia. reflexivity. }
  rewrite (rsum_ext _ (fun i => (if Nat.eqb i x then 1 else 0) * 1)).
  - rewrite rsum_scale_r, S1 by lia. ring.
  - intros i Hi. transitivity ((if Nat.eqb i x then 1 else 0) * rsum (map (fun j => if Nat.eqb j y then 1 else 0) (seq 0 n))); [|rewrite (S1 y) by lia; reflexivity]. rewrite <- rsum_scale. apply rsum_ext. intros j Hj. unfold hit, lands. replace (Z.eqb (fst p mod Z.of_nat n) (Z.of_nat i)) with (Nat.eqb i x) by lia. replace (Z.eqb (snd p mod Z.of_nat n) (Z.of_nat j)) with (Nat.eqb j y) by lia. destruct (Nat.eqb i x), (Nat.eqb j y); cbn [andb]; ring.
Qed.
(** Over the map the products of the visible baselines are conserved (twice with mirror images). *)
Theorem C89_conserved : forall mirror n theta rows c, (0 < n)%nat ->
  rsum (map (fun i => rsum (map (fun j => cell_sum mirror n theta rows i j c) (seq 0 n))) (seq 0 n)) = (if mirror then 2 else 1) * rsum (map (fun r => chan (snd r) c) (visible_rows n theta rows)).
Proof.
  intros mirror n theta rows c N. unfold cell_sum. set (vs := visible_rows n theta rows).
  rewrite (rsum_ext _ (fun i => rsum (map (fun r => rsum (map (fun j => weight mirror n (pix theta (fst r)) i j * chan (snd r) c) (seq 0 n))) vs))) by (intros; apply rsum_swap). rewrite rsum_swap. rewrite <- rsum_scale. apply rsum_ext. intros r _.
  rewrite (rsum_ext _ (fun i => rsum (map (fun j => weight mirror n (pix theta (fst r)) i j) (seq 0 n)) * chan (snd r) c)) by (intros; apply rsum_scale_r). rewrite rsum_scale_r. f_equal. unfold weight.
  rewrite (rsum_ext _ (fun i => rsum (map (fun j => hit n (pix theta (fst r)) i j) (seq 0 n)) + rsum (map (fun j => if mirror then hit n (opposite (pix theta (fst r))) i j else 0) (seq 0 n)))) by (intros; apply rsum_plus). rewrite rsum_plus, hit_total by exact N. destruct mirror.
  - rewrite hit_total by exact N. ring.
  - rewrite (rsum_ext _ (fun _ => 0)); [rewrite rsum_const; ring|]. intros. rewrite rsum_const. ring.
Qed.
Print Assumptions C89_conserved.
Example C89_conserved_sat : exists (n : nat), (0 < n)%nat.
Proof. exists 5%nat. repeat split; first [lra | lia | reflexivity | discriminate | congruence | auto]. Qed.
(** With mirror images the map is the same at opposite cells. *)
Theorem C89_mirror_symmetric : forall n theta rows i j c, (i < n)%nat -> (j < n)%nat -> cell_sum true n theta rows ((n - i) mod n) ((n - j) mod n) c = cell_sum true n theta rows i j c.
Proof.
  intros n theta rows i j c Hi Hj. unfold cell_sum. apply rsum_ext. intros r _. f_equal. unfold weight. set (p := pix theta (fst r)).
  assert (O : forall x k, (k < n)%nat -> Z.eqb (x mod Z.of_nat n) (Z.of_nat ((n - k) mod n)) = Z.eqb ((- x) mod Z.of_nat n) (Z.of_nat k)).
  { intros x k K. rewrite Nat2Z.inj_mod, Nat2Z.inj_sub by lia. pose proof (Z.mod_pos_bound x (Z.of_nat n) ltac:(lia)) as B. destruct (Z.eq_dec (x mod Z.of_nat n) 0) as [E|E].
    - rewrite (Z_mod_zero_opp_full x _ E), E. destruct (Nat.eq_dec k 0) as [-> |NK]; [replace (Z.of_nat n - Z.of_nat 0)%Z with (Z.of_nat n) by lia; rewrite Z_mod_same_full; reflexivity|]. rewrite Z.mod_small by lia. lia.
    - rewrite Z_mod_nz_opp_full by exact E. destruct (Nat.eq_dec k 0) as [-> |NK]; [replace (Z.of_nat n - Z.of_nat 0)%Z with (Z.of_nat n) by lia; rewrite Z_mod_same_full; lia|]. rewrite (Z.mod_small (Z.of_nat n - Z.of_nat k)) by lia. lia. }
  unfold hit, lands, opposite. cbn [fst snd]. rewrite !O by assumption. rewrite !Z.opp_involutive. ring.
Qed.
Print Assumptions C89_mirror_symmetric.
Example C89_mirror_symmetric_sat : exists (n : nat) (i : nat) (j : nat), (i < n)%nat /\ (j < n)%nat.
Proof. exists 6%nat, 2%nat, 5%nat. repeat split; first [lra | lia | reflexivity | discriminate | congruence | auto]. Qed.
Example C89_sat : mask 4 (pix 1 ((1#2), (-2), 0))%Q = true /\ lands 4 (pix 1 ((1#2), (-2), 0))%Q 0 2 = true.
Proof. split; vm_compute; reflexivity. Qed.

(** * Renewal of the gains *)
(** The step at which the gains in force at step t were drawn. *)
Fixpoint drawn_at (ts : list nat) (int_time t : nat) : option nat :=
  if renew ts int_time t then Some t else match t with O => None | S t' => drawn_at ts int_time t' end.
Lemma total_state : forall mirror n theta ts int_time draw rotate total, ts <> [] ->
  let s := fold_left (time_step mirror n theta ts int_time draw rotate) (seq 0 total) (None, Some (fun _ _ _ => 0)) in
  (total <> 0%nat -> exists t0, drawn_at ts int_time (total - 1) = Some t0 /\ fst s = Some (draw t0)) /\
  (exists f, snd s = Some f /\ forall i j c, f i j c = rsum (map (fun t => match drawn_at ts int_time t with Some t0 => cell_sum mirror n theta (map (fun r => (rotate t (fst r), snd r)) (draw t0)) i j c | None => 0 end) (seq 0 total))).
Proof.
  intros mirror n theta ts int_time draw rotate total T. cbv zeta. induction total as [|m IH]; [split; [lia|]; exists (fun _ _ _ => 0); split; reflexivity|].
  rewrite seq_S, fold_left_app. cbn [fold_left Nat.add]. set (s := fold_left (time_step mirror n theta ts int_time draw rotate) (seq 0 m) (None, Some (fun _ _ _ => 0))) in *. destruct IH as (I1 & f & I2 & I3).
  assert (D : exists t0, drawn_at ts int_time m = Some t0 /\ (if renew ts int_time m then Some (draw m) else fst s) = Some (draw t0)).
  { destruct m as [|m'].
    - exists 0%nat. assert (R : renew ts int_time 0 = true). { unfold renew. destruct ts as [|a ts']; [contradiction|]. cbn [existsb]. rewrite Nat.mul_0_l. destruct a; [reflexivity|]. rewrite Nat.mod_0_l by lia. reflexivity. } cbn [drawn_at]. rewrite R. split; reflexivity.
    - destruct (I1 ltac:(lia)) as (t0 & E1 & E2). replace (S m' - 1)%nat with m' in E1 by lia. cbn [drawn_at]. destruct (renew ts int_time (S m')) eqn:R; [exists (S m'); split; reflexivity|]. exists t0. split; assumption. }
  destruct D as (t0 & D1 & D2). split.
  - intros _. exists t0. replace (S m - 1)%nat with m by lia. split; [exact D1|]. unfold time_step. cbn [fst]. exact D2.
  - unfold time_step. cbn [snd]. rewrite D2, I2. destruct (grid_value mirror n theta (map (fun r => (rotate m (fst r), snd r)) (draw t0)) f) as (f' & E' & V'). exists f'. split; [exact E'|]. intros i j c. rewrite V', I3, map_app, rsum_app. cbn [map rsum fold_right]. rewrite D1. unfold rsum. ring.
Qed.
(** With at least one timescale the whole observation succeeds and sums, over the time steps, the snapshots made with the gains drawn
    last; with none it fails as soon as there is a time step. *)
Theorem C89_observation : forall mirror n theta ts int_time draw rotate total,
  (ts <> [] -> exists f, uv_map_with_gains mirror n theta ts int_time total draw rotate = Some f /\ (forall t, exists t0, drawn_at ts int_time t = Some t0 /\ (t0 <= t)%nat) /\
     forall i j c, f i j c = rsum (map (fun t => match drawn_at ts int_time t with Some t0 => cell_sum mirror n theta (map (fun r => (rotate t (fst r), snd r)) (draw t0)) i j c | None => 0 end) (seq 0 total))) /\
  (total <> 0%nat -> uv_map_with_gains mirror n theta [] int_time total draw rotate = None).
Proof.
  intros mirror n theta ts int_time draw rotate total. split.
  - intro T. destruct (total_state mirror n theta ts int_time draw rotate total T) as (_ & f & F1 & F2). exists f. split; [exact F1|]. split; [|exact F2]. intro t. induction t as [|t IH].
    + exists 0%nat. cbn [drawn_at]. destruct (renew ts int_time 0) eqn:R; [auto|]. exfalso. unfold renew in R. destruct ts as [|a ts']; [contradiction|]. cbn [existsb] in R. rewrite Nat.mul_0_l in R. destruct a; [discriminate|]. rewrite Nat.mod_0_l in R by lia. discriminate.
    + cbn [drawn_at]. destruct (renew ts int_time (S t)); [exists (S t); auto|]. destruct IH as (t0 & E & L). exists t0. split; [exact E|lia].
  - intro N. destruct total as [|m]; [contradiction|]. unfold uv_map_with_gains. cbn [seq fold_left]. unfold time_step at 2. cbn [renew existsb fst snd]. assert (G : forall l, snd (fold_left (time_step mirror n theta [] int_time draw rotate) l (None, None)) = None) by (induction l as [|a l IH]; [reflexivity|]; cbn [fold_left]; unfold time_step at 2; cbn [renew existsb fst snd]; exact IH). apply G.
Qed.
Print Assumptions C89_observation.
(** A timescale is rounded up to the next common multiple with the integration time: gains are drawn anew at step t iff t is a multiple of
    tt / gcd(tt, int_time), i.e. every lcm(tt, int_time) seconds. *)
Theorem C89_timescale : forall tt int_time t, (0 < tt)%nat -> (0 < int_time)%nat -> renew [tt] int_time t = true <-> Nat.divide (tt / Nat.gcd tt int_time) t.
Proof.
  intros tt it t T I. unfold renew. cbn [existsb]. rewrite orb_false_r, Nat.eqb_eq. set (g := Nat.gcd tt it). assert (G : g <> 0%nat) by (unfold g; intro X; apply Nat.gcd_eq_0 in X; lia).
  assert (Dt : tt = (g * (tt / g))%nat) by (apply Nat.div_exact; [exact G|]; apply Nat.mod_divide; [exact G|apply Nat.gcd_divide_l]). assert (Di : it = (g * (it / g))%nat) by (apply Nat.div_exact; [exact G|]; apply Nat.mod_divide; [exact G|apply Nat.gcd_divide_r]).
  rewrite Nat.mod_divide by lia. split; intros [k K].
  - assert (CO : Nat.gcd (tt / g) (it / g) = 1%nat) by (apply Nat.gcd_div_gcd; [exact G|reflexivity]). apply (Nat.gauss _ (it / g)); [|exact CO]. exists k. apply (Nat.mul_cancel_l _ _ g G). rewrite Di in K at 1. rewrite Dt in K at 1. lia.
  - exists (k * (it / g))%nat. rewrite K. clearbody g. set (A := (tt / g)%nat) in *. set (B := (it / g)%nat) in *. clearbody A B. rewrite Dt, Di. ring.
Qed.
Print Assumptions C89_timescale.
Example C89_timescale_sat : exists (tt : nat) (int_time : nat), (0 < tt)%nat /\ (0 < int_time)%nat.
Proof. exists 6%nat, 10%nat. repeat split; first [lra | lia | reflexivity | discriminate | congruence | auto]. Qed.
(** A shorter list of timescales that divides the longer ones is enough. *)
Theorem C89_redundant : forall a b ts int_time t, (0 < a)%nat -> (0 < b)%nat -> Nat.divide a b -> renew (a :: b :: ts) int_time t = renew (a :: ts) int_time t.
Proof. intros a b ts it t A B D. unfold renew. cbn [existsb]. destruct (Nat.eqb_spec ((t * it) mod a) 0) as [E|E]; [reflexivity|]. destruct (Nat.eqb_spec ((t * it) mod b) 0) as [E2|E2]; [|reflexivity]. exfalso. apply E. apply Nat.mod_divide; [lia|]. apply Nat.mod_divide in E2; [|lia]. eapply Nat.divide_trans; eassumption. Qed.
Print Assumptions C89_redundant.
Example C89_redundant_sat : exists a b, (0 < a)%nat /\ (0 < b)%nat /\ Nat.divide a b.
Proof. exists 10%nat, 60%nat. repeat split; try lia. exists 6%nat. reflexivity. Qed.

(** * Response *)
Lemma csqrt_real : forall a, 0 <= a -> csqrt_re a 0 = sqrt a /\ csqrt_im a 0 = 0.
Proof.
  intros a H. unfold csqrt_re, csqrt_im, cabs. replace (a ^ 2 + 0 ^ 2) with (a * a) by ring. rewrite sqrt_square by exact H. split; [f_equal; field|]. destruct (Rle_dec 0 0); [|lra]. replace ((a - a) / 2) with 0 by field. apply sqrt_0.
Qed.
Lemma csqrt_square : forall a b, csqrt_re a b ^ 2 - csqrt_im a b ^ 2 = a /\ 2 * csqrt_re a b * csqrt_im a b = b /\ 0 <= csqrt_re a b.
Proof.
  intros a b. unfold csqrt_re, csqrt_im. set (m := cabs a b). assert (M2 : m * m = a ^ 2 + b ^ 2) by (apply sqrt_sqrt; nra). assert (M0 : 0 <= m) by apply sqrt_pos. assert (A1 : 0 <= m + a) by nra. assert (A2 : 0 <= m - a) by nra.
  set (u := sqrt ((m + a) / 2)). set (v := sqrt ((m - a) / 2)). assert (U : u * u = (m + a) / 2) by (apply sqrt_sqrt; lra). assert (V : v * v = (m - a) / 2) by (apply sqrt_sqrt; lra). assert (U0 : 0 <= u) by apply sqrt_pos. assert (V0 : 0 <= v) by apply sqrt_pos.
  assert (UV : 2 * u * v = Rabs b). { assert (Q : (2 * u * v) * (2 * u * v) = b * b) by (replace ((2 * u * v) * (2 * u * v)) with (4 * (u * u) * (v * v)) by ring; rewrite U, V; nra). rewrite <- sqrt_Rsqr_abs. unfold Rsqr. rewrite <- Q, sqrt_square; [reflexivity|]. apply Rmult_le_pos; lra. }
  split; [|split; [|exact U0]]; destruct (Rle_dec 0 b) as [B|B].
  - nra.
  - nra.
  - rewrite UV. apply Rabs_right. lra.
  - replace (2 * u * - v) with (- (2 * u * v)) by ring. rewrite UV, Rabs_left by lra. ring.
Qed.
(** The factor applied to a mode squares to the mean of rr plus i times the mean of ii over the baselines of the cell. *)
Theorem C89_factor : forall f j, let h := f (nth 0 j 0%nat) (nth 1 j 0%nat) in
  (h 0%nat <> 0 -> eff_re f j ^ 2 - eff_im f j ^ 2 = h 1%nat / h 0%nat /\ 2 * eff_re f j * eff_im f j = h 2%nat / h 0%nat) /\ (h 0%nat = 0 -> eff_re f j = 0 /\ eff_im f j = 0).
Proof.
  intros f j h. unfold eff_re, eff_im. fold h. destruct (Req_EM_T (h 0%nat) 0) as [E|E]; split; intro X; try contradiction; [split; reflexivity|]. destruct (csqrt_square (h 1%nat / h 0%nat) (h 2%nat / h 0%nat)) as (A & B & _). split; assumption.
Qed.
Print Assumptions C89_factor.
(** Equal real gains r of all antennas multiply every observed mode by |r| (the product of two gains is r^2), unobserved modes by 0. *)
Definition equal_gains (g : gain) (rows : list (baseline * products)) : Prop := forall r, In r rows -> snd r = product g g.
Lemma equal_cell : forall mirror n theta rows g i j, equal_gains g rows -> let f := cell_sum mirror n theta rows in f i j 1%nat = fst g ^ 2 * f i j 0%nat /\ f i j 2%nat = snd g ^ 2 * f i j 0%nat /\ 0 <= f i j 0%nat.
Proof.
  intros mirror n theta rows g i j E f. unfold f, cell_sum. assert (I : forall r, In r (visible_rows n theta rows) -> snd r = product g g) by (intros r Hr; apply filter_In in Hr; apply E, Hr). repeat split.
  - rewrite <- rsum_scale. apply rsum_ext. intros r Hr. rewrite (I r Hr). cbn [chan product rr]. ring.
  - rewrite <- rsum_scale. apply rsum_ext. intros r Hr. rewrite (I r Hr). cbn [chan product ii]. ring.
  - apply rsum_nonneg. intros v Hv. apply in_map_iff in Hv. destruct Hv as (r & <- & _). cbn [chan]. unfold weight, hit. destruct (lands n (pix theta (fst r)) i j), (lands n (opposite (pix theta (fst r))) i j), mirror; lra.
Qed.
Theorem C89_real_gains : forall mirror n theta rows r j, equal_gains (r, 0) rows -> let f := cell_sum mirror n theta rows in
  eff_re f j = (if Req_EM_T (f (nth 0 j 0%nat) (nth 1 j 0%nat) 0%nat) 0 then 0 else Rabs r) /\ eff_im f j = 0.
Proof.
  intros mirror n theta rows r j E f. destruct (equal_cell mirror n theta rows (r, 0) (nth 0 j 0%nat) (nth 1 j 0%nat) E) as (A & B & P). fold f in A, B, P. unfold eff_re, eff_im. cbv zeta. destruct (Req_EM_T (f (nth 0 j 0%nat) (nth 1 j 0%nat) 0%nat) 0) as [Z0|Z0]; [split; reflexivity|].
  rewrite A, B. cbn [fst snd]. replace (r ^ 2 * f (nth 0 j 0%nat) (nth 1 j 0%nat) 0%nat / f (nth 0 j 0%nat) (nth 1 j 0%nat) 0%nat) with (r * r) by (field; exact Z0). replace (0 ^ 2 * f (nth 0 j 0%nat) (nth 1 j 0%nat) 0%nat / f (nth 0 j 0%nat) (nth 1 j 0%nat) 0%nat) with 0 by (field; exact Z0).
  destruct (csqrt_real (r * r) ltac:(nra)) as [-> ->]. split; [|reflexivity]. rewrite <- sqrt_Rsqr_abs. reflexivity.
Qed.
Print Assumptions C89_real_gains.
Example C89_real_gains_sat : exists rows r, equal_gains (r, 0) rows.
Proof. exists [((1, 1, 0)%Q, product (2, 0) (2, 0)); ((3, -1, 0)%Q, product (2, 0) (2, 0))], 2. intros r [<- |[<- |[]]]; reflexivity. Qed.
(** Perfect gains and full coverage give the image back; perfect gains only restrict it to the observed modes. *)
Theorem C89_perfect : forall mirror n theta rows x, equal_gains (1, 0) rows -> let f := cell_sum mirror n theta rows in
  (forall a, gains_response n f x a = ifft_re [n; n] (fun j => if Req_EM_T (f (nth 0 j 0%nat) (nth 1 j 0%nat) 0%nat) 0 then 0 else fft_re [n; n] x j) (fun j => if Req_EM_T (f (nth 0 j 0%nat) (nth 1 j 0%nat) 0%nat) 0 then 0 else fft_im [n; n] x j) a) /\
  ((forall i j, (i < n)%nat -> (j < n)%nat -> f i j 0%nat <> 0) -> forall a, valid [n; n] a -> gains_response n f x a = x a).
Proof.
  intros mirror n theta rows x E f. assert (V : forall j, eff_re f j = (if Req_EM_T (f (nth 0 j 0%nat) (nth 1 j 0%nat) 0%nat) 0 then 0 else 1) /\ eff_im f j = 0).
  { intro j. destruct (C89_real_gains mirror n theta rows 1 j E) as [A B]. fold f in A, B. rewrite A, B. split; [|reflexivity]. rewrite Rabs_R1. reflexivity. }
  assert (G : forall a, gains_response n f x a = ifft_re [n; n] (fun j => if Req_EM_T (f (nth 0 j 0%nat) (nth 1 j 0%nat) 0%nat) 0 then 0 else fft_re [n; n] x j) (fun j => if Req_EM_T (f (nth 0 j 0%nat) (nth 1 j 0%nat) 0%nat) 0 then 0 else fft_im [n; n] x j) a).
  { intro a. unfold gains_response, ifft_re. f_equal. apply rsum_ext. intros j _. destruct (V j) as [-> ->]. destruct (Req_EM_T _ 0); ring. }
  split; [exact G|]. intros C a Va. rewrite G. rewrite <- (ifft_fft [n; n] x a Va). unfold ifft_re. f_equal. apply rsum_ext. intros j Hj. apply indices_valid in Hj. inversion Hj as [|? i0 ? j' H0 Hj' ]; subst. inversion Hj' as [|? i1 ? j'' H1 Hj'']; subst. inversion Hj''; subst. cbn [nth]. destruct (Req_EM_T (f i0 i1 0%nat) 0) as [Z0|Z0]; [exfalso; exact (C i0 i1 H0 H1 Z0)|reflexivity].
Qed.
Print Assumptions C89_perfect.
Example C89_perfect_sat : exists rows, equal_gains (1, 0) rows.
Proof. exists [((1, 1, 0)%Q, product (1, 0) (1, 0)); ((3, -1, 0)%Q, product (1, 0) (1, 0))]. intros r [<- |[<- |[]]]; reflexivity. Qed.
(** The response multiplies every mode by a complex factor: the mean of the factor of the mode and the conjugate of the factor of the
    opposite mode. On mirrored maps both factors agree, so only the real part acts and phases are never changed. *)
Theorem C89_response : forall n f x j, valid [n; n] j -> let s := [n; n] in let o := wrap_opp s j in
  let a := (eff_re f j + eff_re f o) / 2 in let b := (eff_im f j - eff_im f o) / 2 in
  fft_re s (gains_response n f x) j = a * fft_re s x j - b * fft_im s x j /\ fft_im s (gains_response n f x) j = a * fft_im s x j + b * fft_re s x j.
Proof.
  intros n f x j Hj s o a b. unfold gains_response. cbv zeta. fold s.
  destruct (fft_of_real_part s (fun j => fft_re s x j * eff_re f j - fft_im s x j * eff_im f j) (fun j => fft_re s x j * eff_im f j + fft_im s x j * eff_re f j) j Hj) as [-> ->].
  destruct (fft_opp s x j Hj) as [E1 E2]. unfold even_part, odd_part. rewrite E1, E2. unfold a, b, o. split; field.
Qed.
Print Assumptions C89_response.
Example C89_response_sat : exists (n : nat) (j : list nat), valid [n; n] j.
Proof. exists 5%nat, [2; 3]%nat. repeat constructor; lia. Qed.
Theorem C89_response_mirrored : forall n theta rows x j, valid [n; n] j -> let s := [n; n] in let f := cell_sum true n theta rows in
  fft_re s (gains_response n f x) j = eff_re f j * fft_re s x j /\ fft_im s (gains_response n f x) j = eff_re f j * fft_im s x j.
Proof.
  intros n theta rows x j Hj s f. destruct (C89_response n f x j Hj) as [E1 E2]. fold s in E1, E2. rewrite E1, E2.
  assert (S : forall c, f (nth 0 (wrap_opp s j) 0%nat) (nth 1 (wrap_opp s j) 0%nat) c = f (nth 0 j 0%nat) (nth 1 j 0%nat) c).
  { intro c. inversion Hj as [|? i0 ? j' H0 Hj' ]; subst. inversion Hj' as [|? i1 ? j'' H1 Hj'']; subst. inversion Hj''; subst. cbn [wrap_opp s nth]. apply C89_mirror_symmetric; assumption. }
  assert (R : eff_re f (wrap_opp s j) = eff_re f j) by (unfold eff_re; cbv zeta; rewrite !S; reflexivity). assert (I : eff_im f (wrap_opp s j) = eff_im f j) by (unfold eff_im; cbv zeta; rewrite !S; reflexivity).
  rewrite R, I. split; field.
Qed.
Print Assumptions C89_response_mirrored.
Example C89_response_mirrored_sat : exists (n : nat) (j : list nat), valid [n; n] j.
Proof. exists 5%nat, [2; 3]%nat. repeat constructor; lia. Qed.
(** A common phase of all antennas cancels in a product of a gain with the conjugate of another; here it does not: with every gain equal to
    i the factor is exp(i pi/4) instead of 1. *)
Theorem C89_phase_refuted : forall mirror n theta rows j, equal_gains (0, 1) rows -> let f := cell_sum mirror n theta rows in f (nth 0 j 0%nat) (nth 1 j 0%nat) 0%nat <> 0 -> eff_re f j = sqrt (1 / 2) /\ eff_im f j = sqrt (1 / 2).
Proof.
  intros mirror n theta rows j E f Z0. destruct (equal_cell mirror n theta rows (0, 1) (nth 0 j 0%nat) (nth 1 j 0%nat) E) as (A & B & P). fold f in A, B, P. unfold eff_re, eff_im. cbv zeta. destruct (Req_EM_T (f (nth 0 j 0%nat) (nth 1 j 0%nat) 0%nat) 0) as [X|_]; [contradiction|].
  rewrite A, B. cbn [fst snd]. set (h := f (nth 0 j 0%nat) (nth 1 j 0%nat) 0%nat) in *. replace (0 ^ 2 * h / h) with 0 by (field; exact Z0). replace (1 ^ 2 * h / h) with 1 by (field; exact Z0). unfold csqrt_re, csqrt_im, cabs. replace (0 ^ 2 + 1 ^ 2) with 1 by ring. rewrite sqrt_1. destruct (Rle_dec 0 1); [|lra]. split; f_equal; field.
Qed.
Print Assumptions C89_phase_refuted.
(** n antennas give n(n-1)/2 rows. *)
Theorem C89_pairs : forall {P} (diff : P -> P -> baseline) (ants : list (P * gain)), (2 * length (rows_of diff ants) = length ants * (length ants - 1))%nat /\
  (forall b g, In (b, g) (rows_of diff ants) -> exists i j a1 a2, (i < j)%nat /\ nth_error ants i = Some a1 /\ nth_error ants j = Some a2 /\ b = diff (fst a1) (fst a2) /\ g = product (snd a1) (snd a2)).
Proof.
  intros P diff ants. unfold rows_of. split.
  - rewrite map_length. induction ants as [|a ants IH]; [reflexivity|]. unfold pairs in *. cbn [length]. rewrite app_length, map_length. match type of IH with (2 * ?L = _)%nat => set (M := L) in * end. clearbody M. destruct (length ants) as [|m]; nia.
  - intros b g I. apply in_map_iff in I. destruct I as ((a1 & a2) & E & I). injection E as <- <-. unfold pairs in I. induction ants as [|a ants IH]; [destruct I|]. apply in_app_or in I. destruct I as [I|I].
    + apply in_map_iff in I. destruct I as (a' & E & I). injection E as <- <-. apply In_nth_error in I. destruct I as (k & K). exists 0%nat, (S k), a, a'. repeat split; (lia || exact K).
    + destruct (IH I) as (i & j & b1 & b2 & L & N1 & N2 & Q1 & Q2). exists (S i), (S j), b1, b2. repeat split; (lia || assumption).
Qed.
Print Assumptions C89_pairs.
