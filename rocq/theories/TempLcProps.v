(** C48: light cones of the brightness temperature from the arguments to the cells. *)
From Coq Require Import List Arith ZArith Reals Lra Lia Bool.
From Verif Require Import TempModel TempProps TempLcModel.
Import ListNotations.
Local Open Scope R_scope.

(** * Specification *)
(** A distance-redshift relation and its inverse. *)
Definition distances (dist red : R -> R) : Prop :=
  (forall a b, 0 <= a -> a < b -> dist a < dist b) /\ (forall d, dist 0 <= d -> 0 <= red d /\ dist (red d) = d).

Lemma whole_spec : forall nx ny nz rho, (forall i j k, (i < nx)%nat -> (j < ny)%nat -> (k < nz)%nat -> 0 <= rho i j k) -> whole_no_negative (nx, ny, nz) rho = true.
Proof.
  intros nx ny nz rho H. unfold whole_no_negative, no_negative. apply forallb_forall. intros r I. apply in_flat_map in I. destruct I as (i & Ii & I). apply in_flat_map in I. destruct I as (j & Ij & I).
  apply in_map_iff in I. destruct I as (k & <- & Ik). apply in_seq in Ii, Ij, Ik. destruct (Rle_dec 0 (rho i j k)) as [|N]; [reflexivity|]. exfalso. apply N. apply H; lia.
Qed.

(** A light cone with its line of sight along the last axis: slice k lies k cells beyond the lowest redshift, the cell being the box
    length over the number of cells across, and each cell has the mean signal of the redshift of its slice times its neutral fraction
    times its density over the mean. *)
Theorem C48_calc_lightcone : forall c dist red LB N n xi rho lowest_z los, physical c -> distances dist red -> 0 < LB -> 0 <= lowest_z -> (0 < N)%nat -> (0 < n)%nat ->
  (los = 2 \/ los = -1)%Z -> (forall i j k, (i < N)%nat -> (j < N)%nat -> (k < n)%nat -> 0 <= rho i j k) ->
  exists b zs, calc_dt_lightcone c dist red LB (N, N, n) xi rho lowest_z los = Some (N, N, n, b) /\
    (forall k, (k < n)%nat -> lowest_z <= zs k /\ dist (zs k) = dist lowest_z + INR k * (LB / INR N)) /\
    (forall i j k, (k < n)%nat -> b i j k = mean_dt c (zs k) * (1 - xi i j k) * (rho i j k / mean_density c)) /\
    (forall i j k k', (k < k' < n)%nat -> xi i j k' <= xi i j k -> rho i j k <= rho i j k' -> 0 <= xi i j k < 1 -> 0 < rho i j k -> b i j k < b i j k').
Proof.
  intros c dist red LB N n xi rho lowest_z los P [DI DR] HL HZ HN Hn Hlos NN.
  destruct (C48_lightcone_redshifts dist red LB (N, N, n) los lowest_z N n DI DR HL HZ HN) as (zs & E & Len & Z1 & Z2 & Z3); [left; split; [exact Hlos|reflexivity]|].
  assert (D : 0 < mean_density c) by (destruct P as (_ & _ & _ & _ & _ & Q1 & Q2 & _); apply Rmult_lt_0_compat; assumption).
  assert (LI : los_index los = Some 2%nat) by (destruct Hlos as [->| ->]; reflexivity).
  assert (Low : forall k, (k < n)%nat -> lowest_z <= nth k zs 0).
  { intros [|k] Hk; [rewrite Z2 by exact Hn; lra|]. pose proof (Z3 0%nat (S k) ltac:(lia)). rewrite Z2 in * by exact Hn. lra. }
  unfold calc_dt_lightcone. rewrite E, LI. rewrite (whole_spec N N n rho NN). unfold dt_lightcone. cbn [axis_size]. rewrite Nat.eqb_refl.
  eexists _, (fun k => nth k zs 0). split; [reflexivity|]. cbv beta. change (rho_crit_0 c * OmegaB c) with (mean_density c).
  split; [intros k Hk; split; [apply Low; exact Hk|apply Z1; exact Hk]|]. split; [intros; unfold Rdiv; ring|].
  intros i j k k' Hk Hx Hr Hx1 Hr1.
  pose proof (Z3 k k' Hk) as [ZL ZZ].
  pose proof (C48_mean_signal c (nth k zs 0) (nth k' zs 0) P ltac:(lra) ZZ) as [M1 M2].
  apply Rmult_lt_compat_r; [apply Rinv_0_lt_compat; exact D|].
  apply Rlt_le_trans with (mean_dt c (nth k' zs 0) * (1 - xi i j k) * rho i j k).
  - apply Rmult_lt_compat_r; [exact Hr1|]. apply Rmult_lt_compat_r; lra.
  - rewrite !Rmult_assoc. apply Rmult_le_compat_l; [lra|]. apply Rmult_le_compat; lra.
Qed.
Print Assumptions C48_calc_lightcone.
Example C48_calc_lightcone_sat : physical wmap /\ distances (fun z => 3000 * z) (fun d => d / 3000) /\ 0 < 500 /\ 0 <= 6.
Proof. split; [exact (proj1 C48_sat)|]. split; [|lra]. split; intros; [lra|]. split; [lra|field]. Qed.

(** In a cube the named line of sight makes no difference: the redshifts always run along the last axis. *)
Theorem C48_calc_lightcone_axis_refuted : forall c dist red LB N xi rho lowest_z los, (-3 <= los <= 2)%Z ->
  calc_dt_lightcone c dist red LB (N, N, N) xi rho lowest_z los = calc_dt_lightcone c dist red LB (N, N, N) xi rho lowest_z 2.
Proof.
  intros c dist red LB N xi rho lowest_z los H. assert (C : (los = -3 \/ los = -2 \/ los = -1 \/ los = 0 \/ los = 1 \/ los = 2)%Z) by lia.
  unfold calc_dt_lightcone, lightcone_redshifts. destruct C as [->|[->|[->|[->|[->| ->]]]]]; cbn; change (Pos.to_nat 2) with 2%nat; change (Pos.to_nat 1) with 1%nat; cbn; rewrite ?Nat.eqb_refl; reflexivity.
Qed.
Print Assumptions C48_calc_lightcone_axis_refuted.
Example C48_calc_lightcone_axis_refuted_sat : (-3 <= 0 <= 2)%Z. Proof. lia. Qed.

(** A line of sight along another axis whose length differs from the last one's raises; so does an axis that is not there. *)
Theorem C48_calc_lightcone_raises : forall c dist red LB N n xi rho lowest_z, (2 <= N)%nat -> (2 <= n)%nat -> n <> N ->
  (forall los, (los = 0 \/ los = -3)%Z -> calc_dt_lightcone c dist red LB (n, N, N) xi rho lowest_z los = None) /\
  (forall los, (los = 1 \/ los = -2)%Z -> calc_dt_lightcone c dist red LB (N, n, N) xi rho lowest_z los = None) /\
  (forall s los, (los < -3 \/ 2 < los)%Z -> calc_dt_lightcone c dist red LB s xi rho lowest_z los = None).
Proof.
  intros c dist red LB N n xi rho lowest_z HN Hn Ne.
  assert (E : Nat.eqb n N = false) by (apply Nat.eqb_neq; exact Ne). assert (E1 : Nat.eqb n 1 = false) by (apply Nat.eqb_neq; lia). assert (E2 : Nat.eqb N 1 = false) by (apply Nat.eqb_neq; lia).
  split; [|split].
  - intros los [->| ->]; unfold calc_dt_lightcone, dt_lightcone, lightcone_redshifts; cbn; change (Pos.to_nat 2) with 2%nat; change (Pos.to_nat 1) with 1%nat; cbn; rewrite E, E1, E2; reflexivity.
  - intros los [->| ->]; unfold calc_dt_lightcone, dt_lightcone, lightcone_redshifts; cbn; change (Pos.to_nat 2) with 2%nat; change (Pos.to_nat 1) with 1%nat; cbn; rewrite E, E1, E2; reflexivity.
  - intros [[x y] z] los H. unfold calc_dt_lightcone. destruct (C48_lightcone_cell dist red LB x y z lowest_z) as (_ & _ & _ & Out). rewrite (proj2 (Out los) H). reflexivity.
Qed.
Print Assumptions C48_calc_lightcone_raises.
Example C48_calc_lightcone_raises_sat : (2 <= 4)%nat /\ (2 <= 9)%nat /\ 9%nat <> 4%nat. Proof. lia. Qed.

Lemma fold_between : forall l lo hi, (forall x, In x l -> lo <= x <= hi) -> INR (length l) * lo <= fold_right Rplus 0 l <= INR (length l) * hi.
Proof.
  induction l as [|x l IH]; intros lo hi H; [cbn; lra|]. cbn [length fold_right]. rewrite S_INR. pose proof (IH lo hi ltac:(intros; apply H; right; assumption)). pose proof (H x (or_introl eq_refl)). lra.
Qed.
Lemma mean_z_between : forall l lo hi, l <> [] -> (forall x, In x l -> lo <= x <= hi) -> lo <= mean_z l <= hi.
Proof.
  intros l lo hi Ne H. pose proof (fold_between l lo hi H) as B. assert (L : 0 < INR (length l)) by (apply lt_0_INR; destruct l; [congruence|cbn; lia]). unfold mean_z, Rdiv.
  split; apply Rmult_le_reg_r with (INR (length l)); try exact L; rewrite Rmult_assoc, Rinv_l, Rmult_1_r; lra.
Qed.
(** With spin temperatures the whole light cone is computed at one redshift between those of its ends: cells with the same density, ionised
    fraction and temperature have the same signal wherever they lie, whatever their own redshift is. *)
Theorem C48_calc_full_lightcone_refuted : forall c dist red LB N n xi Ts rho lowest_z los correct, distances dist red -> 0 < LB -> 0 <= lowest_z -> (0 < N)%nat -> (0 < n)%nat ->
  (los = 2 \/ los = -1)%Z ->
  exists b zm, calc_dt_full_lightcone c dist red LB (N, N, n) xi Ts rho lowest_z los correct = Some b /\
    dist lowest_z <= dist zm <= dist lowest_z + INR (n - 1) * (LB / INR N) /\ lowest_z <= zm /\
    (forall i j k, b i j k = dt_full c zm correct (rho i j k) (xi i j k) (Ts i j k)) /\
    (forall i j k i' j' k', rho i j k = rho i' j' k' -> xi i j k = xi i' j' k' -> Ts i j k = Ts i' j' k' -> b i j k = b i' j' k').
Proof.
  intros c dist red LB N n xi Ts rho lowest_z los correct [DI DR] HL HZ HN Hn Hlos.
  all: destruct (C48_lightcone_redshifts dist red LB (N, N, n) los lowest_z N n DI DR HL HZ HN) as (zs & E & Len & Z1 & Z2 & Z3); [left; split; [lia|reflexivity]|].
  all: assert (Low : forall k, (k < n)%nat -> lowest_z <= nth k zs 0 <= nth (n - 1) zs 0)
    by (intros k Hk; split; [destruct k as [|k]; [rewrite Z2 by exact Hn; lra|]; pose proof (Z3 0%nat (S k) ltac:(lia)); rewrite Z2 in * by exact Hn; lra|];
        destruct (Nat.eq_dec k (n - 1)) as [->|]; [lra|]; pose proof (Z3 k (n - 1)%nat ltac:(lia)); lra).
  all: assert (M : lowest_z <= mean_z zs <= nth (n - 1) zs 0)
    by (apply mean_z_between; [intro X; subst zs; cbn in Len; lia|]; intros x I; destruct (In_nth zs x 0 I) as (k & Hk & <-); apply Low; lia).
  all: assert (W : forall a b, 0 <= a -> a <= b -> dist a <= dist b) by (intros a b A B; destruct (Req_EM_T a b) as [->|]; [lra|]; pose proof (DI a b A ltac:(lra)); lra).
  all: exists (dt_full_lightcone c zs correct rho xi Ts), (mean_z zs); unfold calc_dt_full_lightcone; rewrite E; split; [reflexivity|].
  all: split; [split; [apply W; lra|]; rewrite <- (Z1 (n - 1)%nat) by lia; apply W; lra|].
  all: split; [lra|]; split; [reflexivity|]; intros i j k i' j' k' A B C; unfold dt_full_lightcone; rewrite A, B, C; reflexivity.
Qed.
Print Assumptions C48_calc_full_lightcone_refuted.
Example C48_calc_full_lightcone_refuted_sat : distances (fun z => 3000 * z) (fun d => d / 3000) /\ 0 < 500 /\ 0 <= 6.
Proof. exact (proj2 C48_calc_lightcone_sat). Qed.
