(** C48: brightness temperature. *)
From Coq Require Import List Arith ZArith Reals Bool Lia Lra Psatz.
From Verif Require Import RLib StatsProps TempModel.
Import ListNotations.
Local Open Scope R_scope.

(** Cosmologies that are not closed: matter, a cosmological constant and no negative curvature term. *)
Definition physical (c : cosmo) : Prop :=
  0 < Om c /\ 0 <= lam c /\ Om c + lam c <= 1 /\ 0 < h c /\ 0 < meandt c /\ 0 < rho_crit_0 c /\ 0 < OmegaB c /\ 0 < Tcmb0 c.
Definition mean_density (c : cosmo) : R := rho_crit_0 c * OmegaB c.

Lemma Ez2_pos : forall c z, physical c -> -1 < z -> 0 < Ez2 c z.
Proof.
  intros c z (A & B & C & _) Hz. unfold Ez2. assert (0 < (1 + z) ^ 3) by (apply pow_lt; lra). assert (0 < (1 + z) ^ 2) by (apply pow_lt; lra).
  assert (0 < Om c * (1 + z) ^ 3) by (apply Rmult_lt_0_compat; assumption). assert (0 <= (1 - Om c - lam c) * (1 + z) ^ 2) by (apply Rmult_le_pos; lra). lra.
Qed.
Lemma mean_dt_pos : forall c z, physical c -> -1 < z -> 0 < mean_dt c z.
Proof.
  intros c z P Hz. pose proof (Ez2_pos c z P Hz). destruct P as (A & B & C & D & E & _). unfold mean_dt.
  apply Rdiv_lt_0_compat; [|apply sqrt_lt_R0; assumption]. apply Rmult_lt_0_compat; [apply Rdiv_lt_0_compat; assumption|apply pow_lt; lra].
Qed.
(** The mean signal is positive and grows with redshift. *)
Theorem C48_mean_signal : forall c z1 z2, physical c -> -1 < z1 -> z1 < z2 -> 0 < mean_dt c z1 < mean_dt c z2.
Proof.
  intros c z1 z2 P H1 H12. split; [apply mean_dt_pos; assumption|].
  pose proof (Ez2_pos c z1 P H1) as E1. pose proof (Ez2_pos c z2 P ltac:(lra)) as E2. destruct P as (A & B & C & D & E & _).
  unfold mean_dt. unfold Rdiv. rewrite !(Rmult_assoc (meandt c * / h c)). apply Rmult_lt_compat_l; [apply Rdiv_lt_0_compat; assumption|].
  assert (S1 : 0 < sqrt (Ez2 c z1)) by (apply sqrt_lt_R0; assumption). assert (S2 : 0 < sqrt (Ez2 c z2)) by (apply sqrt_lt_R0; assumption).
  apply Rmult_lt_reg_r with (sqrt (Ez2 c z1) * sqrt (Ez2 c z2)); [apply Rmult_lt_0_compat; assumption|].
  replace ((1 + z1) ^ 2 * / sqrt (Ez2 c z1) * (sqrt (Ez2 c z1) * sqrt (Ez2 c z2))) with ((1 + z1) ^ 2 * sqrt (Ez2 c z2)) by (field; lra).
  replace ((1 + z2) ^ 2 * / sqrt (Ez2 c z2) * (sqrt (Ez2 c z1) * sqrt (Ez2 c z2))) with ((1 + z2) ^ 2 * sqrt (Ez2 c z1)) by (field; lra).
  assert (SQ : forall z, -1 < z -> (1 + z) ^ 2 = sqrt ((1 + z) ^ 4)).
  { intros z Hz. replace ((1 + z) ^ 4) with ((1 + z) ^ 2 * (1 + z) ^ 2) by ring. rewrite sqrt_square; [reflexivity|]. apply pow2_ge_0. }
  rewrite (SQ z1 H1), (SQ z2 ltac:(lra)). rewrite <- !sqrt_mult; try (apply pow_le; lra); try lra.
  apply sqrt_lt_1.
  - apply Rmult_le_pos; [apply pow_le; lra|lra].
  - apply Rmult_le_pos; [apply pow_le; lra|lra].
  - unfold Ez2. set (u := 1 + z1). set (v := 1 + z2). assert (0 < u) by (unfold u; lra). assert (u < v) by (unfold u, v; lra).
    assert (X1 : 0 < Om c * (u ^ 3 * v ^ 3 * (v - u))) by (repeat apply Rmult_lt_0_compat; try apply pow_lt; lra).
    assert (U2 : u ^ 2 < v ^ 2) by (assert (0 < (v - u) * (v + u)) by (apply Rmult_lt_0_compat; lra); nra).
    assert (X2 : 0 <= lam c * (v ^ 4 - u ^ 4)).
    { apply Rmult_le_pos; [assumption|]. replace (v ^ 4 - u ^ 4) with ((v ^ 2 - u ^ 2) * (v ^ 2 + u ^ 2)) by ring. apply Rmult_le_pos; [lra|]. pose proof (pow2_ge_0 u). pose proof (pow2_ge_0 v). lra. }
    assert (X3 : 0 <= (1 - Om c - lam c) * (u ^ 2 * v ^ 2 * (v ^ 2 - u ^ 2))).
    { apply Rmult_le_pos; [lra|]. apply Rmult_le_pos; [|lra]. apply Rmult_le_pos; apply pow2_ge_0. }
    replace (v ^ 4 * (Om c * u ^ 3 + lam c + (1 - Om c - lam c) * u ^ 2)) with
      (u ^ 4 * (Om c * v ^ 3 + lam c + (1 - Om c - lam c) * v ^ 2) + (Om c * (u ^ 3 * v ^ 3 * (v - u)) + lam c * (v ^ 4 - u ^ 4) + (1 - Om c - lam c) * (u ^ 2 * v ^ 2 * (v ^ 2 - u ^ 2)))) by ring.
    lra.
Qed.
Print Assumptions C48_mean_signal.

Lemma no_negative_ok : forall l, no_negative l = true <-> forall r, In r l -> 0 <= r.
Proof.
  intro l. unfold no_negative. rewrite forallb_forall. split; intros H r I; specialize (H r I).
  - destruct (Rle_dec 0 r); [assumption|discriminate].
  - destruct (Rle_dec 0 r); [reflexivity|contradiction].
Qed.
(** The mean signal is [meandt / h] today in every cosmology; it grows as (1+z)^(1/2) in a universe of matter only, as 1+z in an
    empty one and as (1+z)^2 with a cosmological constant only; in general its square is inversely proportional to the sum of
    the three contributions. *)
Theorem C48_mean_value : forall c z, -1 < z -> h c <> 0 ->
  mean_dt c 0 = meandt c / h c /\
  (Om c = 1 -> lam c = 0 -> mean_dt c z = meandt c / h c * sqrt (1 + z)) /\
  (Om c = 0 -> lam c = 0 -> mean_dt c z = meandt c / h c * (1 + z)) /\
  (Om c = 0 -> lam c = 1 -> mean_dt c z = meandt c / h c * (1 + z) ^ 2) /\
  (0 < Om c * (1 + z) ^ 3 + (1 - Om c - lam c) * (1 + z) ^ 2 + lam c ->
   (mean_dt c z) ^ 2 * (Om c * (1 + z) ^ 3 + (1 - Om c - lam c) * (1 + z) ^ 2 + lam c) = (meandt c / h c) ^ 2 * (1 + z) ^ 4).
Proof.
  intros c z Hz Hh. unfold mean_dt. split; [|split; [|split; [|split]]].
  - replace (Ez2 c 0) with 1 by (unfold Ez2; ring). rewrite sqrt_1. field. exact Hh.
  - intros O L. replace (Ez2 c z) with ((1 + z) ^ 2 * (1 + z)) by (unfold Ez2; rewrite O, L; ring).
    rewrite sqrt_mult_alt by apply pow2_ge_0. rewrite sqrt_pow2 by lra. assert (Q : 0 < sqrt (1 + z)) by (apply sqrt_lt_R0; lra).
    set (q := sqrt (1 + z)) in *. replace ((1 + z) ^ 2) with ((1 + z) * (q * q)) by (unfold q; rewrite sqrt_sqrt by lra; ring). field. repeat split; lra.
  - intros O L. replace (Ez2 c z) with ((1 + z) ^ 2) by (unfold Ez2; rewrite O, L; ring). rewrite sqrt_pow2 by lra. field. split; lra.
  - intros O L. replace (Ez2 c z) with 1 by (unfold Ez2; rewrite O, L; ring). rewrite sqrt_1. field. exact Hh.
  - intro P. replace (Om c * (1 + z) ^ 3 + (1 - Om c - lam c) * (1 + z) ^ 2 + lam c) with (Ez2 c z) in * by (unfold Ez2; ring).
    set (e := sqrt (Ez2 c z)). assert (0 < e) by now apply sqrt_lt_R0. replace (Ez2 c z) with (e * e) by (unfold e; apply sqrt_sqrt; lra). field. split; lra.
Qed.
Print Assumptions C48_mean_value.

(** A density field without negative cells gives, cell by cell, the mean signal times the
    neutral fraction times the density in units of the mean; fully ionised cells give zero,
    no cell is negative or above the value of a neutral cell of the same density. *)
Theorem C48_calc_dt : forall c z cells, physical c -> -1 < z -> (forall p, In p cells -> 0 <= fst p /\ 0 <= snd p <= 1) ->
  dt_cells c z cells = map (fun p => mean_dt c z * (1 - snd p) * (fst p / mean_density c)) cells /\
  (forall i p, nth_error cells i = Some p ->
     let dt := nth i (dt_cells c z cells) 0 in
     0 <= dt <= mean_dt c z * (fst p / mean_density c) /\ (dt = 0 <-> snd p = 1 \/ fst p = 0)).
Proof.
  intros c z cells P Hz B. pose proof (mean_dt_pos c z P Hz) as M.
  assert (D : 0 < mean_density c) by (destruct P as (_ & _ & _ & _ & _ & Q1 & Q2 & _); apply Rmult_lt_0_compat; assumption).
  assert (E : dt_cells c z cells = map (fun p => mean_dt c z * (1 - snd p) * (fst p / mean_density c)) cells).
  { unfold dt_cells. assert (N : no_negative (map fst cells) = true).
    { apply no_negative_ok. intros r I. apply in_map_iff in I. destruct I as (p & Ep & I). subst r. apply B. exact I. }
    unfold rho_mean. rewrite N. apply map_ext. intro p. unfold mean_density, Rdiv. ring. }
  split; [exact E|]. intros i p Ep. cbv zeta. rewrite E.
  assert (Li : (i < length cells)%nat) by (apply nth_error_Some; congruence).
  assert (Np : nth i cells (0, 0) = p) by (apply nth_error_nth; exact Ep).
  rewrite (nth_indep _ 0 ((fun p => mean_dt c z * (1 - snd p) * (fst p / mean_density c)) (0, 0))) by (rewrite map_length; exact Li).
  rewrite (map_nth (fun p => mean_dt c z * (1 - snd p) * (fst p / mean_density c))). rewrite Np.
  destruct (B p (nth_error_In _ _ Ep)) as [R0 X]. assert (Q : 0 <= fst p / mean_density c) by (apply Rmult_le_pos; [assumption|left; apply Rinv_0_lt_compat; assumption]).
  assert (Q0 : fst p / mean_density c = 0 <-> fst p = 0).
  { split; [|intro F; rewrite F; unfold Rdiv; ring]. intro F. apply Rmult_integral in F. destruct F as [F|F]; [exact F|]. exfalso. assert (0 < / mean_density c) by (apply Rinv_0_lt_compat; assumption). lra. }
  set (q := fst p / mean_density c) in *. split; [split|].
  - apply Rmult_le_pos; [apply Rmult_le_pos; lra|exact Q].
  - apply Rmult_le_compat_r; [exact Q|]. nra.
  - rewrite <- Q0. split.
    + intro F. apply Rmult_integral in F. destruct F as [F|F]; [|right; exact F]. apply Rmult_integral in F. destruct F; [lra|left; lra].
    + intros [F|F]; rewrite F; ring.
Qed.
Print Assumptions C48_calc_dt.

(** Linear in the density (while no cell turns negative) and in the ionised fraction. *)
Theorem C48_linear : forall c z cells a b, 0 <= a -> 0 <= b ->
  (forall p, In p cells -> 0 <= fst p) ->
  (forall rho2, length rho2 = length cells -> (forall r, In r rho2 -> 0 <= r) ->
     dt_cells c z (map (fun q => (a * fst (fst q) + b * snd q, snd (fst q))) (combine cells rho2)) =
     map (fun q => a * fst q + b * snd q)
       (combine (dt_cells c z cells) (dt_cells c z (map (fun q => (snd q, snd (fst q))) (combine cells rho2))))) /\
  (forall xi2, length xi2 = length cells -> a + b = 1 ->
     dt_cells c z (map (fun q => (fst (fst q), a * snd (fst q) + b * snd q)) (combine cells xi2)) =
     map (fun q => a * fst q + b * snd q)
       (combine (dt_cells c z cells) (dt_cells c z (map (fun q => (fst (fst q), snd q)) (combine cells xi2))))).
Proof.
  intros c z cells a b Ha Hb B.
  assert (RM : forall l, (forall r, In r l -> 0 <= r) -> rho_mean c l = mean_density c).
  { intros l H. unfold rho_mean. rewrite (proj2 (no_negative_ok l) H). reflexivity. }
  assert (Bc : forall r, In r (map fst cells) -> 0 <= r).
  { intros r I. apply in_map_iff in I. destruct I as (p & E & I). subst r. apply B. exact I. }
  split.
  - intros rho2 L B2. unfold dt_cells. rewrite (RM (map fst cells) Bc). rewrite !map_map. cbn [fst snd].
    rewrite (RM (map (fun x => a * fst (fst x) + b * snd x) (combine cells rho2))).
    2:{ intros r I. apply in_map_iff in I. destruct I as ([p r2] & E & I). cbn [fst snd] in E. subst r.
        pose proof (B p (in_combine_l _ _ _ _ I)). pose proof (B2 r2 (in_combine_r _ _ _ _ I)).
        apply Rplus_le_le_0_compat; apply Rmult_le_pos; assumption. }
    match goal with |- context [rho_mean c ?l] => rewrite (RM l) end.
    2:{ intros r I. apply in_map_iff in I. destruct I as ([p r2] & E & I). cbn [fst snd] in E. subst r. apply B2. exact (in_combine_r _ _ _ _ I). }
    clear B B2 Bc RM. revert rho2 L. induction cells as [|p cells IH]; intros rho2 L; [reflexivity|]. destruct rho2 as [|r rho2]; [discriminate|].
    cbn [combine map fst snd]. f_equal; [unfold Rdiv; ring|]. apply IH. cbn in L. lia.
  - intros xi2 L AB. unfold dt_cells. rewrite (RM (map fst cells) Bc). rewrite !map_map. cbn [fst snd].
    assert (Bm : forall r, In r (map (fun x : cellv * R => fst (fst x)) (combine cells xi2)) -> 0 <= r).
    { intros r I. apply in_map_iff in I. destruct I as ([p r2] & E & I). cbn [fst snd] in E. subst r. apply B. exact (in_combine_l _ _ _ _ I). }
    repeat match goal with |- context [rho_mean c ?l] => rewrite (RM l) by exact Bm end. clear B Bm Bc RM. revert xi2 L. induction cells as [|p cells IH]; intros xi2 L; [reflexivity|]. destruct xi2 as [|x xi2]; [discriminate|].
    cbn [combine map fst snd]. f_equal; [|apply IH; cbn in L; lia]. unfold Rdiv. replace b with (1 - a) by lra. ring.
Qed.
Print Assumptions C48_linear.
Example C48_linear_sat : exists (cells : list (R * R)) a b, 0 <= a /\ 0 <= b /\ (forall p, In p cells -> 0 <= fst p).
Proof. exists [(1, 0); (2, 1/2); (3, 1)], 2, 3. split; [lra|]. split; [lra|]. intros p [<-|[<-|[<-|[]]]]; cbn; lra. Qed.

(** The mean of the map over a neutral box of mean density is [mean_dt]; in general the
    sum is weighted by the density. *)
Theorem C48_box_mean : forall c z cells, physical c -> -1 < z -> cells <> [] -> (forall p, In p cells -> 0 <= fst p) ->
  rsum (map fst cells) = INR (length cells) * mean_density c ->
  rsum (dt_cells c z cells) / INR (length cells) =
    mean_dt c z * (1 - rsum (map (fun p => snd p * fst p) cells) / rsum (map fst cells)).
Proof.
  intros c z cells P Hz N B Mn.
  assert (D : 0 < mean_density c) by (destruct P as (_ & _ & _ & _ & _ & Q1 & Q2 & _); apply Rmult_lt_0_compat; assumption).
  assert (L : 0 < INR (length cells)) by (apply lt_0_INR; destruct cells; [contradiction|cbn; lia]).
  assert (E : rsum (dt_cells c z cells) = mean_dt c z / mean_density c * (rsum (map fst cells) - rsum (map (fun p => snd p * fst p) cells))).
  { unfold dt_cells. assert (NN : no_negative (map fst cells) = true).
    { apply no_negative_ok. intros r I. apply in_map_iff in I. destruct I as (p & Ep & I). subst r. apply B. exact I. }
    unfold rho_mean. rewrite NN. rewrite <- rsum_minus, <- rsum_scale. apply rsum_ext. intros p _. unfold mean_density, Rdiv. ring. }
  rewrite E, Mn. field. lra.
Qed.
Print Assumptions C48_box_mean.

(** One negative cell anywhere changes every other cell by the factor of the mean density. *)
Theorem C48_negative_cell : forall c z a p b q, physical c -> (forall r, In r (a ++ p :: b) -> 0 <= fst r) -> fst q < 0 ->
  forall i, (i < length a)%nat ->
  nth i (dt_cells c z (a ++ q :: b)) 0 = mean_density c * nth i (dt_cells c z (a ++ p :: b)) 0.
Proof.
  intros c z a p b q P B Hq i Hi.
  assert (D : 0 < mean_density c) by (destruct P as (_ & _ & _ & _ & _ & Q1 & Q2 & _); apply Rmult_lt_0_compat; assumption).
  unfold dt_cells.
  assert (N1 : no_negative (map fst (a ++ p :: b)) = true).
  { apply no_negative_ok. intros r I. apply in_map_iff in I. destruct I as (s & E & I). subst r. apply B. exact I. }
  assert (N2 : no_negative (map fst (a ++ q :: b)) = false).
  { apply not_true_is_false. intro T. rewrite no_negative_ok in T. specialize (T (fst q)). assert (0 <= fst q); [|lra]. apply T. apply in_map. apply in_app_iff. right. left. reflexivity. }
  unfold rho_mean. rewrite N1, N2. cbv zeta.
  assert (G : forall m u, nth i (map (fun r : cellv => mean_dt c z * (1 - snd r) * fst r / m) (a ++ u :: b)) 0 = mean_dt c z * (1 - snd (nth i a (0, 0))) * fst (nth i a (0, 0)) / m).
  { intros m u. rewrite map_app, app_nth1 by (rewrite map_length; exact Hi).
    rewrite (nth_indep _ 0 ((fun r : cellv => mean_dt c z * (1 - snd r) * fst r / m) (0, 0))) by (rewrite map_length; exact Hi).
    rewrite (map_nth (fun r : cellv => mean_dt c z * (1 - snd r) * fst r / m)). reflexivity. }
  rewrite !G. fold (mean_density c). field. lra.
Qed.
Print Assumptions C48_negative_cell.

(** Light cones: each cell gets the redshift of its position along the LAST axis. That is
    the line of sight for [los_axis = 2]; for the other axes of a cube the redshift varies
    along the wrong axis, and most other shapes raise. *)
Theorem C48_lightcone : forall c nonneg nx ny nz los zs rho xi n, axis_size (nx, ny, nz) los = Some n -> length zs = n -> (0 < nx)%nat -> (0 < ny)%nat -> (0 < nz)%nat ->
  (dt_lightcone c nonneg (nx, ny, nz) los zs rho xi = None <-> n <> nz /\ n <> 1%nat /\ nz <> 1%nat) /\
  (n = nz -> exists b, dt_lightcone c nonneg (nx, ny, nz) los zs rho xi = Some (nx, ny, nz, b) /\
     forall i j k, b i j k = mean_dt c (nth k zs 0) * (1 - xi i j k) * rho i j k / (if nonneg then mean_density c else 1)).
Proof.
  intros c nonneg nx ny nz los zs rho xi n A L X Y Z. unfold dt_lightcone. rewrite A. split.
  - destruct (Nat.eqb_spec n nz); [split; [discriminate|tauto]|]. destruct (Nat.eqb_spec n 1); [split; [discriminate|tauto]|].
    destruct (Nat.eqb_spec nz 1); [split; [discriminate|tauto]|]. split; [tauto|reflexivity].
  - intro E. rewrite (proj2 (Nat.eqb_eq n nz) E). eexists. split; [reflexivity|]. intros i j k. unfold mean_density. reflexivity.
Qed.
Print Assumptions C48_lightcone.
Theorem C48_lightcone_axis_refuted : forall c, physical c ->
  exists zs rho xi b, dt_lightcone c true (2, 2, 2)%nat 0 zs rho xi = Some (2%nat, 2%nat, 2%nat, b) /\
    (forall i j k, rho i j k = mean_density c /\ xi i j k = 0) /\ b 0%nat 0%nat 0%nat <> b 0%nat 0%nat 1%nat /\ b 0%nat 0%nat 0%nat = b 1%nat 0%nat 0%nat.
Proof.
  intros c P. exists [6; 7], (fun _ _ _ => mean_density c), (fun _ _ _ => 0). eexists. split; [reflexivity|].
  assert (D : 0 < mean_density c) by (destruct P as (_ & _ & _ & _ & _ & Q1 & Q2 & _); apply Rmult_lt_0_compat; assumption).
  split; [auto|]. split; [|reflexivity]. cbv beta. cbn [nth]. change (rho_crit_0 c * OmegaB c) with (mean_density c).
  pose proof (C48_mean_signal c 6 7 P ltac:(lra) ltac:(lra)).
  replace (mean_dt c 6 * (1 - 0) * mean_density c / mean_density c) with (mean_dt c 6) by (field; lra).
  replace (mean_dt c 7 * (1 - 0) * mean_density c / mean_density c) with (mean_dt c 7) by (field; lra). lra.
Qed.
Print Assumptions C48_lightcone_axis_refuted.

(** The redshifts given to the slices. With transverse axes of equal size N they are the
    redshifts of slices one cell, LB / N, apart in comoving distance; the first is
    [lowest_z] and they increase. *)
Theorem C48_lightcone_redshifts : forall dist red LB s los lowest_z N n,
  (forall a b, 0 <= a -> a < b -> dist a < dist b) -> (forall d, dist 0 <= d -> 0 <= red d /\ dist (red d) = d) ->
  0 < LB -> 0 <= lowest_z -> (0 < N)%nat ->
  ((los = 2 \/ los = -1)%Z /\ s = (N, N, n) \/ (los = 1 \/ los = -2)%Z /\ s = (N, n, N) \/ (los = 0 \/ los = -3)%Z /\ s = (n, N, N)) ->
  exists zs, lightcone_redshifts dist red LB s los lowest_z = Some zs /\ length zs = n /\
    (forall k, (k < n)%nat -> dist (nth k zs 0) = dist lowest_z + INR k * (LB / INR N)) /\
    ((0 < n)%nat -> nth 0 zs 0 = lowest_z) /\
    (forall j k, (j < k < n)%nat -> lowest_z <= nth j zs 0 < nth k zs 0).
Proof.
  intros dist red LB s los z N n Mono Inv HL Hz HN Sh.
  assert (CP : 0 < LB / INR N) by (apply Rdiv_lt_0_compat; [exact HL|apply lt_0_INR; exact HN]).
  assert (E : lightcone_redshifts dist red LB s los z = Some (map (fun k => red (INR k * (LB / INR N) + dist z)) (seq 0 n))).
  { destruct Sh as [[[A|A] B]|[[[A|A] B]|[[A|A] B]]]; subst los s; reflexivity. }
  eexists. split; [exact E|]. rewrite map_length, seq_length. split; [reflexivity|].
  assert (NT : forall k, (k < n)%nat -> nth k (map (fun k => red (INR k * (LB / INR N) + dist z)) (seq 0 n)) 0 = red (INR k * (LB / INR N) + dist z)).
  { intros k K. rewrite (nth_indep _ 0 ((fun k => red (INR k * (LB / INR N) + dist z)) 0%nat)) by (rewrite map_length, seq_length; exact K).
    rewrite (map_nth (fun k => red (INR k * (LB / INR N) + dist z))). rewrite seq_nth by exact K. reflexivity. }
  assert (D0 : dist 0 <= dist z) by (destruct (Req_dec z 0) as [F|F]; [rewrite F; lra|left; apply Mono; lra]).
  assert (GE : forall k, dist 0 <= INR k * (LB / INR N) + dist z).
  { intro k. pose proof (Rmult_le_pos (INR k) (LB / INR N) (pos_INR k) ltac:(lra)). lra. }
  assert (LT : forall a b, 0 <= a -> 0 <= b -> dist a < dist b -> a < b).
  { intros a b A B F. destruct (Rlt_le_dec a b) as [|G]; [assumption|]. destruct G as [G|G]; [pose proof (Mono b a B G); lra|subst; lra]. }
  assert (Z0 : red (INR 0 * (LB / INR N) + dist z) = z).
  { destruct (Inv _ (GE 0%nat)) as [P Q]. cbn [INR] in *. rewrite Rmult_0_l, Rplus_0_l in *. set (w := red (dist z)) in *.
    destruct (Rtotal_order w z) as [F|[F|F]]; [|exact F|]; apply Mono in F; lra. }
  split; [|split].
  - intros k K. rewrite (NT k K). rewrite (proj2 (Inv _ (GE k))). ring.
  - intro K. rewrite (NT 0%nat K). exact Z0.
  - intros j k [J K]. rewrite (NT j) by lia. rewrite (NT k K). destruct (Inv _ (GE j)) as [P1 Q1]. destruct (Inv _ (GE k)) as [P2 Q2]. split.
    + destruct j as [|j]; [rewrite Z0; lra|]. left. apply LT; try assumption. rewrite Q1.
      pose proof (Rmult_lt_0_compat (INR (S j)) (LB / INR N) (lt_0_INR _ (Nat.lt_0_succ j)) CP). lra.
    + apply LT; try assumption. rewrite Q1, Q2. apply Rplus_lt_compat_r. apply Rmult_lt_compat_r; [exact CP|]. apply lt_INR. exact J.
Qed.
Print Assumptions C48_lightcone_redshifts.
(** Transverse axes of different sizes: only the axis after the line of sight counts.
    Axes outside -3 .. 2 are refused. *)
Theorem C48_lightcone_cell : forall dist red LB nx ny nz lowest_z,
  lightcone_redshifts dist red LB (nx, ny, nz) 2 lowest_z = Some (map (fun k => red (INR k * (LB / INR nx) + dist lowest_z)) (seq 0 nz)) /\
  lightcone_redshifts dist red LB (nx, ny, nz) 1 lowest_z = Some (map (fun k => red (INR k * (LB / INR nz) + dist lowest_z)) (seq 0 ny)) /\
  lightcone_redshifts dist red LB (nx, ny, nz) 0 lowest_z = Some (map (fun k => red (INR k * (LB / INR ny) + dist lowest_z)) (seq 0 nx)) /\
  (forall los, lightcone_redshifts dist red LB (nx, ny, nz) los lowest_z = None <-> (los < -3 \/ 2 < los)%Z).
Proof.
  intros. split; [reflexivity|]. split; [reflexivity|]. split; [reflexivity|]. intro los. unfold lightcone_redshifts, los_index.
  destruct (Z.leb_spec 0 los); destruct (Z.ltb_spec los 3); cbn [andb]; [split; [discriminate|lia]| | |];
    destruct (Z.leb_spec (-3) los); destruct (Z.ltb_spec los 0); cbn [andb]; (split; [discriminate|lia]) || (split; [lia|reflexivity]).
Qed.
Print Assumptions C48_lightcone_cell.
Example C48_lightcone_sat : exists dist red : R -> R, (forall a b, 0 <= a -> a < b -> dist a < dist b) /\
  (forall d, dist 0 <= d -> 0 <= red d /\ dist (red d) = d) /\
  lightcone_redshifts dist red 100 (50, 50, 3)%nat 2 6 = Some [(INR 0 * (100 / INR 50) + 3000 * 6) / 3000; (INR 1 * (100 / INR 50) + 3000 * 6) / 3000; (INR 2 * (100 / INR 50) + 3000 * 6) / 3000].
Proof.
  exists (fun z => 3000 * z), (fun d => d / 3000). split; [intros; lra|]. split; [intros; lra|]. reflexivity.
Qed.

(** The gas that follows the CMB down to 1 + z = 201, and cools as the square of 1 + z from there on. *)
Definition adiabatic (c : cosmo) (z : R) : R := Tcmb0 c * 201 * ((1 + z) / 201) ^ 2.
(** With the spin temperature: the corrected temperature of a partly neutral cell is the
    neutral part's, never below the adiabatic limit; absorption iff it is below the CMB;
    never brighter than the hot limit [calc_dt]. *)
Theorem C48_full : forall c z rho xi Ts correct, physical c -> -1 < z -> 0 <= xi < 1 -> 0 < rho -> (correct = false -> 0 < Ts) ->
  exists t dt, Ts_new c z correct Ts xi = Fin t /\ dt_full c z correct rho xi Ts = Fin dt /\ 0 < t /\
    (correct = true -> t = Rmax (adiabatic c z) ((Ts - xi * 20000) / (1 - xi))) /\ (correct = false -> t = Ts) /\
    (dt < 0 <-> t < Tcmb0 c * (1 + z)) /\ (dt = 0 <-> t = Tcmb0 c * (1 + z)) /\
    dt < mean_dt c z * (1 - xi) * rho / mean_density c /\
    dt = mean_dt c z * (1 - xi) * rho / mean_density c * (1 - Tcmb0 c * (1 + z) / t).
Proof.
  intros c z rho xi Ts correct P Hz X Hr HT. pose proof (mean_dt_pos c z P Hz) as M.
  assert (D : 0 < mean_density c) by (destruct P as (_ & _ & _ & _ & _ & Q1 & Q2 & _); apply Rmult_lt_0_compat; assumption).
  assert (T0 : 0 < Tcmb0 c) by (destruct P as (_ & _ & _ & _ & _ & _ & _ & Q); exact Q).
  assert (TM : 0 < T_min c z).
  { unfold T_min. apply Rdiv_lt_0_compat; [|lra]. apply Rmult_lt_0_compat; [lra|apply pow_lt; lra]. }
  assert (AD : adiabatic c z = T_min c z) by (unfold adiabatic, T_min; field). rewrite AD. change 20000 with T_HII.
  assert (E : exists t, Ts_new c z correct Ts xi = Fin t /\ 0 < t /\ (correct = true -> t = Rmax (T_min c z) ((Ts - xi * T_HII) / (1 - xi))) /\ (correct = false -> t = Ts)).
  { unfold Ts_new. destruct correct.
    - destruct (Req_EM_T xi 1); [lra|]. cbv zeta. eexists. split; [reflexivity|]. unfold Rmax.
      destruct (Rlt_dec ((Ts - xi * T_HII) / (1 - xi)) (T_min c z)); destruct (Rle_dec (T_min c z) ((Ts - xi * T_HII) / (1 - xi))); try lra;
        (split; [lra|]; split; [reflexivity|discriminate]).
    - exists Ts. split; [reflexivity|]. split; [apply HT; reflexivity|]. split; [discriminate|reflexivity]. }
  destruct E as (t & E1 & E2 & E3 & E4). exists t. unfold dt_full. rewrite E1. eexists. split; [reflexivity|]. split; [reflexivity|].
  split; [exact E2|]. split; [exact E3|]. split; [exact E4|]. fold (mean_density c).
  set (A := mean_dt c z * (1 - xi) * rho / mean_density c).
  assert (HA : 0 < A) by (unfold A; apply Rdiv_lt_0_compat; [apply Rmult_lt_0_compat; [apply Rmult_lt_0_compat; [exact M|lra]|exact Hr]|exact D]).
  replace ((t - Tcmb0 c * (1 + z)) / t * mean_dt c z * (1 - xi) * rho / mean_density c) with ((t - Tcmb0 c * (1 + z)) * (A / t)) by (unfold A; field; split; apply Rgt_not_eq; assumption).
  assert (HB : 0 < A / t) by (apply Rdiv_lt_0_compat; assumption).
  assert (HC : 0 < Tcmb0 c * (1 + z)) by (apply Rmult_lt_0_compat; lra).
  set (K := Tcmb0 c * (1 + z)) in *. assert (AW : A = t * (A / t)) by (field; lra). set (W := A / t) in *. clearbody W K A. clear -E2 HB HC AW.
  split; [split; intro; nra|]. split; [|split; [nra|rewrite AW; field; lra]]. split; [|intro; subst; ring]. intro F. apply Rmult_integral in F. destruct F; lra.
Qed.
Print Assumptions C48_full.

(** Fully ionised cells: zero when colder than 2e4 K, NaN otherwise (with the correction). *)
Theorem C48_full_ionised : forall c z rho Ts, physical c -> -1 < z ->
  (Ts < T_HII -> dt_full c z true rho 1 Ts = Fin 0) /\ (T_HII <= Ts -> dt_full c z true rho 1 Ts = NaN) /\ dt_full c z false rho 1 Ts = Fin 0.
Proof.
  intros c z rho Ts P Hz. unfold dt_full, Ts_new. destruct (Req_EM_T 1 1); [|lra]. split; [|split].
  - intro H. destruct (Rlt_dec Ts T_HII); [|lra]. f_equal. unfold Rdiv. ring.
  - intro H. destruct (Rlt_dec Ts T_HII); [lra|]. destruct (Req_EM_T Ts T_HII); reflexivity.
  - f_equal. unfold Rdiv. ring.
Qed.
Print Assumptions C48_full_ionised.

(** The full light cone uses one redshift, the mean, for all slices. *)
Theorem C48_full_lightcone : forall c zs zs' correct rho xi Ts, mean_z zs = mean_z zs' ->
  dt_full_lightcone c zs correct rho xi Ts = dt_full_lightcone c zs' correct rho xi Ts /\
  (forall i j k i' j' k', rho i j k = rho i' j' k' -> xi i j k = xi i' j' k' -> Ts i j k = Ts i' j' k' ->
     dt_full_lightcone c zs correct rho xi Ts i j k = dt_full_lightcone c zs correct rho xi Ts i' j' k').
Proof.
  intros c zs zs' correct rho xi Ts E. unfold dt_full_lightcone. rewrite E. split; [reflexivity|]. intros i j k i' j' k' E1 E2 E3. rewrite E1, E2, E3. reflexivity.
Qed.
Print Assumptions C48_full_lightcone.
Example C48_full_lightcone_sat : exists zs zs', mean_z zs = mean_z zs' /\ zs <> zs'.
Proof. exists [7; 9], [8; 8]. split; [unfold mean_z; cbn; lra|]. intro E. injection E. lra. Qed.

Definition wmap : cosmo := Cosmo (27/100) (73/100) (7/10) 30 1 (44/1000) (2725/1000).
Example C48_sat : physical wmap /\ (forall p, In p [(1, 0); (2, 1/2); (3, 1)] -> 0 <= fst p /\ 0 <= snd p <= 1) /\ (0 <= 1/2 < 1).
Proof.
  split; [unfold physical, wmap; cbn; lra|]. split; [|lra]. intros p [D|[D|[D|[]]]]; subst; cbn; lra.
Qed.
Example C48_mean_signal_sat : exists (c : cosmo) (z1 : R) (z2 : R), physical c /\ -1 < z1 /\ z1 < z2.
Proof. exists wmap, 7, 8. split; [exact (proj1 C48_sat)|lra]. Qed.
Example C48_calc_dt_sat : exists (c : cosmo) (z : R) (cells : list (R * R)), physical c /\ -1 < z /\ (forall p, In p cells -> 0 <= fst p /\ 0 <= snd p <= 1).
Proof. exists wmap, 7, [(1, 0); (2, 1/2); (3, 1)]. split; [exact (proj1 C48_sat)|]. split; [lra|]. exact (proj1 (proj2 C48_sat)). Qed.
Example C48_box_mean_sat : exists (c : cosmo) (z : R) (cells : list (R * R)), physical c /\ -1 < z /\ cells <> [] /\ ((forall p, In p cells -> 0 <= fst p)) /\ rsum (map fst cells) = INR (length cells) * mean_density c.
Proof. exists wmap, 7, [(22/1000, 0); (66/1000, 1/2)]. split; [exact (proj1 C48_sat)|]. split; [lra|]. split; [discriminate|]. split; [intros p [<-|[<-|[]]]; cbn; lra|]. unfold mean_density. cbn. lra. Qed.
Example C48_negative_cell_sat : exists (c : cosmo) (a : list (R * R)) (p : R * R) (b : list (R * R)) (q : R * R), physical c /\ ((forall r, In r (a ++ p :: b) -> 0 <= fst r)) /\ fst q < 0 /\ exists i, (i < length a)%nat.
Proof. exists wmap, [(1, 0)], (2, 1/2), [], (-1, 1). split; [exact (proj1 C48_sat)|]. split; [intros p [<-|[<-|[]]]; cbn; lra|]. split; [cbn; lra|]. exists 0%nat. cbn. lia. Qed.
Example C48_lightcone_axis_refuted_sat : exists (c : cosmo), physical c.
Proof. exists wmap. exact (proj1 C48_sat). Qed.
Example C48_lightcone_redshifts_sat : exists (dist : R -> R) (red : R -> R) (LB : R) (s : nat * nat * nat) (los : Z) (lowest_z : R) (N : nat) (n : nat), ((forall a b, 0 <= a -> a < b -> dist a < dist b)) /\ ((forall d, dist 0 <= d -> 0 <= red d /\ dist (red d) = d)) /\ 0 < LB /\ 0 <= lowest_z /\ (0 < N)%nat /\ ((los = 2 \/ los = -1)%Z /\ s = (N, N, n) \/ (los = 1 \/ los = -2)%Z /\ s = (N, n, N) \/ (los = 0 \/ los = -3)%Z /\ s = (n, N, N)).
Proof. destruct C48_lightcone_sat as (dist & red & A & B & _). exists dist, red, 100, (50, 50, 3)%nat, 2%Z, 6, 50%nat, 3%nat. split; [exact A|]. split; [exact B|]. split; [lra|]. split; [lra|]. split; [lia|]. left. split; [left; reflexivity|reflexivity]. Qed.
Example C48_full_sat : exists (c : cosmo) (z : R) (rho : R) (xi : R) (Ts : R) (correct : bool), physical c /\ -1 < z /\ 0 <= xi < 1 /\ 0 < rho /\ (correct = false -> 0 < Ts).
Proof. exists wmap, 7, 2, (1/2), 10, false. split; [exact (proj1 C48_sat)|]. repeat split; lra. Qed.
Example C48_full_ionised_sat : exists (c : cosmo) (z : R), physical c /\ -1 < z.
Proof. exists wmap, 7. split; [exact (proj1 C48_sat)|lra]. Qed.
