(** C34, C35: simulation and cosmology constants. *)
From Coq Require Import List ZArith Reals Bool Lia Lra.
From Verif Require Import ConstModel ConstSpec.
Import ListNotations.
Local Open Scope R_scope.

Lemma flt_comp_iff x y : flt_comp x y = true <-> Rabs (x - y) < 1 / 10 ^ 4.
Proof. unfold flt_comp. destruct (Rlt_dec (Rabs (x - y)) (1 / 10 ^ 4)); split; intro; auto; try discriminate; contradiction. Qed.

Lemma nbox_of_spec b : (forall n, nbox_of b = Some n <-> accepted_box b n) /\ (nbox_of b = None <-> ~ exists n, accepted_box b n).
Proof.
  assert (S1 : forall n, nbox_of b = Some n -> accepted_box b n).
  { intros n E. unfold nbox_of in E. destruct (find (fun e => flt_comp b (fst e)) box_table) as [[d k]|] eqn:F; [|discriminate].
    injection E as <-. apply find_some in F as [F1 F2]. apply flt_comp_iff in F2. cbn [fst snd] in *. exists d. split; [|exact F2].
    unfold box_table in F1. cbn [In] in F1. unfold documented_box.
    repeat (destruct F1 as [F1|F1]; [injection F1 as <- <-; tauto|]). destruct F1. }
  assert (U : forall d d' n n', documented_box d n -> documented_box d' n' -> Rabs (b - d) < 1 / 10 ^ 4 -> Rabs (b - d') < 1 / 10 ^ 4 -> n = n').
  { intros d d' n n' D D' A A'. assert (Q : Rabs (d - d') < 1).
    { replace (d - d') with ((b - d') - (b - d)) by ring. pose proof (Rabs_triang (b - d') (- (b - d))) as T. rewrite Rabs_Ropp in T.
      unfold Rminus at 1. assert (1 / 10 ^ 4 < 1 / 2) by lra. lra. }
    apply Rabs_def2 in Q. unfold documented_box in D, D'.
    repeat (match goal with H : _ \/ _ |- _ => destruct H end);
      repeat (match goal with H : _ /\ _ |- _ => destruct H end); subst; try reflexivity; exfalso; lra. }
  assert (S2 : nbox_of b = None -> ~ exists n, accepted_box b n).
  { intros E (n & d & D & A). unfold nbox_of in E. destruct (find (fun e => flt_comp b (fst e)) box_table) as [e|] eqn:F; [discriminate|].
    assert (I : In (d, n) box_table).
    { unfold box_table, documented_box in *. cbn [In]. repeat (destruct D as [[-> ->]|D]; [tauto|]). destruct D as [-> ->]. tauto. }
    pose proof (find_none _ _ F _ I) as Q. cbn [fst] in Q. apply flt_comp_iff in A. congruence. }
  split.
  - intro n. split; [apply S1|]. intros (d & D & A). destruct (nbox_of b) as [k|] eqn:E.
    + destruct (S1 k eq_refl) as (d' & D' & A'). f_equal. eapply U; eauto.
    + exfalso. apply (S2 eq_refl). exists n, d. auto.
  - split; [apply S2|]. intro N. destruct (nbox_of b) as [k|] eqn:E; [|reflexivity]. exfalso. apply N. exists k. apply S1. reflexivity.
Qed.

Lemma run_app os os' : run (os ++ os') = fold_left step os' (run os).
Proof. unfold run. apply fold_left_app. Qed.

(** ** C34 *)
(** A call with an accepted size, after any history, does not raise and sets all constants
    from that size and the current cosmology: they do not depend on earlier box sizes. *)
Theorem C34_accepted_box : forall os b nbox, accepted_box b nbox ->
  let c := fst (run os) in let v := snd (run (os ++ [SetSim b])) in
  snd (set_sim_constants b c (snd (run os))) = false /\
  fst (run (os ++ [SetSim b])) = c /\
  boxsize v = b /\ LB v = b / h c /\ nbox_fine v = nbox /\
  M_box v = rho_matter c * (b / h c * Mpc) ^ 3 /\
  M_grid v = M_box v / nbox ^ 3 /\ lscale v = b / h c / nbox * Mpc /\
  tscale v = 2 / (3 * sqrt (Omega0 c) * H0 c / Mpc * 10 ^ 5).
Proof.
  intros os b nbox A c v. apply (proj1 (nbox_of_spec b)) in A.
  unfold v. rewrite run_app. cbn [fold_left step fst snd]. fold c. unfold set_sim_constants. rewrite A. cbn [fst snd].
  repeat split.
Qed.
Print Assumptions C34_accepted_box.

(** A call raises exactly for the other sizes, and then it is not atomic: the box size and
    its length are changed, everything else stays. *)
Theorem C34_rejected_box : forall os b,
  let s := run os in let s' := run (os ++ [SetSim b]) in
  (snd (set_sim_constants b (fst s) (snd s)) = true <-> ~ exists nbox, accepted_box b nbox) /\
  ((~ exists nbox, accepted_box b nbox) ->
   fst s' = fst s /\ boxsize (snd s') = b /\ LB (snd s') = b / h (fst s) /\
   nbox_fine (snd s') = nbox_fine (snd s) /\ M_box (snd s') = M_box (snd s) /\ M_grid (snd s') = M_grid (snd s) /\
   lscale (snd s') = lscale (snd s) /\ tscale (snd s') = tscale (snd s)).
Proof.
  intros os b s s'. unfold s'. rewrite run_app. fold s. cbn [fold_left step fst snd]. unfold set_sim_constants.
  pose proof (proj2 (nbox_of_spec b)) as N. split.
  - destruct (nbox_of b) as [n|] eqn:E; cbn [snd]; rewrite <- N; split; intro H; auto; discriminate.
  - intro H. apply N in H. rewrite H. cbn [fst snd]. repeat split.
Qed.
Print Assumptions C34_rejected_box.

Definition no_accepted (os : list op) : Prop := forall b, In (SetSim b) os -> ~ exists n, accepted_box b n.
Definition no_call (os : list op) : Prop := forall b, ~ In (SetSim b) os.

Lemma keep_rejected os : forall s, no_accepted os ->
  nbox_fine (snd (fold_left step os s)) = nbox_fine (snd s) /\ M_box (snd (fold_left step os s)) = M_box (snd s) /\
  M_grid (snd (fold_left step os s)) = M_grid (snd s) /\ lscale (snd (fold_left step os s)) = lscale (snd s) /\
  tscale (snd (fold_left step os s)) = tscale (snd s).
Proof.
  induction os as [|o os IH]; intros s H; [repeat split|]. cbn [fold_left].
  assert (H' : no_accepted os) by (intros b Hb; apply H; right; exact Hb).
  destruct (IH (step s o) H') as (A1 & A2 & A3 & A4 & A5). rewrite A1, A2, A3, A4, A5.
  destruct o; try (cbn [step snd]; repeat split; fail). cbn [step snd]. unfold set_sim_constants.
  rewrite (proj2 (proj2 (nbox_of_spec b)) (H b (or_introl eq_refl))). repeat split.
Qed.
Lemma keep_nocall os : forall s, no_call os -> snd (fold_left step os s) = snd s.
Proof.
  induction os as [|o os IH]; intros s H; [reflexivity|]. cbn [fold_left].
  rewrite IH by (intros b Hb; apply (H b); right; exact Hb).
  destruct o; try reflexivity. exfalso. apply (H b). left. reflexivity.
Qed.

(** After any session the mesh, mass and cell-size constants are those of the last accepted
    call and of the cosmology at that moment, whatever came later; the box size is that of
    the last call, accepted or not. *)
Theorem C34_last_call_wins : forall pre b nbox mid,
  accepted_box b nbox -> no_accepted mid ->
  let c := fst (run pre) in let v := snd (run (pre ++ SetSim b :: mid)) in
  nbox_fine v = nbox /\ M_box v = rho_matter c * (b / h c * Mpc) ^ 3 /\
  M_grid v = rho_matter c * (b / h c * Mpc) ^ 3 / nbox ^ 3 /\ lscale v = b / h c / nbox * Mpc /\
  (no_call mid -> LB v = b / h c) /\
  (forall mid1 b' mid2, mid = mid1 ++ SetSim b' :: mid2 -> no_call mid2 ->
     boxsize v = b' /\ LB v = b' / h (fst (run (pre ++ SetSim b :: mid1)))).
Proof.
  intros pre b nbox mid A N c v.
  assert (R1 : run (pre ++ SetSim b :: mid) = fold_left step mid (run (pre ++ [SetSim b]))).
  { change (SetSim b :: mid) with ([SetSim b] ++ mid). rewrite app_assoc. apply run_app. }
  destruct (C34_accepted_box pre b nbox A) as (_ & _ & B1 & B2 & B3 & B4 & B5 & B6 & _). fold c in B2, B4, B6.
  destruct (keep_rejected mid (run (pre ++ [SetSim b])) N) as (K1 & K2 & K3 & K4 & _).
  unfold v. rewrite R1, K1, K2, K3, K4, B5, B4. split; [exact B3|]. split; [reflexivity|]. split; [reflexivity|].
  split; [exact B6|]. split.
  - intro NC. rewrite (keep_nocall mid _ NC). exact B2.
  - intros mid1 b' mid2 E NC. rewrite E. change (SetSim b' :: mid2) with ([SetSim b'] ++ mid2).
    rewrite !fold_left_app. rewrite (keep_nocall mid2 _ NC). cbn [fold_left].
    assert (R2 : run (pre ++ SetSim b :: mid1) = fold_left step mid1 (run (pre ++ [SetSim b]))).
    { change (SetSim b :: mid1) with ([SetSim b] ++ mid1). rewrite app_assoc. apply run_app. }
    rewrite R2. set (s := fold_left step mid1 (run (pre ++ [SetSim b]))). cbn [step snd]. unfold set_sim_constants.
    rewrite (proj2 (proj2 (nbox_of_spec b')) (N b' ltac:(rewrite E; apply in_or_app; right; left; reflexivity))). split; reflexivity.
Qed.
Print Assumptions C34_last_call_wins.

(** Hence positions in grid units and the box length disagree after a rejected call: the
    fine mesh spans the last accepted box. *)
Theorem C34_mixed_state_refuted : forall pre b nbox b', accepted_box b nbox -> ~ (exists n, accepted_box b' n) ->
  h (fst (run pre)) <> 0 ->
  let v := snd (run (pre ++ [SetSim b; SetSim b'])) in
  gridpos_to_mpc v (nbox_fine v) = b / h (fst (run pre)) /\ LB v = b' / h (fst (run pre)) /\
  gridpos_to_mpc v (nbox_fine v) <> LB v.
Proof.
  intros pre b nbox b' A N Hh v.
  assert (NA : no_accepted [SetSim b']) by (intros b0 [E|[]]; injection E as <-; exact N).
  destruct (C34_last_call_wins pre b nbox [SetSim b'] A NA) as (V1 & _ & _ & V4 & _ & V6).
  fold v in V1, V4, V6. destruct (V6 [] b' [] eq_refl (fun b0 H => H)) as [W1 W2].
  assert (C : fst (run (pre ++ [SetSim b])) = fst (run pre)) by (destruct (C34_accepted_box pre b nbox A) as (_ & C & _); exact C).
  rewrite C in W2.
  assert (NB : 0 < nbox).
  { clear - A. destruct A as (d & D & _). unfold documented_box in D.
    repeat (match goal with H : _ \/ _ |- _ => destruct H end); repeat (match goal with H : _ /\ _ |- _ => destruct H end); subst; lra. }
  assert (MP : 0 < Mpc) by (unfold Mpc; apply Rmult_lt_0_compat; [apply pow_lt; lra|apply Rmult_lt_0_compat; [lra|apply pow_lt; lra]]).
  assert (G : gridpos_to_mpc v (nbox_fine v) = b / h (fst (run pre))).
  { unfold gridpos_to_mpc. rewrite V1, V4. field. repeat split; lra. }
  split; [exact G|]. split; [exact W2|]. rewrite G, W2. intro E. apply N. exists nbox.
  replace b' with b; [exact A|]. apply (f_equal (fun x => x * h (fst (run pre)))) in E. field_simplify in E; lra.
Qed.
Print Assumptions C34_mixed_state_refuted.

Lemma accepted_114 : accepted_box 114 6144.
Proof. exists 114. split; [unfold documented_box; tauto|]. replace (114 - 114) with 0 by ring. rewrite Rabs_R0. lra. Qed.
Lemma rejected_100 : ~ exists n, accepted_box 100 n.
Proof.
  intros (n & d & D & A). apply Rabs_def2 in A. unfold documented_box in D.
  repeat (match goal with H : _ \/ _ |- _ => destruct H end); repeat (match goal with H : _ /\ _ |- _ => destruct H end); subst; lra.
Qed.
Example C34_sat : accepted_box 114 6144 /\ (~ exists n, accepted_box 100 n) /\ h (fst (run [])) <> 0 /\
  no_accepted [SetOmegaMatter (3 / 10); SetSim 100].
Proof.
  split; [exact accepted_114|]. split; [exact rejected_100|]. split; [cbn; lra|].
  intros b [E|[E|[]]]; [discriminate|]. injection E as <-. exact rejected_100.
Qed.

(** ** C35 *)
(** Last value given to a setter in a history, or the initial one. *)
Definition last_of (f : op -> option R) (init : R) (os : list op) : R :=
  fold_left (fun a o => match f o with Some v => v | None => a end) os init.
Definition hubble_arg (o : op) : option R := match o with SetHubble v => Some v | _ => None end.
Definition matter_arg (o : op) : option R := match o with SetOmegaMatter v => Some v | _ => None end.
Definition baryon_arg (o : op) : option R := match o with SetOmegaBaryon v => Some v | _ => None end.
Definition helium_arg (o : op) : option R := match o with SetHelium v => Some v | _ => None end.
Definition ns_arg (o : op) : option R := match o with SetNs v => Some v | _ => None end.
Definition sigma_arg (o : op) : option R := match o with SetSigma8 v => Some v | _ => None end.
(** set_omega_matter v also sets lambda, to 1 - v. *)
Definition lambda_arg (o : op) : option R :=
  match o with SetOmegaLambda v => Some v | SetOmegaMatter v => Some (1 - v) | _ => None end.

Lemma last_of_app f i os o : last_of f i (os ++ [o]) = match f o with Some v => v | None => last_of f i os end.
Proof. unfold last_of. rewrite fold_left_app. reflexivity. Qed.

(** After any session: the primary parameters are the last ones given; H0, the hydrogen mass
    fraction and q0 follow h, helium and Omega0; and OmegaL, the CGS Hubble constant, the
    critical and the matter density, the hydrogen density, the mean molecular weight and the
    mean brightness temperature keep their import-time values. *)
Theorem C35_setters : forall os, let c := fst (run os) in
  h c = last_of hubble_arg (7 / 10) os /\ Omega0 c = last_of matter_arg (27 / 100) os /\
  OmegaB c = last_of baryon_arg (44 / 1000) os /\ lam c = last_of lambda_arg (73 / 100) os /\
  n_s c = last_of ns_arg (96 / 100) os /\ sigma_8 c = last_of sigma_arg (8 / 10) os /\
  abu_he_mass c = last_of helium_arg (2486 / 10000) os /\
  H0 c = 100 * h c /\ abu_h_mass c = 1 - abu_he_mass c /\ q0 c = Omega0 c / 2 - (1 - Omega0 c) /\
  OmegaL c = 73 / 100 /\ H0cgs c = 70 * 10 ^ 5 / Mpc /\
  rho_crit_0 c = 3 * (70 * 10 ^ 5 / Mpc) ^ 2 / (8 * PI * G_grav) /\ rho_matter c = rho_crit_0 c * (27 / 100) /\
  mean_molecular c = 1 / (1 - 2486 / 10000) /\ num_h_0 c = num_h_0 const0 /\ meandt c = meandt const0.
Proof.
  intros os c. unfold c. clear c. induction os as [|o os IH] using rev_ind.
  - unfold run, last_of, const0, state0. cbn. replace (100 * (7 / 10)) with 70 by lra.
    repeat split; try lra; try (unfold Rdiv; ring).
  - rewrite !last_of_app. rewrite run_app. cbn [fold_left].
    destruct IH as (I1 & I2 & I3 & I4 & I5 & I6 & I7 & I8 & I9 & I10 & I11 & I12 & I13 & I14 & I15 & I16 & I17).
    destruct (run os) as [c v]. cbn [fst snd] in *.
    assert (E : fst (step (c, v) o) = set_const o c) by (destruct o; try reflexivity; destruct c; reflexivity).
    rewrite E. destruct c as [b1 b2 b3 b4 b5 b6 b7 b8 b9 b10 b11 b12 b13 b14 b15 b16 b17].
    cbn [h H0 Omega0 OmegaB lam OmegaL n_s sigma_8 q0 H0cgs rho_crit_0 rho_matter abu_he_mass abu_h_mass mean_molecular num_h_0 meandt] in *.
    destruct o; cbn [set_const hubble_arg matter_arg baryon_arg helium_arg ns_arg sigma_arg lambda_arg
      h H0 Omega0 OmegaB lam OmegaL n_s sigma_8 q0 H0cgs rho_crit_0 rho_matter abu_he_mass abu_h_mass mean_molecular num_h_0 meandt];
      repeat split; try assumption; try reflexivity; lra.
Qed.
Print Assumptions C35_setters.

Lemma Mpc_pos : 0 < Mpc.
Proof. unfold Mpc; apply Rmult_lt_0_compat; [apply pow_lt; lra|apply Rmult_lt_0_compat; [lra|apply pow_lt; lra]]. Qed.
Lemma rho_crit_pos os : 0 < rho_crit_0 (fst (run os)).
Proof.
  destruct (C35_setters os) as (_ & _ & _ & _ & _ & _ & _ & _ & _ & _ & _ & _ & E & _). rewrite E. pose proof Mpc_pos. pose proof PI_RGT_0.
  apply Rdiv_lt_0_compat.
  - apply Rmult_lt_0_compat; [lra|]. apply pow_lt. apply Rdiv_lt_0_compat; lra.
  - apply Rmult_lt_0_compat; [lra|]. unfold G_grav. lra.
Qed.

(** The values themselves, in decimals: c = 3e5 km/s, pc = 3.086e18 cm, G = 6.6732e-8, m_p = 1.672661e-24 g, A10 = 2.85e-15/s,
    T* = 0.068 K, nu0 = 1420 MHz; and their sizes in g/cm^3, 1/cm^3 and mK. *)
Theorem C35_values : forall os, let c := fst (run os) in
  rho_crit_0 c = 3 * (70 * 10 ^ 5 / (3086 * 10 ^ 21)) ^ 2 / (8 * PI * (66732 / 10 ^ 12)) /\
  num_h_0 c = 7514 / 10000 * (44 / 1000) * rho_crit_0 c / (1672661 / 10 ^ 30) /\
  meandt c = 3 * (30000 / 1420) ^ 3 / (32 * PI) * (285 / 10 ^ 17) * (68 / 1000) * num_h_0 c / (10 ^ 7 / (3086 * 10 ^ 21)) * 1000 /\
  7 / 10 ^ 30 < rho_crit_0 c < 10 / 10 ^ 30 /\ 13 / 10 ^ 8 < num_h_0 c < 20 / 10 ^ 8.
Proof.
  intros os c. unfold c. destruct (C35_setters os) as (_ & _ & _ & _ & _ & _ & _ & _ & _ & _ & _ & _ & E1 & _ & _ & E2 & E3). pose proof PI_RGT_0 as P0. pose proof PI_4 as P4. pose proof PI2_3_2 as P3.
  assert (A : rho_crit_0 (fst (run os)) = 3 * (70 * 10 ^ 5 / (3086 * 10 ^ 21)) ^ 2 / (8 * PI * (66732 / 10 ^ 12))). { rewrite E1. unfold Mpc, G_grav. field. lra. }
  assert (B : num_h_0 (fst (run os)) = 7514 / 10000 * (44 / 1000) * rho_crit_0 (fst (run os)) / (1672661 / 10 ^ 30)). { rewrite A, E2. unfold const0, Mpc, G_grav, m_p. cbn [num_h_0]. field. lra. }
  split; [exact A|]. split; [exact B|]. split.
  { rewrite E3, E2. unfold const0, Mpc, G_grav, m_p, lambda0, A10, Tstar. cbn [num_h_0 meandt]. field. lra. }
  assert (Q : 7 / 10 ^ 30 < rho_crit_0 (fst (run os)) < 10 / 10 ^ 30).
  { rewrite A. replace (3 * (70 * 10 ^ 5 / (3086 * 10 ^ 21)) ^ 2 / (8 * PI * (66732 / 10 ^ 12))) with (3 * (70 * 10 ^ 5 / (3086 * 10 ^ 21)) ^ 2 / (8 * (66732 / 10 ^ 12)) * / PI) by (field; lra).
    assert (I1 : / 4 <= / PI) by (apply Rinv_le_contravar; lra). assert (I2 : / PI < / 3) by (apply Rinv_lt_contravar; lra). lra. }
  split; [exact Q|]. rewrite B. lra.
Qed.
Print Assumptions C35_values.

(** C34: after any session the unit conversions are those of the last accepted box and of the cosmology at that moment: a fine cell
    has the side of the box over the mesh, a unit of velocity is 3/2 sqrt(Omega0) H0 (1+z) of such sides, and the returned mass is
    the logarithm to base 10 of the solar masses in the given fraction of the box. *)
Theorem C34_grid_units : forall pre b nbox mid, accepted_box b nbox -> no_accepted mid -> 0 < h (fst (run pre)) ->
  let c := fst (run pre) in let v := snd (run (pre ++ SetSim b :: mid)) in let cell := b / h c / nbox in
  (forall x, gridpos_to_mpc v x = x * cell) /\
  (0 < Omega0 c -> forall x z, gridvel_to_kms v x z = x * (cell * (3 / 2 * sqrt (Omega0 c) * H0 c)) * (1 + z)) /\
  (forall m, 0 < m -> Rpower 10 (gridmass_to_msol v m) = m / nbox ^ 3 * (rho_matter c * (b / h c * Mpc) ^ 3) * solar_masses_per_gram).
Proof.
  intros pre b nbox mid A N Hh c v cell. fold c in Hh.
  assert (R1 : run (pre ++ SetSim b :: mid) = fold_left step mid (run (pre ++ [SetSim b]))).
  { change (SetSim b :: mid) with ([SetSim b] ++ mid). rewrite app_assoc. apply run_app. }
  destruct (C34_accepted_box pre b nbox A) as (_ & _ & _ & _ & _ & B4 & B5 & B6 & B7). fold c in B4, B6, B7.
  destruct (keep_rejected mid (run (pre ++ [SetSim b])) N) as (_ & _ & K3 & K4 & K5). rewrite <- R1 in K3, K4, K5. fold v in K3, K4, K5.
  rewrite B5, B4 in K3. rewrite B6 in K4. rewrite B7 in K5. fold cell in K4.
  assert (MP : 0 < Mpc) by (unfold Mpc; apply Rmult_lt_0_compat; [apply pow_lt; lra|apply Rmult_lt_0_compat; [lra|apply pow_lt; lra]]).
  assert (NB : 0 < nbox /\ 0 < b).
  { destruct A as (d & D & Q). apply Rabs_def2 in Q. unfold documented_box in D.
    repeat (match goal with H : _ \/ _ |- _ => destruct H end); repeat (match goal with H : _ /\ _ |- _ => destruct H end); subst; split; lra. }
  destruct NB as [NB BB].
  destruct (C35_setters pre) as (_ & _ & _ & _ & _ & _ & _ & SH & _ & _ & _ & _ & _ & SR & _). fold c in SH, SR. pose proof (rho_crit_pos pre) as RP. fold c in RP.
  split; [|split].
  - intro x. unfold gridpos_to_mpc. rewrite K4. field. lra.
  - intros HO x z. unfold gridvel_to_kms, velconvert. rewrite K4, K5. assert (0 < sqrt (Omega0 c)) by (apply sqrt_lt_R0; exact HO). field.
    repeat split; try lra; rewrite SH; lra.
  - intros m M. unfold gridmass_to_msol. rewrite K3. unfold Rpower.
    assert (L : ln 10 <> 0) by (pose proof (ln_increasing 1 10 ltac:(lra) ltac:(lra)) as Q; rewrite ln_1 in Q; lra).
    replace (ln (m * (rho_matter c * (b / h c * Mpc) ^ 3 / nbox ^ 3) * solar_masses_per_gram) / ln 10 * ln 10) with (ln (m * (rho_matter c * (b / h c * Mpc) ^ 3 / nbox ^ 3) * solar_masses_per_gram)) by (field; exact L).
    rewrite exp_ln.
    + field. pose proof (pow_lt nbox 3 NB). split; lra.
    + assert (P1 : 0 < b / h c * Mpc) by (apply Rmult_lt_0_compat; [apply Rdiv_lt_0_compat; lra|exact MP]).
      pose proof (pow_lt _ 3 P1) as P2. pose proof (pow_lt _ 3 NB) as P3. assert (P4 : 0 < rho_matter c) by (rewrite SR; lra).
      assert (P5 : 0 < solar_masses_per_gram) by (unfold solar_masses_per_gram; apply Rdiv_lt_0_compat; [apply Rdiv_lt_0_compat; [lra|apply pow_lt; lra]|apply pow_lt; lra]).
      apply Rmult_lt_0_compat; [|exact P5]. apply Rmult_lt_0_compat; [exact M|]. apply Rdiv_lt_0_compat; [|exact P3]. now apply Rmult_lt_0_compat.
Qed.
Print Assumptions C34_grid_units.
Example C34_grid_units_sat : 0 < h (fst (run [])) /\ 0 < Omega0 (fst (run [])).
Proof. cbn. lra. Qed.

(** So the derived constants agree with the primary ones exactly while those have their
    import-time values, or, for q0, exactly while the universe is flat. *)
Theorem C35_stale_iff : forall os, let c := fst (run os) in
  (H0cgs c = H0 c * 10 ^ 5 / Mpc <-> h c = 7 / 10) /\
  (0 <= h c -> (rho_crit_0 c = 3 * (H0 c * 10 ^ 5 / Mpc) ^ 2 / (8 * PI * G_grav) <-> h c = 7 / 10)) /\
  (rho_matter c = rho_crit_0 c * Omega0 c <-> Omega0 c = 27 / 100) /\
  (OmegaL c = lam c <-> lam c = 73 / 100) /\
  (q0 c = Omega0 c / 2 - lam c <-> lam c + Omega0 c = 1).
Proof.
  intros os c. pose proof (rho_crit_pos os) as RP. fold c in RP.
  destruct (C35_setters os) as (_ & _ & _ & _ & _ & _ & _ & A8 & _ & A10 & A11 & A12 & A13 & A14 & _). fold c in A8, A10, A11, A12, A13, A14.
  pose proof Mpc_pos as MP. pose proof PI_RGT_0 as PP.
  assert (K : 0 < 10 ^ 5 / Mpc) by (apply Rdiv_lt_0_compat; lra).
  assert (G : 0 < 8 * PI * G_grav) by (unfold G_grav; apply Rmult_lt_0_compat; lra).
  split; [|split; [|split; [|split]]].
  - rewrite A12, A8. split; intro E; [|rewrite E; lra].
    assert (70 * (10 ^ 5 / Mpc) = 100 * h c * (10 ^ 5 / Mpc)) by (unfold Rdiv in *; rewrite <- !Rmult_assoc; exact E).
    apply Rmult_eq_reg_r in H; lra.
  - intro HP. rewrite A13, A8. split; intro E; [|rewrite E; f_equal; f_equal; f_equal; lra].
    assert (E2 : (70 * (10 ^ 5 / Mpc)) ^ 2 = (100 * h c * (10 ^ 5 / Mpc)) ^ 2).
    { replace (70 * (10 ^ 5 / Mpc)) with (70 * 10 ^ 5 / Mpc) by (field; lra). replace (100 * h c * (10 ^ 5 / Mpc)) with (100 * h c * 10 ^ 5 / Mpc) by (field; lra).
      apply (f_equal (fun x => x * (8 * PI * G_grav))) in E. unfold Rdiv in E at 1 3. rewrite !Rmult_assoc in E.
      rewrite (Rinv_l (8 * (PI * G_grav))) in E by (rewrite <- Rmult_assoc; lra). lra. }
    assert (P2 : (70 * (10 ^ 5 / Mpc) - 100 * h c * (10 ^ 5 / Mpc)) * (70 * (10 ^ 5 / Mpc) + 100 * h c * (10 ^ 5 / Mpc)) = 0).
    { set (u := 70 * (10 ^ 5 / Mpc)) in *. set (w := 100 * h c * (10 ^ 5 / Mpc)) in *. replace ((u - w) * (u + w)) with (u ^ 2 - w ^ 2) by ring. lra. }
    apply Rmult_integral in P2. set (k := 10 ^ 5 / Mpc) in *. destruct P2 as [P2|P2].
    + assert ((70 - 100 * h c) * k = 0) by lra. apply Rmult_integral in H. destruct H; lra.
    + assert (0 <= 100 * h c * k) by (apply Rmult_le_pos; [lra|lra]). lra.
  - rewrite A14. split; intro E; [|rewrite E; reflexivity]. apply Rmult_eq_reg_l in E; lra.
  - rewrite A11. split; intro; lra.
  - rewrite A10. split; intro; lra.
Qed.
Print Assumptions C35_stale_iff.

(** The luminosity distance integrates 1/E(z) of the current matter and lambda densities,
    for all redshifts, iff q0 is up to date, i.e. iff the two densities add up to 1. *)
Theorem C35_luminosity_distance : forall os, let c := fst (run os) in
  ((forall z, ldist_denom c z = expansion_squared (Omega0 c) (lam c) z) <-> lam c + Omega0 c = 1) /\
  (forall z, ldist_denom c z = expansion_squared (Omega0 c) (lam c) z + 2 * (lam c + Omega0 c - 1) * z * (1 + z) ^ 2).
Proof.
  intros os c. destruct (C35_setters os) as (_ & _ & _ & _ & _ & _ & _ & _ & _ & A10 & _). fold c in A10.
  assert (G : forall z, ldist_denom c z = expansion_squared (Omega0 c) (lam c) z + 2 * (lam c + Omega0 c - 1) * z * (1 + z) ^ 2).
  { intro z. unfold ldist_denom, expansion_squared. rewrite A10. field. }
  split; [|exact G]. split.
  - intro H. specialize (H 1). rewrite G in H. lra.
  - intros E z. rewrite G. replace (lam c + Omega0 c - 1) with 0 by lra. ring.
Qed.
Print Assumptions C35_luminosity_distance.

(** Setting lambda alone breaks it; setting it again to 1 - Omega0 repairs it. *)
Example C35_sat :
  (let c := fst (run [SetOmegaMatter (3 / 10); SetOmegaLambda (6 / 10)]) in lam c + Omega0 c <> 1 /\ OmegaL c <> lam c) /\
  (let c := fst (run [SetOmegaLambda (6 / 10); SetOmegaMatter (3 / 10)]) in lam c + Omega0 c = 1 /\ OmegaL c <> lam c).
Proof. cbn. lra. Qed.
Example C34_accepted_box_sat : exists (b : R) (nbox : R), accepted_box b nbox.
Proof. exists 114, 6144. exact (proj1 C34_sat). Qed.
Example C34_last_call_wins_sat : exists (b : R) (nbox : R) (mid : list op), accepted_box b nbox /\ no_accepted mid.
Proof. exists 114, 6144, [SetSim 100]. split; [exact (proj1 C34_sat)|]. intros b [E|[]]. injection E as <-. exact (proj1 (proj2 C34_sat)). Qed.
Example C34_mixed_state_refuted_sat : exists (pre : list op) (b : R) (nbox : R) (b' : R), accepted_box b nbox /\ (~ (exists n, accepted_box b' n)) /\ h (fst (run pre)) <> 0.
Proof. exists [], 114, 6144, 100. destruct C34_sat as (A & B & C & _). auto. Qed.
