(** Properties C14, C15: cubical complex maps and the Euler characteristic. *)
From Coq Require Import List Arith ZArith Bool Lia.
From Verif Require Import CubeModel CubeSpec CubeProofs CubeEuler.
Import ListNotations.
Local Open Scope nat_scope.

(** Example: a 2x3x2 field with three voxels set. *)
Definition exA : idx -> bool := fun c => let '(i, j, k) := c in
  existsb (idx_eqb (i, j, k)) [(0, 0, 0); (1, 0, 0); (1, 2, 1)].

(** ** C14 *)

(** The pure Python (and numba) code builds exactly the complex. *)
Theorem C14_cubemap : forall nx ny nz A c,
  in_box (2 * nx) (2 * ny) (2 * nz) c ->
  CubeMap nx ny nz true A c = complex_map nx ny nz A c.
Proof. intros. rewrite CubeMap_ok. now apply after3. Qed.
Print Assumptions C14_cubemap.
Example C14_cubemap_sat : exists nx ny nz c, in_box (2 * nx) (2 * ny) (2 * nz) c.
Proof. exists 2, 3, 2, (1, 5, 3). repeat split; lia. Qed.

(** So does the joblib code, for every number of processes and every interleaving of
    their reads and writes of the shared array. *)
Theorem C14_cubemap_joblib : forall nx ny nz A n_jobs sched r c,
  0 < n_jobs -> CubeMap_joblib nx ny nz true A n_jobs sched = Some r ->
  in_box (2 * nx) (2 * ny) (2 * nz) c ->
  r c = complex_map nx ny nz A c.
Proof. intros nx ny nz A n sched r c Hn H Hc. rewrite <- after3 by exact Hc. eapply joblib_ok; eauto. Qed.
Print Assumptions C14_cubemap_joblib.
Example C14_cubemap_joblib_sat : exists nx ny nz A n_jobs sched r c, 0 < n_jobs /\ CubeMap_joblib nx ny nz true A n_jobs sched = Some r /\ in_box (2 * nx) (2 * ny) (2 * nz) c.
Proof. eexists 1, 2, 1, (fun c => idx_eqb c (0, 1, 0)), 2, (fun _ => flat_map (fun _ => [1; 0; 0]) (seq 0 200)), _, (1, 3, 0). split; [lia|]. split; [vm_compute; reflexivity|]. repeat split; lia. Qed.

(** Schedules that run all tasks to the end exist for every input. *)
Theorem C14_cubemap_joblib_live : forall nx ny nz multi A n_jobs,
  exists sched r, CubeMap_joblib nx ny nz multi A n_jobs sched = Some r.
Proof. exact joblib_finishes. Qed.
Print Assumptions C14_cubemap_joblib_live.

(** So does the torch code. *)
Theorem C14_cubemap_torch : forall nx ny nz A c,
  in_box (2 * nx) (2 * ny) (2 * nz) c ->
  CubeMap_torch nx ny nz true A c = complex_map nx ny nz A c.
Proof. intros. rewrite torch_ok by assumption. now apply after3. Qed.
Print Assumptions C14_cubemap_torch.
Example C14_cubemap_torch_sat : exists (nx : nat) (ny : nat) (nz : nat) (c : idx), in_box (2 * nx) (2 * ny) (2 * nz) c.
Proof. exists 3%nat, 4%nat, 5%nat, (2, 7, 9)%nat. cbn; lia. Qed.

(** A negative [n_jobs] other than -1 starts no task: the map, and hence the Euler
    characteristic, is silently zero. *)
Theorem C14_cubemap_joblib_negative : forall nx ny nz multi A cpus n_jobs n sched r c,
  (n_jobs < -1)%Z -> joblib_n_jobs cpus n_jobs = Some n ->
  CubeMap_joblib nx ny nz multi A n sched = Some r -> r c = 0%Z.
Proof.
  intros nx ny nz multi A cpus nj n sched r c Hn E H. unfold joblib_n_jobs in E.
  destruct (Z.eqb_spec nj 0); [lia|]. destruct (Z.eqb_spec nj (-1)); [lia|].
  replace (Z.to_nat nj) with 0 in E by lia. injection E as <-.
  unfold CubeMap_joblib, stage_threads in H. cbn [seq map fold_left] in H.
  assert (G : forall l m, run_schedule l [] m = ([], m)).
  { intros l. unfold run_schedule. induction l as [|t l IH]; intros m; cbn [fold_left fst snd]; [reflexivity|].
    replace (step_at t [] m) with (([] : threads), m) by (destruct t; reflexivity). apply IH. }
  do 4 (rewrite G in H; cbn [all_done forallb] in H).
  assert (E : (fun _ : idx => 0%Z) = r) by (apply (f_equal (fun o => match o with Some x => x | None => r end) H)).
  now rewrite <- E.
Qed.
Print Assumptions C14_cubemap_joblib_negative.

Example C14_sat :
  in_box 4 6 4 (1, 0, 0) /\ complex_map 2 3 2 exA (1, 0, 0) = 2%Z /\ complex_map 2 3 2 exA (1, 5, 1) = 0%Z
  /\ complex_map 2 3 2 (fun _ => true) (1, 1, 1) = 4%Z
  /\ joblib_n_jobs 8 (-2) = Some 0.
Proof. repeat split; lia. Qed.

(** ** C15 *)

(** Whatever backend is used, EulerCharacteristic is V - E + F - C of the complex of
    set voxels for [neighbors] 6 or 4, and of the union of closed voxels for any
    other value. *)
Theorem C15_euler : forall nx ny nz neighbors A,
  EulerCharacteristic nx ny nz neighbors A
  = if (Z.eqb neighbors 6 || Z.eqb neighbors 4)%bool then chi6 nx ny nz A else chi26 nx ny nz A.
Proof.
  intros. unfold EulerCharacteristic, Euler_of. destruct (Z.eqb neighbors 6 || Z.eqb neighbors 4)%bool.
  - apply euler6. intros c Hc. now apply C14_cubemap.
  - rewrite <- chi_dual. apply euler6. intros c Hc. now apply C14_cubemap.
Qed.
Print Assumptions C15_euler.

Theorem C15_euler_backends : forall nx ny nz neighbors A n_jobs sched r,
  let A' := if (Z.eqb neighbors 6 || Z.eqb neighbors 4)%bool then A else fun c => negb (A c) in
  0 < n_jobs -> CubeMap_joblib nx ny nz true A' n_jobs sched = Some r ->
  Euler_of (fun _ => r) nx ny nz neighbors A = EulerCharacteristic nx ny nz neighbors A
  /\ Euler_of (CubeMap_torch nx ny nz true) nx ny nz neighbors A = EulerCharacteristic nx ny nz neighbors A.
Proof.
  intros nx ny nz nb A n sched r A' Hn H.
  unfold EulerCharacteristic, Euler_of. fold A'. cbv zeta.
  rewrite !euler6 with (A := A').
  - split; reflexivity.
  - intros c Hc. now apply C14_cubemap_torch.
  - intros c Hc. now apply C14_cubemap.
  - intros c Hc. now apply C14_cubemap_joblib with (2 := H).
Qed.
Print Assumptions C15_euler_backends.
Example C15_euler_backends_sat : exists nx ny nz neighbors A n_jobs sched r, let A' := if (Z.eqb neighbors 6 || Z.eqb neighbors 4)%bool then A else fun c => negb (A c) in 0 < n_jobs /\ CubeMap_joblib nx ny nz true A' n_jobs sched = Some r.
Proof. eexists 1, 2, 1, 6%Z, (fun c => idx_eqb c (0, 1, 0)), 2, (fun _ => flat_map (fun _ => [1; 0; 0]) (seq 0 200)), _. split; [lia|]. vm_compute. reflexivity. Qed.

(** The Euler characteristic of a field shifted periodically by any amounts is unchanged. *)
Definition shift (nx ny nz a b c : nat) (p : idx) : idx :=
  Nat.iter a (sx nx) (Nat.iter b (sy ny) (Nat.iter c (sz nz) p)).
Theorem C15_euler_translation : forall nx ny nz neighbors A a b c,
  0 < nx -> 0 < ny -> 0 < nz ->
  EulerCharacteristic nx ny nz neighbors (fun p => A (shift nx ny nz a b c p))
  = EulerCharacteristic nx ny nz neighbors A.
Proof.
  intros nx ny nz nb A a b c Hx Hy Hz. rewrite !C15_euler.
  assert (G : forall B, chi6 nx ny nz (fun p => B (shift nx ny nz a b c p)) = chi6 nx ny nz B).
  { assert (I : forall (s : idx -> idx), (forall B, chi6 nx ny nz (fun p => B (s p)) = chi6 nx ny nz B) ->
      forall n B, chi6 nx ny nz (fun p => B (Nat.iter n s p)) = chi6 nx ny nz B).
    { intros s Hs n. induction n as [|n IH]; intros B; [reflexivity|].
      rewrite <- (Hs B). exact (IH (fun q => B (s q))). }
    intros B. unfold shift.
    transitivity (chi6 nx ny nz (fun p => B (Nat.iter a (sx nx) (Nat.iter b (sy ny) p)))).
    { apply (I (sz nz)) with (B := fun q => B (Nat.iter a (sx nx) (Nat.iter b (sy ny) q))).
      intros B'. apply chi6_shift; [intros f; now apply zsum3_sz|intros p; now rewrite sxz|intros p; now rewrite syz|reflexivity]. }
    transitivity (chi6 nx ny nz (fun p => B (Nat.iter a (sx nx) p))).
    { apply (I (sy ny)) with (B := fun q => B (Nat.iter a (sx nx) q)).
      intros B'. apply chi6_shift; [intros f; now apply zsum3_sy|intros p; now rewrite sxy|reflexivity|intros p; now rewrite syz]. }
    apply (I (sx nx)).
    intros B'. apply chi6_shift; [intros f; now apply zsum3_sx|reflexivity|intros p; now rewrite sxy|intros p; now rewrite sxz]. }
  destruct (Z.eqb nb 6 || Z.eqb nb 4)%bool; [apply G|].
  rewrite <- !chi_dual. apply (G (fun p => negb (A p))).
Qed.
Print Assumptions C15_euler_translation.
Example C15_euler_translation_sat : exists (nx : nat) (ny : nat) (nz : nat), 0 < nx /\ 0 < ny /\ 0 < nz.
Proof. exists 3%nat, 4%nat, 5%nat. repeat split; lia. Qed.

(** Complement: the two connectivities are dual on the periodic box. *)
Theorem C15_euler_complement : forall nx ny nz A,
  EulerCharacteristic nx ny nz 26 A = EulerCharacteristic nx ny nz 6 (fun c => negb (A c)).
Proof. intros. rewrite !C15_euler. cbn [Z.eqb orb]. symmetry. apply chi_dual. Qed.
Print Assumptions C15_euler_complement.

(** Boxes at the ends: empty and full fields have characteristic zero (the box is a
    3-torus), an isolated voxel has one in both connectivities. *)
Example C15_sat :
  EulerCharacteristic 2 3 2 6 exA = 1%Z /\ chi6 4 4 4 exA = 2%Z
  /\ EulerCharacteristic 3 3 3 6 (fun _ => true) = 0%Z
  /\ EulerCharacteristic 3 3 3 6 (fun c => idx_eqb c (1, 1, 1)) = 1%Z
  /\ EulerCharacteristic 3 3 3 26 (fun c => idx_eqb c (1, 1, 1)) = 1%Z.
Proof. repeat split; vm_compute; reflexivity. Qed.
