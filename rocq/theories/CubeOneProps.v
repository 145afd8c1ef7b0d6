(** C14: the maps with one marker for all cells, and runs that were interrupted anywhere. *)
From Coq Require Import List Arith ZArith Bool Lia.
From Verif Require Import CubeModel CubeSpec CubeProofs CubeOneProofs.
Import ListNotations.
Local Open Scope nat_scope.

(** With [multi_marker=False] every cell of the complex gets 1 and every other cell 0,
    although a cell just marked can no longer be told from a vertex. *)
Theorem C14_one_marker : forall nx ny nz A c,
  in_box (2 * nx) (2 * ny) (2 * nz) c ->
  CubeMap nx ny nz false A c = if present nx ny nz A c then 1%Z else 0%Z.
Proof. exact CubeMap_one. Qed.
Print Assumptions C14_one_marker.
Example C14_one_marker_sat : exists nx ny nz A c, in_box (2 * nx) (2 * ny) (2 * nz) c
  /\ present nx ny nz A c = true /\ CubeMap nx ny nz true A c = 3%Z /\ CubeMap nx ny nz false A c = 1%Z.
Proof. exists 3, 1, 1, (fun c => idx_eqb c (1, 0, 0) || idx_eqb c (2, 0, 0)), (3, 1, 0). repeat split; lia. Qed.

(** So do the parallel processes, however their reads and writes interleave. *)
Theorem C14_one_marker_joblib : forall nx ny nz A n_jobs sched r c,
  0 < n_jobs -> CubeMap_joblib nx ny nz false A n_jobs sched = Some r ->
  in_box (2 * nx) (2 * ny) (2 * nz) c ->
  r c = if present nx ny nz A c then 1%Z else 0%Z.
Proof. intros. eapply joblib_one; eassumption. Qed.
Print Assumptions C14_one_marker_joblib.
Example C14_one_marker_joblib_sat : exists nx ny nz A n_jobs sched r c,
  0 < n_jobs /\ CubeMap_joblib nx ny nz false A n_jobs sched = Some r
  /\ in_box (2 * nx) (2 * ny) (2 * nz) c /\ present nx ny nz A c = true.
Proof.
  eexists 1, 2, 1, (fun c => idx_eqb c (0, 1, 0)), 2, (fun _ => flat_map (fun _ => [1; 0; 0]) (seq 0 200)), _, (1, 2, 0).
  split; [lia|]. split; [vm_compute; reflexivity|]. repeat split; lia.
Qed.

(** And the torch code. *)
Theorem C14_one_marker_torch : forall nx ny nz A c,
  in_box (2 * nx) (2 * ny) (2 * nz) c ->
  CubeMap_torch nx ny nz false A c = if present nx ny nz A c then 1%Z else 0%Z.
Proof. exact torch_one. Qed.
Print Assumptions C14_one_marker_torch.
Example C14_one_marker_torch_sat : exists (nx : nat) (ny : nat) (nz : nat) (c : idx), in_box (2 * nx) (2 * ny) (2 * nz) c.
Proof. exists 3%nat, 4%nat, 5%nat, (2, 7, 9)%nat. cbn; lia. Qed.

(** No interleaving gets stuck: from whatever point the processes have reached in every
    stage, they can run on to a complete map. *)
Theorem C14_joblib_completes : forall nx ny nz multi A n_jobs (start : nat -> list nat),
  exists more r, CubeMap_joblib nx ny nz multi A n_jobs (fun s => start s ++ more s) = Some r.
Proof. exact joblib_completes. Qed.
Print Assumptions C14_joblib_completes.
