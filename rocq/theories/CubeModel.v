(** Model of the cubical-complex maps and the Euler characteristic:
    ViteBetti.py and topology.py. *)
From Coq Require Import List Arith ZArith Bool Lia.
Import ListNotations.
Local Open Scope nat_scope.

(** A 3-D array index, and an int32 array in (shared) memory. *)
Definition idx : Type := (nat * nat * nat)%type.
Definition mem : Type := idx -> Z.

Definition idx_eqb (a b : idx) : bool :=
  let '(i, j, k) := a in let '(x, y, z) := b in
  Nat.eqb i x && Nat.eqb j y && Nat.eqb k z.

(** [m[c] = v] *)
Definition upd (m : mem) (c : idx) (v : Z) : mem := fun d => if idx_eqb d c then v else m d.

(** [(i - 1) % N] and [(i + 1) % N] (e.g. ViteBetti.py:73). *)
Definition prv (N i : nat) : nat := (i + (N - 1)) mod N.
Definition nxt (N i : nat) : nat := (i + 1) mod N.

(** Loop nest [for i.. for j.. for k..] over a range of [i]. *)
Definition cells (is : list nat) (Ny Nz : nat) : list idx :=
  flat_map (fun i => flat_map (fun j => map (fun k => (i, j, k)) (seq 0 Nz)) (seq 0 Ny)) is.

(** The body of the loops as a program of single reads followed by at most one
    write, so that runs by several processes can be interleaved at the level of
    single memory accesses. *)
Inductive prog :=
| Ret (w : option (idx * Z))       (* finished: write, or nothing *)
| Read (c : idx) (k : Z -> prog).  (* read one cell of the cubemap *)

(** [if cm[a] == m and cm[b] == m and ...: yes, else no] with short circuit. *)
Fixpoint all_eq (cs : list idx) (m : Z) (yes no : prog) : prog :=
  match cs with
  | [] => yes
  | c :: cs' => Read c (fun v => if Z.eqb v m then all_eq cs' m yes no else no)
  end.

(** Markers (ViteBetti.py:57-59): (1,2,3,4) or (1,1,1,1). *)
Definition marker (multi : bool) (s : nat) : Z := if multi then Z.of_nat (S s) else 1%Z.

Section Body.
  Variables (Nx Ny Nz : nat) (multi : bool).
  Definition pair_x (c : idx) : list idx := let '(i, j, k) := c in [(prv Nx i, j, k); (nxt Nx i, j, k)].
  Definition pair_y (c : idx) : list idx := let '(i, j, k) := c in [(i, prv Ny j, k); (i, nxt Ny j, k)].
  Definition pair_z (c : idx) : list idx := let '(i, j, k) := c in [(i, j, prv Nz k); (i, j, nxt Nz k)].

  (** Edge loop body (ViteBetti.py:72-79, worker 130-137). *)
  Definition edge_body (c : idx) : prog :=
    let w := Ret (Some (c, marker multi 1)) in
    let m := marker multi 0 in
    Read c (fun v => if Z.eqb v 0 then
      all_eq (pair_x c) m w (all_eq (pair_y c) m w (all_eq (pair_z c) m w (Ret None)))
    else Ret None).

  (** Face loop body (ViteBetti.py:85-94, worker 143-153). *)
  Definition face_body (c : idx) : prog :=
    let w := Ret (Some (c, marker multi 2)) in
    let m := marker multi 1 in
    Read c (fun v => if Z.eqb v 0 then
      all_eq (pair_x c ++ pair_y c) m w
        (all_eq (pair_y c ++ pair_z c) m w
          (all_eq (pair_z c ++ pair_x c) m w (Ret None)))
    else Ret None).

  (** Cube loop body (ViteBetti.py:100-104, worker 159-164). *)
  Definition cube_body (c : idx) : prog :=
    let w := Ret (Some (c, marker multi 3)) in
    let m := marker multi 2 in
    Read c (fun v => if Z.eqb v 0 then
      all_eq (pair_x c ++ pair_y c ++ pair_z c) m w (Ret None)
    else Ret None).
End Body.

(** Vertex loop body (ViteBetti.py:62-66, worker 121-126); [arr] is the input. *)
Definition vertex_body (arr : idx -> bool) (multi : bool) (c : idx) : prog :=
  if arr c then let '(i, j, k) := c in Ret (Some ((i * 2, j * 2, k * 2), marker multi 0)) else Ret None.

(** Run one program without interference. *)
Fixpoint exec (p : prog) (m : mem) : mem :=
  match p with
  | Ret (Some (c, v)) => upd m c v
  | Ret None => m
  | Read c k => exec (k (m c)) m
  end.

Definition exec_all (ps : list prog) (m : mem) : mem := fold_left (fun m p => exec p m) ps m.

(** The four stages: vertices, edges, faces, cubes. *)
Definition body (nx ny nz : nat) (multi : bool) (arr : idx -> bool) (s : nat) : idx -> prog :=
  match s with
  | 0 => vertex_body arr multi
  | 1 => edge_body (2 * nx) (2 * ny) (2 * nz) multi
  | 2 => face_body (2 * nx) (2 * ny) (2 * nz) multi
  | _ => cube_body (2 * nx) (2 * ny) (2 * nz) multi
  end.
Definition domain (n : nat) (s : nat) : nat := match s with 0 => n | _ => 2 * n end.
Definition stage_progs (nx ny nz : nat) (multi : bool) (arr : idx -> bool) (s : nat) (is : list nat) : list prog :=
  map (body nx ny nz multi arr s) (cells is (domain ny s) (domain nz s)).

(** [CubeMap] (ViteBetti.py:48-106), also the code behind [CubeMap_numba]. *)
Definition CubeMap (nx ny nz : nat) (multi : bool) (arr : idx -> bool) : mem :=
  fold_left (fun m s => exec_all (stage_progs nx ny nz multi arr s (seq 0 (domain nx s))) m)
            (seq 0 4) (fun _ => 0%Z).

(** ** joblib *)

(** Processes of one stage: each has a list of programs left. A step of process
    [t] reads one cell, performs one write, or drops a finished program. *)
Definition threads : Type := list (list prog).
Definition step_thread (ps : list prog) (m : mem) : list prog * mem :=
  match ps with
  | [] => ([], m)
  | Ret (Some (c, v)) :: ps' => (ps', upd m c v)
  | Ret None :: ps' => (ps', m)
  | Read c k :: ps' => (k (m c) :: ps', m)
  end.
Fixpoint step_at (t : nat) (ths : threads) (m : mem) : threads * mem :=
  match ths, t with
  | [], _ => ([], m)
  | ps :: ths', 0 => let (ps', m') := step_thread ps m in (ps' :: ths', m')
  | ps :: ths', S t' => let (ths'', m') := step_at t' ths' m in (ps :: ths'', m')
  end.
Definition run_schedule (sched : list nat) (ths : threads) (m : mem) : threads * mem :=
  fold_left (fun s t => step_at t (fst s) (snd s)) sched (ths, m).

(** Tasks of one stage (ViteBetti.py:190-198): [i*chunk .. min((i+1)*chunk, domain)]. *)
Definition chunk_size (d n_jobs : nat) : nat := (d + n_jobs - 1) / n_jobs.
Definition chunk (d n_jobs i : nat) : list nat :=
  let a := i * chunk_size d n_jobs in
  seq a (Nat.min ((i + 1) * chunk_size d n_jobs) d - a).
Definition stage_threads (nx ny nz : nat) (multi : bool) (arr : idx -> bool) (n_jobs s : nat) : threads :=
  map (fun i => stage_progs nx ny nz multi arr s (chunk (domain nx s) n_jobs i)) (seq 0 n_jobs).

(** [CubeMap_joblib] (ViteBetti.py:171-209) after the choice of [n_jobs >= 1]:
    the stages run one after the other ([Parallel] waits for all tasks); each may be
    interleaved in any way. [None]: the schedule ended before the tasks did. For a
    negative [n_jobs] other than -1 there are no tasks: see [joblib_n_jobs]. *)
Definition all_done (ths : threads) : bool := forallb (fun ps => match ps with [] => true | _ => false end) ths.
Definition CubeMap_joblib (nx ny nz : nat) (multi : bool) (arr : idx -> bool) (n_jobs : nat)
           (sched : nat -> list nat) : option mem :=
  fold_left (fun om s =>
      match om with
      | None => None
      | Some m =>
          let (ths, m') := run_schedule (sched s) (stage_threads nx ny nz multi arr n_jobs s) m in
          if all_done ths then Some m' else None
      end) (seq 0 4) (Some (fun _ => 0%Z)).

(** [range(n_jobs)] for any integer; -1 is replaced by the number of CPUs; 0 raises
    (division by zero). *)
Definition joblib_n_jobs (cpus : nat) (n_jobs : Z) : option nat :=
  if Z.eqb n_jobs 0 then None
  else if Z.eqb n_jobs (-1) then Some cpus
  else Some (Z.to_nat n_jobs).

(** ** torch *)

(** [cm.roll(1, axis)] at [i] is [cm[i-1]]; [roll(-1)] is [cm[i+1]]. All masks are
    computed from the map as it was before the assignment (ViteBetti.py:229-263). *)
Section Torch.
  Variables (Nx Ny Nz : nat) (multi : bool).
  Definition both (m : mem) (v : Z) (cs : list idx) : bool := forallb (fun c => Z.eqb (m c) v) cs.
  Definition torch_edges (m : mem) : mem := fun c =>
    let v := marker multi 0 in
    if Z.eqb (m c) 0 && (both m v (pair_x Nx c) || both m v (pair_y Ny c) || both m v (pair_z Nz c))
    then marker multi 1 else m c.
  Definition torch_faces (m : mem) : mem := fun c =>
    let v := marker multi 1 in
    let x := both m v (pair_x Nx c) in let y := both m v (pair_y Ny c) in let z := both m v (pair_z Nz c) in
    if Z.eqb (m c) 0 && (x && y || y && z || z && x) then marker multi 2 else m c.
  Definition torch_cubes (m : mem) : mem := fun c =>
    let v := marker multi 2 in
    if Z.eqb (m c) 0 && (both m v (pair_x Nx c) && both m v (pair_y Ny c) && both m v (pair_z Nz c))
    then marker multi 3 else m c.
End Torch.
Definition CubeMap_torch (nx ny nz : nat) (multi : bool) (arr : idx -> bool) : mem :=
  let m0 : mem := fun c => let '(i, j, k) := c in
    if Nat.even i && Nat.even j && Nat.even k && arr (i / 2, j / 2, k / 2) then marker multi 0 else 0%Z in
  torch_cubes (2 * nx) (2 * ny) (2 * nz) multi
    (torch_faces (2 * nx) (2 * ny) (2 * nz) multi
      (torch_edges (2 * nx) (2 * ny) (2 * nz) multi m0)).

(** ** topology.py *)

(** [np.unique(C, return_counts=True)] and [counts_dict.get(v, 0)] (topology.py:66-72). *)
Definition count_marker (m : mem) (Nx Ny Nz : nat) (v : Z) : Z :=
  Z.of_nat (length (filter (fun c => Z.eqb (m c) v) (cells (seq 0 Nx) Ny Nz))).

(** [EulerCharacteristic] (topology.py:10-74) on the thresholded array: [A] is
    [data > thres], inverted unless [neighbors] is 6 or 4; [cm] the CubeMap backend. *)
Definition Euler_of (cm : (idx -> bool) -> mem) (nx ny nz : nat) (neighbors : Z) (A : idx -> bool) : Z :=
  let A' := if (Z.eqb neighbors 6 || Z.eqb neighbors 4)%bool then A else fun c => negb (A c) in
  let m := cm A' in
  let n := count_marker m (2 * nx) (2 * ny) (2 * nz) in
  (n 1 - n 2 + n 3 - n 4)%Z.
Definition EulerCharacteristic (nx ny nz : nat) (neighbors : Z) (A : idx -> bool) : Z :=
  Euler_of (CubeMap nx ny nz true) nx ny nz neighbors A.
