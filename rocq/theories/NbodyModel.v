(** Reading CubeP3M particle files: nbody_file.py:12-142. *)
From Coq Require Import List ZArith Arith Bool.
Import ListNotations.

(** A node's pair of files: header counts, particle data and identifiers; [z_ok]/[z_ok_pid]: the scale factors in the headers agree
    with the requested redshift to two decimals (the assertion of line 75). *)
Record node (A : Type) := { count_xv : nat; data : list A; z_ok : bool; count_pid : nat; pids : list Z; z_ok_pid : bool }.
Arguments count_xv {A}. Arguments data {A}. Arguments z_ok {A}. Arguments count_pid {A}. Arguments pids {A}. Arguments z_ok_pid {A}.
(** [NbodyParticle] (12-19). *)
Record particle (A : Type) := { pos : list A; vel : list A; pid : Z }.
Arguments pos {A}. Arguments vel {A}. Arguments pid {A}.
Record nbody_file (A : Type) := { nbody : list (particle A); npart : nat }.
Arguments nbody {A}. Arguments npart {A}.

(** [reshape((np, 6), order='F')] (118): component j of row i is entry i + np*j. *)
Definition entry {A} (d : list A) (n i j : nat) : list A := firstn 1 (skipn (i + n * j) d).
Definition row {A} (d : list A) (n i : nat) : list A := flat_map (entry d n i) (seq 0 6).
Definition mk {A} (d : list A) (n i : nat) (p : Z) : particle A := {| pos := firstn 3 (row d n i); vel := skipn 3 (row d n i); pid := p |}.
(** The body of the loop over nodes (114-140): the particles appended, and whether the node was read without an exception. Missing
    data make the reshape fail, missing identifiers the indexing (after the earlier particles were appended). *)
Definition read_node {A} (pid_file : bool) (f : node A) : list (particle A) * bool :=
  let n := count_xv f in
  if negb (z_ok f) then ([], false)
  else if length (data f) <? 6 * n then ([], false)
  else if pid_file then
    if negb (z_ok_pid f) then ([], false)
    else if negb (count_pid f =? n) then ([], false)
    else let m := Nat.min n (length (pids f)) in (map (fun i => mk (firstn (6 * n) (data f)) n i (nth i (pids f) 0%Z)) (seq 0 m), m =? n)
  else (map (fun i => mk (firstn (6 * n) (data f)) n i 0%Z) (seq 0 n), true).
Fixpoint read_nodes {A} (pid_file : bool) (fs : list (node A)) : list (particle A) * nat * bool :=
  match fs with
  | [] => ([], 0, true)
  | f :: r => let '(ps, ok) := read_node pid_file f in
      if ok then let '(qs, n, ok') := read_nodes pid_file r in (ps ++ qs, count_xv f + n, ok') else (ps, 0, false)
  end.
(** [read_from_file] (97-142); the final comparison of the two totals (139) cannot fail after the comparisons per node. *)
Definition read_from_file {A} (pid_file : bool) (s : nbody_file A) (fs : list (node A)) : nbody_file A * bool :=
  let '(ps, n, ok) := read_nodes pid_file fs in
  ({| nbody := nbody s ++ ps; npart := if ok then n else npart s |}, ok).
(** [__init__] with [node=None] and [get_npart] (37-95): [None] if a header is refused. *)
Definition open_file {A} (fs : list (node A)) : option (nbody_file A) :=
  if forallb z_ok fs then Some {| nbody := []; npart := fold_right (fun f n => count_xv f + n) 0 fs |} else None.
