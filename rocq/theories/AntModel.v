(** Model of the baseline lists and the antenna-stamp functions:
    [from_antenna_config] (radio_telescope_layout.py:42-87),
    [antenna_positions_to_baselines] (358-379),
    [from_antenna_config_with_antenna_stamp] (radio_telescope_calibration.py:286-334),
    the chunking of [get_full_uv_map_with_antenna_stamp] (337-405) and
    [get_full_uv_lagrangian_with_antenna_stamp] (526-605) and the two gridding
    loops (458-522, 659-720).

    Simplifications: positions are rationals; the wavelength [lam] is an argument;
    the rotation of a time slice is a function argument ([rot t] is the list of
    rotated baselines); [joblib.Parallel] returns the results in order. *)
From Coq Require Import List Arith ZArith QArith Lia Bool.
From Verif Require Import PyBase UvGridModel.
Import ListNotations.
Local Open Scope nat_scope.

(** [itertools.combinations(l, 2)]: pairs in lexicographic order of positions. *)
Fixpoint combinations2 {A} (l : list A) : list (A * A) :=
  match l with
  | [] => []
  | a :: l' => map (fun b => (a, b)) l' ++ combinations2 l'
  end.

(** [itertools.permutations(l, 2)] on positions: all ordered pairs of distinct
    positions, lexicographically. *)
Definition permutations2 {A} (l : list A) : list (A * A) :=
  flat_map (fun i =>
    flat_map (fun j => if Nat.eqb i j then []
                       else match nth_error l i, nth_error l j with
                            | Some a, Some b => [(a, b)]
                            | _, _ => []
                            end) (seq 0 (length l))) (seq 0 (length l)).

Definition bsub (a b : baseline) : baseline :=
  ((bu a - bu b)%Q, (bv a - bv b)%Q, (bw a - bw b)%Q).

(** Rows [ux, uy, uz] for every pair of [combinations(range(N_ant), 2)]
    (radio_telescope_layout.py:74-86). *)
Definition from_antenna_config (lam : Q) (ants : list baseline) : list baseline :=
  map (fun ij => let a := nth (fst ij) ants (0,0,0)%Q in
                 let b := nth (snd ij) ants (0,0,0)%Q in
                 ((bu a - bu b) / lam, (bv a - bv b) / lam, (bw a - bw b) / lam)%Q)
      (combinations2 (seq 0 (length ants))).

(** Same with the two antenna tags [arange(N_ant)+1] in columns 3, 4
    (radio_telescope_calibration.py:319-333). *)
Definition from_antenna_config_stamped (lam : Q) (ants : list baseline)
  : list (baseline * (nat * nat)) :=
  combine (from_antenna_config lam ants)
          (map (fun ij => (S (fst ij), S (snd ij))) (combinations2 (seq 0 (length ants)))).

(** [a1 - a2 for a1, a2 in permutations(antxyz, 2)] (radio_telescope_layout.py:375). *)
Definition antenna_positions_to_baselines (ants : list baseline) : list baseline :=
  map (fun ab => bsub (fst ab) (snd ab)) (permutations2 ants).

(** [chunks] (radio_telescope_calibration.py:384-385, 583-584):
    [chunk_size = total // n_jobs] and [range(0, total, chunk_size)].
    [None]: [n_jobs = 0] (ZeroDivisionError) or step 0 (ValueError). A negative
    step gives no chunks. *)
Definition chunks (total : nat) (n_jobs : Z) : option (list (nat * nat)) :=
  if (n_jobs =? 0)%Z then None else
  let cs := (Z.of_nat total / n_jobs)%Z in
  if (cs =? 0)%Z then None
  else if (cs <? 0)%Z then Some []
  else Some (map (fun i => (i, Nat.min (i + Z.to_nat cs) total)) (py_range 0 total (Z.to_nat cs))).

(** One chunk: [time_idx] runs over [range(chunk_start, chunk_end)] and slice
    [time_idx - chunk_start] of the chunk's array is filled; the array starts
    with [chunk_end - chunk_start] blank slices (radio_telescope_calibration.py:440-456). *)
Definition process_chunk {S} (blank : S) (slice : nat -> S) (c : nat * nat) : list S :=
  fold_left (fun arr t =>
      map (fun k => if Nat.eqb k (t - fst c) then slice t else nth k arr blank)
          (seq 0 (length arr)))
    (seq (fst c) (snd c - fst c)) (repeat blank (snd c - fst c)).

(** Whole run: [np.concatenate(results, axis=0)], which raises on an empty list
    (radio_telescope_calibration.py:388-396). *)
Definition run_chunks {S} (blank : S) (slice : nat -> S) (total : nat) (n_jobs : Z)
  : option (list S) :=
  match chunks total n_jobs with
  | None => None
  | Some [] => None
  | Some cs => Some (concat (map (process_chunk blank slice) cs))
  end.

(** One time slice of the stamped map: [ant_tag_uv_map[t, x, y].append([a1, a2])]
    for the in-bounds baselines, with Python indexing of negative x, y
    (radio_telescope_calibration.py:500-516). [theta] is [theta_max]. *)
Definition stamp_slice (n : nat) (theta : Q) (rows : list (baseline * (nat * nat)))
  : option (nat -> nat -> list (nat * nat)) :=
  let nb := map (fun r => (pix theta (fst r), snd r)) rows in
  let nb := filter (fun r => mask n (fst r)) nb in
  fold_left (fun acc r =>
      match acc, wrap_index n (fst (fst r)), wrap_index n (snd (fst r)) with
      | Some f, Some x, Some y =>
          Some (fun i j => if Nat.eqb i x && Nat.eqb j y then f i j ++ [snd r] else f i j)
      | _, _, _ => None
      end) nb (Some (fun _ _ => [])).

(** [full_uv_map_with_antenna_stamp_to_uv_map] (518-522): number of stamps per
    pixel summed over the slices. *)
Definition stamps_to_uv_map (slices : list (nat -> nat -> list (nat * nat))) (i j : nat) : nat :=
  list_sum (map (fun f => length (f i j)) slices).

(** One time slice of the "Lagrangian" map (radio_telescope_calibration.py:698-718):
    an array of [n_baselines] rows, NaN ([None]) at first, whose row [count] gets the
    coordinates of the next in-bounds baseline. *)
Fixpoint fill_rows {A} (k : nat) (vals : list A) (rows : list (option A)) : list (option A) :=
  match vals with
  | [] => rows
  | v :: vs => fill_rows (S k) vs
                 (map (fun r => if Nat.eqb r k then Some v else nth r rows None)
                      (seq 0 (length rows)))
  end.
Definition lagrangian_slice (n : nat) (theta : Q) (bs : list baseline) : list (option (Z * Z)) :=
  fill_rows 0 (filter (mask n) (map (pix theta) bs)) (repeat None (length bs)).
