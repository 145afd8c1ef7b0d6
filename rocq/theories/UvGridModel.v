(** Model of the gridding of uv tracks: [grid_uv_tracks] and
    [get_uv_daily_observation] (radio_telescope_layout.py:148-268) and the older
    [get_uv_coverage] (numba_functions.py:144-171).

    Simplifications: a baseline is a triple of rationals (u, v, w); the scale
    [theta_max = boxsize / z_to_cdist(z)] (line 239) is a rational argument;
    integer and float counters are exact (no int32 / float32 overflow). *)
From Coq Require Import List Arith ZArith QArith Lia Bool.
From Verif Require Import PyBase.
Import ListNotations.
Local Open Scope nat_scope.

Definition baseline : Type := Q * Q * Q.
Definition bu (b : baseline) : Q := fst (fst b).
Definition bv (b : baseline) : Q := snd (fst b).
Definition bw (b : baseline) : Q := snd b.

(** [-Nbase], one row (layout.py:243). *)
Definition bneg (b : baseline) : baseline := ((- bu b)%Q, (- bv b)%Q, (- bw b)%Q).

(** [np.round(Nbase * theta_max).astype(int)], first two columns (layout.py:246). *)
Definition pix (theta : Q) (b : baseline) : Z * Z :=
  (round_half_even (bu b * theta)%Q, round_half_even (bv b * theta)%Q).

(** [x < ncells / 2] and [x >= -ncells / 2] with true division (layout.py:249-252),
    cleared of the division. *)
Definition in_bound (n : nat) (x : Z) : bool :=
  (Z.ltb (2 * x) (Z.of_nat n) && Z.leb (- Z.of_nat n) (2 * x))%Z.
Definition mask (n : nat) (p : Z * Z) : bool := in_bound n (fst p) && in_bound n (snd p).

(** Flat index [xx * ncells + yy] (layout.py:256-260). *)
Definition flat_index (n : nat) (p : Z * Z) : Z :=
  ((fst p + Z.of_nat (n / 2)) * Z.of_nat n + (snd p + Z.of_nat (n / 2)))%Z.

(** [np.bincount(xs, minlength=m)]: raises on a negative entry; the result has
    [max(m, 1 + max xs)] counters (numpy). *)
Definition bincount (xs : list Z) (m : nat) : option (list nat) :=
  if existsb (fun x => Z.ltb x 0) xs then None
  else Some (map (fun i => count_occ Z.eq_dec xs (Z.of_nat i))
                 (seq 0 (Nat.max m (fold_right (fun x a => Nat.max (S (Z.to_nat x)) a) 0 xs)))).

(** [a.reshape(n, n)]: raises unless the size is [n*n]; C order. *)
Definition reshape2 {A} (d : A) (n : nat) (l : list A) : option (nat -> nat -> A) :=
  if Nat.eqb (length l) (n * n) then Some (fun i j => nth (i * n + j) l d) else None.

(** [np.fft.fftshift] of an n x n array: a roll by [n // 2] on both axes, i.e.
    output cell [i] is input cell [(i - n//2) mod n]. *)
Definition fftshift2 {A} (n : nat) (f : nat -> nat -> A) : nat -> nat -> A :=
  fun i j => f ((i + (n - n / 2)) mod n) ((j + (n - n / 2)) mod n).

(** A finished n x n array as nested lists. *)
Definition table2 {A} (n : nat) (f : nat -> nat -> A) : list (list A) :=
  map (fun i => map (fun j => f i j) (seq 0 n)) (seq 0 n).

(** [grid_uv_tracks] (layout.py:207-268). [None] is an exception. *)
Definition grid_uv_tracks (mirror : bool) (n : nat) (theta : Q) (bs : list baseline)
  : option (list (list Q)) :=
  let bs' := if mirror then bs ++ map bneg bs else bs in
  let nb := filter (mask n) (map (pix theta) bs') in
  match bincount (map (flat_index n) nb) (n * n) with
  | None => None
  | Some flat =>
      match reshape2 0 n flat with
      | None => None
      | Some f =>
          let scaled i j := (if mirror then inject_Z (Z.of_nat (f i j)) / 2
                             else inject_Z (Z.of_nat (f i j)))%Q in
          Some (table2 n (fftshift2 n scaled))
      end
  end.

(** Elementwise [+=] of two maps. *)
Definition add_map (a b : list (list Q)) : list (list Q) :=
  map (fun rr => map (fun xy => (fst xy + snd xy)%Q) (combine (fst rr) (snd rr))) (combine a b).

(** [get_uv_daily_observation] (layout.py:186-205): [rot t] is the list of
    baselines rotated to time slice [t], [total] the number of observations.
    With [total = 0] numpy divides by zero (NaN map); this is [None] here. *)
Definition uv_daily (mirror : bool) (n : nat) (theta : Q) (total : nat)
           (rot : nat -> list baseline) : option (list (list Q)) :=
  let step acc t :=
    match acc, grid_uv_tracks mirror n theta (rot t) with
    | Some m, Some g => Some (add_map m g)
    | _, _ => None
    end in
  let zero := table2 n (fun _ _ => 0%Q) in
  match fold_left step (map S (seq 0 total)) (Some zero) with
  | None => None
  | Some m => if Nat.eqb total 0 then None
              else Some (map (map (fun x => x / inject_Z (Z.of_nat total))%Q) m)
  end.

(** Python indexing of an axis of length [n] with an in-range negative index. *)
Definition wrap_index (n : nat) (x : Z) : option nat :=
  if (Z.leb 0 x && Z.ltb x (Z.of_nat n))%Z then Some (Z.to_nat x)
  else if (Z.leb (- Z.of_nat n) x && Z.ltb x 0)%Z then Some (Z.to_nat (x + Z.of_nat n))
  else None.

(** [get_uv_coverage] (numba_functions.py:144-171): half the scale, the third
    coordinate is filtered too, and cells are addressed with negative indices. *)
Definition get_uv_coverage (n : nat) (theta : Q) (bs : list baseline)
  : option (list (list nat)) :=
  let nb := map (fun b => (round_half_even (bu b * theta / 2)%Q,
                           round_half_even (bv b * theta / 2)%Q,
                           round_half_even (bw b * theta / 2)%Q)) bs in
  let nb := filter (fun t => in_bound n (fst (fst t)) && in_bound n (snd (fst t))
                             && in_bound n (snd t)) nb in
  let step acc (t : Z * Z * Z) :=
    match acc, wrap_index n (fst (fst t)), wrap_index n (snd (fst t)) with
    | Some f, Some x, Some y =>
        Some (fun i j : nat => if Nat.eqb i x && Nat.eqb j y then S (f i j) else f i j)
    | _, _, _ => None
    end in
  match fold_left step nb (Some (fun _ _ => 0)) with
  | Some f => Some (table2 n f)
  | None => None
  end.
