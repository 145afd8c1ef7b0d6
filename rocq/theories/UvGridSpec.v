(** Specification of the gridding: which pixel a baseline belongs to. *)
From Coq Require Import List Arith ZArith QArith Lia Bool.
From Verif Require Import PyBase UvGridModel.
Import ListNotations.
Local Open Scope Z_scope.

(** Rounded grid coordinates of a baseline at scale [theta]. *)
Definition gx (theta : Q) (b : baseline) : Z := round_half_even (bu b * theta)%Q.
Definition gy (theta : Q) (b : baseline) : Z := round_half_even (bv b * theta)%Q.

(** In range: -n/2 <= x < n/2 in both coordinates. *)
Definition in_range (n : nat) (x : Z) : Prop := - Z.of_nat n <= 2 * x < Z.of_nat n.
Definition in_range_b (n : nat) (x : Z) : bool :=
  if Z_le_dec (- Z.of_nat n) (2 * x) then if Z_lt_dec (2 * x) (Z.of_nat n) then true else false else false.

(** Number of in-range baselines. *)
Definition visible (n : nat) (theta : Q) (bs : list baseline) : nat :=
  length (filter (fun b => in_range_b n (gx theta b) && in_range_b n (gy theta b)) bs).

(** Number of in-range baselines whose coordinates, shifted by [s], are (i, j)
    modulo the grid. *)
Definition hits (s : Z) (n : nat) (theta : Q) (bs : list baseline) (i j : Z) : nat :=
  length (filter (fun b => in_range_b n (gx theta b) && in_range_b n (gy theta b)
     && ((gx theta b + s) mod Z.of_nat n =? i) && ((gy theta b + s) mod Z.of_nat n =? j)) bs).

(** Entry [i][j] of a map, [None] outside. *)
Definition entry {A} (m : list (list A)) (i j : nat) : option A :=
  match nth_error m i with Some r => nth_error r j | None => None end.

(** Sum of all entries of a map. *)
Definition total (m : list (list Q)) : Q :=
  fold_right Qplus 0%Q (map (fold_right Qplus 0%Q) m).

(** The older implementation: half the scale, and the third coordinate must be in
    range as well; the pixel is (x mod n, y mod n) for every n. *)
Definition gz (theta : Q) (b : baseline) : Z := round_half_even (bw b * theta)%Q.
Definition hits3 (n : nat) (theta : Q) (bs : list baseline) (i j : Z) : nat :=
  length (filter (fun b => in_range_b n (gx theta b) && in_range_b n (gy theta b)
     && in_range_b n (gz theta b)
     && (gx theta b mod Z.of_nat n =? i) && (gy theta b mod Z.of_nat n =? j)) bs).

(** Sum of a rational quantity over the time slices 1 .. T. *)
Definition sum_slices (T : nat) (f : nat -> Q) : Q := fold_right Qplus 0%Q (map f (seq 1 T)).
