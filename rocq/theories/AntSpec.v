(** Vocabulary for the baseline-list and antenna-stamp properties. *)
From Coq Require Import List Arith ZArith QArith Lia Bool Sorted.
From Verif Require Import PyBase UvGridModel UvGridSpec.
Import ListNotations.
Local Open Scope nat_scope.

(** Lexicographic order on index pairs. *)
Definition lex (p q : nat * nat) : Prop := fst p < fst q \/ (fst p = fst q /\ snd p < snd q).

(** Componentwise equality of baselines as rationals. *)
Definition beq (a b : baseline) : Prop := (bu a == bu b /\ bv a == bv b /\ bw a == bw b)%Q.

(** The baseline of two antennas in wavelengths. *)
Definition is_baseline (lam : Q) (a b : baseline) (r : baseline) : Prop :=
  (bu r == (bu a - bu b) / lam /\ bv r == (bv a - bv b) / lam /\ bw r == (bw a - bw b) / lam)%Q.

Definition translate (t a : baseline) : baseline :=
  ((bu a + bu t)%Q, (bv a + bv t)%Q, (bw a + bw t)%Q).
Definition stretch (c : Q) (a : baseline) : baseline :=
  ((c * bu a)%Q, (c * bv a)%Q, (c * bw a)%Q).

(** In range on an n x n grid at scale theta. *)
Definition on_grid (n : nat) (theta : Q) (b : baseline) : bool :=
  in_range_b n (gx theta b) && in_range_b n (gy theta b).

(** The antenna pairs whose baseline belongs to pixel (i, j), in input order. *)
Definition pairs_at (n : nat) (theta : Q) (rows : list (baseline * (nat * nat))) (i j : nat)
  : list (nat * nat) :=
  map snd (filter (fun r => on_grid n theta (fst r)
      && (gx theta (fst r) mod Z.of_nat n =? Z.of_nat i)%Z
      && (gy theta (fst r) mod Z.of_nat n =? Z.of_nat j)%Z) rows).

(** What the documentation of the Lagrangian map promises for one time step: row k
    holds the grid coordinates of baseline k, NaN when it falls outside the grid. *)
Definition documented_rows (n : nat) (theta : Q) (bs : list baseline) : list (option (Z * Z)) :=
  map (fun b => if on_grid n theta b then Some (gx theta b, gy theta b) else None) bs.
