(** Any value of the haloes on a grid. *)
From Coq Require Import List Arith ZArith Reals.
From Verif Require Import HaloGridModel.
Import ListNotations.
Local Open Scope R_scope.

(** [halo_value_on_grid] (nbody_file.py:269-280) with positions from the object or the keyword [pos], without
    [binned_value]. scipy refuses values that are not one per position. *)
Inductive listed := NothingListed | Refused | Listed (l : list (cell * R)).
Definition halo_value_on_grid (n : nat) (s : h2g) (pos : option (list point)) (value : list R) : listed :=
  match match pos with Some ps => Some ps | None => pos_grid s end with
  | None => NothingListed
  | Some ps => if Nat.eqb (length value) (length ps) then Listed (occupied n (value_on_grid n (combine ps value))) else Refused
  end.
