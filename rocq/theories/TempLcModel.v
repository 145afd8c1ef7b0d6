(** [calc_dt_lightcone] (temperature.py:118-150) as a whole, for data given as arrays. *)
From Coq Require Import List Arith ZArith Reals Bool.
From Verif Require Import TempModel.
Import ListNotations.
Local Open Scope R_scope.

(** [rho.min()>=0] (217) over all cells. *)
Definition whole_no_negative (s : nat * nat * nat) (rho : box) : bool :=
  let '(nx, ny, nz) := s in no_negative (flat_map (fun i => flat_map (fun j => map (fun k => rho i j k) (seq 0 nz)) (seq 0 ny)) (seq 0 nx)).
(** Lines 143-150. [None]: an axis that is not there, or shapes that do not match. *)
Definition calc_dt_lightcone (c : cosmo) (z_to_cdist cdist_to_z : R -> R) (LB : R) (s : nat * nat * nat) (xi rho : box) (lowest_z : R) (los : Z)
  : option (nat * nat * nat * box) :=
  match lightcone_redshifts z_to_cdist cdist_to_z LB s los lowest_z, los_index los with
  | Some zs, Some a => dt_lightcone c (whole_no_negative s rho) s a zs rho xi
  | _, _ => None
  end.
(** [calc_dt_full_lightcone] (152-194); the cells' own arithmetic is [dt_full]. *)
Definition calc_dt_full_lightcone (c : cosmo) (z_to_cdist cdist_to_z : R -> R) (LB : R) (s : nat * nat * nat) (xi Ts rho : box) (lowest_z : R) (los : Z) (correct : bool)
  : option (nat -> nat -> nat -> ereal) :=
  match lightcone_redshifts z_to_cdist cdist_to_z LB s los lowest_z with
  | Some zs => Some (dt_full_lightcone c zs correct rho xi Ts)
  | None => None
  end.
