(** [make_lightcone] without a channel width (lightcone.py:18-152): redshifts one cell apart, truncated to those of the files, one slice for each. *)
From Coq Require Import List Arith ZArith QArith Reals Bool.
From Verif Require Import LcModel LcInterpModel LcCellModel.
Import ListNotations.
Local Open Scope nat_scope.

(** [_get_output_z] (274-297) without [dnu]. [w z] stands for [const.Hz(z)*box_length_mpc/const.c/box_grid_n]; [fuel] bounds the loop. *)
Definition output_z (fuel : nat) (w : Q -> Q) (nu0 : Q) (fz : list Q) (z_low z_high : option Q) : option (list Q) :=
  match dflt z_low (list_min fz), dflt z_high (list_max fz) with
  | Some lo, Some hi => match redshifts_equal_distance fuel w nu0 lo hi with None => None | Some out => truncate_z fz out end
  | _, _ => None
  end.
(** The light cone and its redshifts (112-152). *)
Definition make_lightcone (fuel : nat) (w : Q -> Q) (nu0 : Q) (m : method) (los : nat) (fz : list Q) (files : list cube) (z_low z_high : option Q)
  : option (list (nat -> nat -> R) * list Q) :=
  match output_z fuel w nu0 fz z_low z_high with
  | None => None
  | Some zs => option_map (fun lc => (lc, zs)) (scalar_lightcone m los fz files zs)
  end.
