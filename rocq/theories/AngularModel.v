(** Sizes in the conversion between physical and angular light cones (angular_coordinates.py:17-259),
    over exact reals. [ld z] is the luminosity distance. The values are in [PadModel] and [LosModel]. *)
From Coq Require Import List Arith ZArith Reals Bool.
From Verif Require Import UnitsModel.
Import ListNotations.
Local Open Scope R_scope.

(** Python's [int] of a float. *)
Definition py_int (x : R) : Z := if Rle_dec 0 x then Int_part x else (- Int_part (- x))%Z.

(** * [physical_slice_to_angular] (165-204) *)
(** Lines 183-188: number of cells after resampling. *)
Definition resampled_cells (ld : R) (z slice_mpc fov dtheta : R) : Z :=
  let cell := deg_to_cdist ld fov z / (fov * 60 / dtheta) in
  let n := py_int (slice_mpc / cell) in
  if Z.even n then (n - 1)%Z else n.
(** Lines 193-199. *)
Definition padded_cells (fov dtheta : R) (slice_n : Z) : Z :=
  let p := py_int (fov * 60 / dtheta) in if (p <? slice_n)%Z then slice_n else p.
(** Side of the output; [None] is an exception ([np.linspace] with a negative count, line 255, or slices
    that do not fit in [_get_padded_slice], C42). *)
Definition physical_slice_to_angular (ld : R) (z slice_mpc fov dtheta : R) : option Z :=
  let n := resampled_cells ld z slice_mpc fov dtheta in
  let p := padded_cells fov dtheta n in
  if (n <? 0)%Z then None
  else if ((n =? 1) || ((n <=? p) && (p <=? 2 * n)))%Z%bool then Some p else None.
(** Positions sampled by [resample_slice] (line 255), on an axis of [n] cells. *)
Definition sample_position (n m i : nat) : R := INR i * (INR (n - 1) / INR (m - 1)).

(** * [physical_lightcone_to_observational] (17-105): the side of the output. [zs]: redshifts of the
    output frequencies. Line 94 needs slices of the side of the volume, or of one cell. *)
Definition observational_side (ld : R -> R) (z_low box dtheta : R) (zs : list R) : option Z :=
  let fov := angular_size_comoving (ld z_low) box z_low in
  let n := py_int (fov * 60 / dtheta) in
  if forallb (fun z => match physical_slice_to_angular (ld z) z box fov dtheta with Some p => ((p =? n) || (p =? 1))%Z%bool | None => false end) zs
  then Some n else None.
(** Lines 100-102: the cells [start:stop] kept by mode 'crop'. *)
Definition crop_range (n m : Z) : Z * Z := ((n - m) / 2, (n + m) / 2)%Z.

(** * [angular_slice_to_physical] (207-240): the side of the output for an input of [n_in] cells. *)
Definition angular_slice_to_physical (ld : R) (z slice_deg cell out_mpc : R) (n_in : Z) : Z :=
  let n := py_int (deg_to_cdist ld slice_deg z / cell) in
  let n_res := if Z.even n then (n + 1)%Z else n in
  let c := py_int (out_mpc / cell) in
  let n_cut := if (n_in <? c)%Z then n_in else c in
  Z.min n_res n_cut.
(** * [observational_lightcone_to_physical] (108-162): the transverse side. [zs]: redshifts of the slices,
    the first one the lowest; [par]: the cell size along the line of sight. *)
Definition physical_side (ld : R -> R) (z_low dtheta par : R) (n_in : Z) (zs : list R) : option Z :=
  let fov := IZR n_in * dtheta / 60 in
  let fov_mpc := fov / angular_size_comoving (ld z_low) 1 z_low in
  let cell := Rmax par (fov_mpc / IZR n_in) in
  let n := py_int (fov_mpc / cell) in
  if forallb (fun z => let p := angular_slice_to_physical (ld z) z fov cell fov_mpc n_in in ((p =? n) || (p =? 1))%Z%bool) zs then Some n else None.
