(** Model of the coordinate rotations used for interferometric layouts:
    [earth_rotation_effect] (radio_telescope_layout.py:89-146, numba_functions.py:116-141),
    its call sites in radio_telescope_calibration.py, [enu_to_ecef] and
    [ecef_to_xyz] (radio_telescope_layout.py:381-442) and
    [geographic_to_cartesian_coordinate_system] (radio_telescope_layout.py:270-308).

    Simplification: real numbers instead of floats. *)
From Coq Require Import Reals List.
Import ListNotations.
Local Open Scope R_scope.

Definition vec : Type := R * R * R.
Definition vx (b : vec) : R := fst (fst b).
Definition vy (b : vec) : R := snd (fst b).
Definition vz (b : vec) : R := snd b.

(** [np.deg2rad]. *)
Definition deg2rad (d : R) : R := d * PI / 180.

(** The three assignments to [new_Nbase[:, :, 0..2]] for one baseline
    (radio_telescope_layout.py:139-144). *)
Definition rotate (HA delta : R) (b : vec) : vec :=
  (sin HA * vx b + cos HA * vy b,
   - sin delta * cos HA * vx b + sin delta * sin HA * vy b + cos delta * vz b,
   cos delta * cos HA * vx b - cos delta * sin HA * vy b + sin delta * vz b).

(** Hour angle of slice [k] (radio_telescope_layout.py:124-125). *)
Definition hour_angle (k int_time total_int_time : R) : R :=
  deg2rad (15 * (- (1/2) * total_int_time * 3600 + k * int_time) / 3600).

(** [earth_rotation_effect] for a single slice, before [squeeze]
    (radio_telescope_layout.py:89-146). *)
Definition earth_rotation (Nbase : list vec) (k int_time total_int_time declination : R) : list vec :=
  map (rotate (hour_angle k int_time total_int_time) (deg2rad declination)) Nbase.

(** The shape of what is returned for one slice: [new_Nbase.squeeze()] of an
    array of shape (1, B, 3) (radio_telescope_layout.py:146). With one baseline
    the baseline axis disappears. *)
Inductive rotated :=
| Matrix (rows : list vec)   (* shape (B, 3) *)
| Vector (row : vec).        (* shape (3,) *)
Definition squeeze (l : list vec) : rotated :=
  match l with [b] => Vector b | _ => Matrix l end.
Definition earth_rotation_effect (Nbase : list vec) (k int_time total_int_time declination : R) : rotated :=
  squeeze (earth_rotation Nbase k int_time total_int_time declination).

(** The first thing [grid_uv_tracks] does after rounding is [Nb[:, 0]]
    (radio_telescope_layout.py:249), an IndexError on a vector of shape (3,);
    this gives the rows it works on. *)
Definition rows_of (a : rotated) : option (list vec) :=
  match a with Matrix l => Some l | Vector _ => None end.

(** numba version of the hour angle (numba_functions.py:135) and rotation (138-140). *)
Definition hour_angle_numba (k int_time : R) : R :=
  - 15 * (PI / 180) * (k - 1) * int_time / 3600 - PI / 180 * 90 + PI / 180 * 360.
Definition earth_rotation_numba (Nbase : list vec) (k int_time declination : R) : list vec :=
  map (rotate (hour_angle_numba k int_time) (PI / 180 * declination)) Nbase.

(** The calibration functions call [earth_rotation_effect(Nbase, time_idx,
    int_time, declination)] (radio_telescope_calibration.py:175, 452, 653), so the
    fourth positional parameter [total_int_time] receives the declination and
    [declination] keeps its default -30. *)
Definition calibration_rotation (Nbase : list vec) (k int_time declination : R) : list vec :=
  earth_rotation Nbase k int_time declination (-30).

(** [enu @ R.T + origin_ecef] for one antenna (radio_telescope_layout.py:400-411). *)
Definition enu_to_ecef (lat_deg lon_deg : R) (o : vec) (e : vec) : vec :=
  let lat := deg2rad lat_deg in
  let lon := deg2rad lon_deg in
  (- sin lon * vx e + - sin lat * cos lon * vy e + cos lat * cos lon * vz e + vx o,
   cos lon * vx e + - sin lat * sin lon * vy e + cos lat * sin lon * vz e + vy o,
   0 * vx e + cos lat * vy e + sin lat * vz e + vz o).

(** [(ecef - origin) @ R.T + origin] for one antenna (radio_telescope_layout.py:434-442). *)
Definition ecef_to_xyz (lon_deg : R) (o : vec) (e : vec) : vec :=
  let lon := deg2rad lon_deg in
  let x := vx e - vx o in let y := vy e - vy o in let z := vz e - vz o in
  (cos lon * x + sin lon * y + 0 * z + vx o,
   - sin lon * x + cos lon * y + 0 * z + vy o,
   0 * x + 0 * y + 1 * z + vz o).

(** Spherical Earth (radio_telescope_layout.py:296-307), in metres. *)
Definition R_earth : R := 6371000.
Definition geographic_to_cartesian (lon_deg lat_deg : R) : vec :=
  let lon := deg2rad lon_deg in
  let lat := deg2rad lat_deg in
  (R_earth * cos lat * cos lon, R_earth * cos lat * sin lon, R_earth * sin lat).
