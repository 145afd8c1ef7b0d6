(** Antenna layouts and coeval noise cubes: radio_telescope_layout.py:12-40, 311-356, 444-510 and
    radio_telescope_noise.py:399-433, 683-727. Exact reals. *)
From Coq Require Import String Ascii List Arith ZArith Reals Bool.
From Verif Require Import RLib ConstModel RotModel UnitsModel.
Import ListNotations.
Local Open Scope R_scope.

Inductive outcome (A : Type) := Returned (a : A) | Raised (e : string).
Arguments Returned {A}. Arguments Raised {A}.

(** * [cartesian_to_geographic_coordinate_system] (311-356) *)
(** An array, or an astropy quantity in metres to the power [dim]. *)
Inductive table := Plain (rows : list vec) | Quantity (dim : Z) (rows : list vec).
(** [np.arctan2(y, x)], for zeros without sign. *)
Definition arctan2 (y x : R) : R :=
  if Rlt_dec 0 x then atan (y / x)
  else if Rlt_dec x 0 then if Rle_dec 0 y then atan (y / x) + PI else atan (y / x) - PI
  else if Rlt_dec 0 y then PI / 2 else if Rlt_dec y 0 then - (PI / 2) else 0.
Definition rad2deg (a : R) : R := a * 180 / PI.
Definition radius (v : vec) : R := sqrt (vx v ^ 2 + vy v ^ 2 + vz v ^ 2).
(** One row, in metres: longitude, latitude (nan, here [None], at the centre) and height. *)
Definition geographic (v : vec) : R * option R * R :=
  (rad2deg (arctan2 (vy v) (vx v)), if Req_EM_T (radius v) 0 then None else Some (rad2deg (asin (vz v / radius v))), radius v - R_earth).
(** [if isinstance(antxyz, Quantity): antxyz *= u.m] (338-339) changes the caller's quantity. Then [arctan2] of plain arrays has
    no [.to] (348), and [r - Re] (350) needs a length. With the result comes the table the caller is left with. *)
Definition cartesian_to_geographic (t : table) : outcome (list (R * option R * R)) * table :=
  match t with
  | Plain rows => (Raised "AttributeError", t)
  | Quantity d rows =>
      let t' := Quantity (d + 1) rows in
      if Z.eqb (d + 1) 1 then (Returned (map geographic rows), t') else (Raised "UnitConversionError", t')
  end.

(** * [get_SKA_Low_layout] (444-510) *)
(** [str.upper] and [str.lower] on ASCII. *)
Definition upper_char (c : ascii) : ascii := let n := nat_of_ascii c in if ((97 <=? n) && (n <=? 122))%nat%bool then ascii_of_nat (n - 32) else c.
Definition lower_char (c : ascii) : ascii := let n := nat_of_ascii c in if ((65 <=? n) && (n <=? 90))%nat%bool then ascii_of_nat (n + 32) else c.
Fixpoint smap (f : ascii -> ascii) (s : string) : string := match s with EmptyString => EmptyString | String c r => String (f c) (smap f r) end.
Definition upper : string -> string := smap upper_char.
Definition lower : string -> string := smap lower_char.
Local Open Scope string_scope.
(** The file of a subarray (463-474). *)
Definition layout_file (subarray : string) : string :=
  let u := upper subarray in
  if String.eqb u "AA4" then "input_data/skalow_AA4_layout.txt"
  else if existsb (String.eqb u) ["AASTAR"; "AA*"] then "input_data/skalow_AAstar_layout.txt"
  else if String.eqb u "AA2" then "input_data/skalow_AA2_layout.txt"
  else if String.eqb u "AA1" then "input_data/skalow_AA1_layout.txt"
  else if String.eqb u "AA0.5" then "input_data/skalow_AA0.5_layout.txt"
  else "input_data/skalow1_layout.txt".
(** Lines 476-510. [load] are the rows of a file; [lat], [lon] and [origin] the centre of the array (477-481). The branch for
    'latlon' reads a name that only the other branches bind. *)
Definition get_layout (load : string -> list vec) (lat lon : R) (origin : vec) (subarray unit : string) : outcome (list vec) :=
  let enu := load (layout_file subarray) in
  if String.eqb (lower unit) "enu" then Returned enu
  else if String.eqb (lower unit) "ecef" then Returned (map (enu_to_ecef lat lon origin) enu)
  else if String.eqb (lower unit) "xyz" then Returned (map (fun e => ecef_to_xyz lon origin (enu_to_ecef lat lon origin e)) enu)
  else if existsb (String.eqb unit) ["latlon"; "geodetic"] then Raised "UnboundLocalError"
  else Raised "ValueError".
(** [subarray_type_to_antxyz] (12-40). [sept2016] are the longitudes and latitudes of the built-in configuration. *)
Inductive subarray_arg := Name (s : string) | Array (rows : list vec) | Other.
Definition subarray_to_antxyz (load : string -> list vec) (lat lon : R) (origin : vec) (sept2016 : list (R * R)) (s : subarray_arg) : outcome (list vec * nat) :=
  match s with
  | Name n => match get_layout load lat lon origin n "xyz" with Returned a => Returned (a, length a) | Raised e => Raised e end
  | Array a => Returned (a, length a)
  | Other => let a := map (fun p => geographic_to_cartesian (fst p) (snd p)) sept2016 in Returned (a, length a)
  end.

(** * [_suppress_sharp_features_uv_map] (radio_telescope_noise.py:399-433) *)
Local Open Scope R_scope.
Definition maximum (l : list R) : R := match l with [] => 0 | x :: r => fold_left Rmax r x end.
(** [filter] stands for [gaussian_filter], [binned] for lines 426-430 on the flattened map. *)
Definition suppress (filter binned : list R -> list R) (boxsize : option R) (method : string) (uv : list R) : outcome (list R) :=
  if String.eqb (lower method) "gaussian" then
    let s := map sqrt (filter uv) in Returned (map (fun v => v * (maximum uv / maximum s)) s)
  else if existsb (String.eqb (lower method)) ["binned"; "bin"]%string then
    match boxsize with None => Raised "AssertionError" | Some _ => Returned (binned uv) end
  else Raised "UnboundLocalError".

(** * [noise_map] (374-379) and [noise_cube_coeval] (683-727) *)
(** What a call of [noise_map] works with. Line 374 replaces its argument [N_ant] by the number of rows of the layout, and
    [get_uv_map] may replace it again. [slice] makes the map of one call from layout, uv map, number of antennas and channel
    width; [uv_of] is [get_uv_map]. *)
Definition noise_map {M} (slice : list vec -> list R -> nat -> R -> M) (uv_of : list vec -> list R * nat) (antxyz : list vec)
    (depth : R) (uv_map : option (list R)) (N_ant : option nat) : M :=
  let N_ant := length antxyz in
  let '(uv, n) := match uv_map with Some m => (m, N_ant) | None => uv_of antxyz end in
  slice antxyz uv n depth.
(** Slices along the last axis, in kelvin. [slice k] draws its own random numbers; [antxyz] is what line 703 makes of the
    subarray. *)
Definition noise_cube_coeval (v : conv) (z_to_cdist cdist_to_z : R -> R) (slice : nat -> list vec -> list R -> nat -> R -> list R)
    (uv_of : list vec -> list R * nat) (antxyz : list vec) (ncells : nat) (z : R) (depth_mhz boxsize : option R)
    (uv_map : option (list R)) (N_ant : option nat) : list (list R) :=
  let N_ant := length antxyz in
  let box := match boxsize with Some b => b | None => LB v end in
  let depth := match depth_mhz with Some d => d
    | None => (z_to_nu (cdist_to_z (z_to_cdist z - box / 2)) - z_to_nu (cdist_to_z (z_to_cdist z + box / 2))) / INR ncells end in
  let '(uv, n) := match uv_map with Some m => (m, N_ant) | None => uv_of antxyz end in
  map (fun k => jansky_2_kelvin v (z_to_cdist z) (Z.of_nat ncells) (noise_map (slice k) uv_of antxyz depth (Some uv) (Some n)) z (Some box) None)
      (seq 0 ncells).
