(** Model of the unit conversions of cosmo.py, usefuls.py and
    radio_telescope_sensitivity.py, over the reals. *)
From Coq Require Import List ZArith Reals Bool.
From Verif Require Import ConstModel.
Import ListNotations.
Local Open Scope R_scope.

Definition nu0 : R := 1420.
(** cosmo.py:252, 265, 306, 321 *)
Definition nu_to_z (nu : R) : R := nu0 / nu - 1.
Definition z_to_nu (z : R) : R := nu0 / (1 + z).
Definition c_to_p (d z : R) : R := d / (1 + z).
Definition p_to_c (d z : R) : R := d * (1 + z).
(** usefuls.py:17-21; [g] is [conv.M_grid]. *)
Definition Mgrid_2_Msolar (g M : R) : R := M * (g * solar_masses_per_gram).
Definition Msolar_2_Mgrid (g M : R) : R := M / (g * solar_masses_per_gram).

(** [conv_fact] in [Tvir_to_M], [M_to_Tvir] (cosmo.py:341-348, 363-370). *)
Definition Omz (c : const) (z : R) : R :=
  let Om := Omega0 c in let Ol := OmegaL c in let Ok := 1 - Om - Ol in
  Om * (1 + z) ^ 3 / (Om * (1 + z) ^ 3 + Ol + Ok * (1 + z) ^ 2).
Definition Delc (c : const) (z : R) : R := let d := Omz c z - 1 in 18 * PI ^ 2 + 82 * d - 39 * d ^ 2.
(** A float raised to a positive fractional power: NaN ([None]) for a negative one. *)
Definition fpow (x y : R) : option R :=
  if Rlt_dec x 0 then None else if Req_EM_T x 0 then Some 0 else Some (Rpower x y).
Definition bind (x : option R) (f : R -> option R) : option R := match x with Some v => f v | None => None end.
Definition conv_fact (c : const) (z : R) : option R :=
  bind (fpow (Omega0 c * Delc c z / Omz c z / 18 / PI ^ 2) (1 / 3))
       (fun f => Some (198 / 100 * 10 ^ 4 * ((6 / 10) / (6 / 10)) * f * ((1 + z) / 10))).
Definition Tvir_to_M (c : const) (T z : R) : option R :=
  bind (conv_fact c z) (fun f => bind (fpow (T / f) (3 / 2)) (fun p => Some (10 ^ 8 / h c * p))).
Definition M_to_Tvir (c : const) (M z : R) : option R :=
  bind (conv_fact c z) (fun f => bind (fpow (M * h c / 10 ^ 8) (2 / 3)) (fun p => Some (f * p))).

(** [angular_size], [angular_size_comoving], [deg_to_cdist] (cosmo.py:192-240); [ld] is
    the value of [luminosity_distance(z)]. *)
Definition angular_size (ld dl z : R) : R := 180 / (31415 / 10000) * 3600 * dl * (1 + z) ^ 2 / (1000 * ld).
Definition angular_size_comoving (ld cMpc z : R) : R := angular_size ld (c_to_p cMpc z * 1000) z / 60 / 60.
Definition deg_to_cdist (ld deg z : R) : R := deg / angular_size_comoving ld 1 z.

(** [kelvin_jansky_conversion] (radio_telescope_sensitivity.py:202-210); [dist] is
    [z_to_cdist(z)]. [if not boxsize] also catches 0. *)
Definition KB_SI : R := 1380649 / 10 ^ 6 / 10 ^ 23.
Definition c_light_SI : R := 299792458 / 100000000 * 10 ^ 8.
Definition janskytowatt : R := / 10 ^ 26.
Definition default_box (v : conv) (boxsize : option R) : R :=
  match boxsize with Some b => if Req_EM_T b 0 then LB v else b | None => LB v end.
Definition kelvin_jansky_conversion (v : conv) (dist : R) (ncells z : R) (boxsize : option R) : R :=
  let b := default_box v boxsize / dist in
  2 * KB_SI / c_light_SI / c_light_SI / janskytowatt * ((z_to_nu z * 10 ^ 6) ^ 2) * 10 ^ 3 * (b ^ 2 / ncells ^ 2).
(** [if not ncells: ncells = array.shape[0]] (lines 229-231, 249-251). *)
Definition default_cells (shape0 : Z) (ncells : option Z) : R :=
  match ncells with Some n => if Z.eqb n 0 then IZR shape0 else IZR n | None => IZR shape0 end.
Definition jansky_2_kelvin v dist (shape0 : Z) (array : list R) z boxsize ncells : list R :=
  map (fun x => x / kelvin_jansky_conversion v dist (default_cells shape0 ncells) z boxsize) array.
Definition kelvin_2_jansky v dist (shape0 : Z) (array : list R) z boxsize ncells : list R :=
  map (fun x => x * kelvin_jansky_conversion v dist (default_cells shape0 ncells) z boxsize) array.

(** * Distances and ages of integer redshifts *)
(** [out = np.zeros_like(z)]: storing into an integer array truncates towards zero. *)
Inductive number := Int (k : Z) | Flt (x : R).
Definition truncate (x : R) : Z := if Rle_dec 0 x then Int_part x else (- Int_part (- x))%Z.
Definition val (n : number) : R := match n with Int k => IZR k | Flt x => x end.
Definition store_like (n : number) (x : R) : number := match n with Int _ => Int (truncate x) | Flt _ => Flt x end.
(** [z_to_cdist] (cosmo.py:140-145) for one redshift; [quad] is the value of the integral
    from 0 to z. *)
Definition z_to_cdist (c : const) (quad : R -> R) (z : number) : number :=
  store_like z (3 * 10 ^ 5 / H0 c * quad (val z)).
(** [z_to_age] (cosmo.py:184-190); [quad] is the integral from 0 to the scale factor. *)
Definition z_to_age (c : const) (quad : R -> R) (z : number) : R :=
  val (store_like z (1 / H0 c * quad (1 / (1 + val z)))) * / (10 ^ 5 / Mpc) / (3154 / 1000 * 10 ^ 7) / 10 ^ 9.
