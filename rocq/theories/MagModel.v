(** Magnitudes, fields of view and particle masses: astro_tools.py, nbody_tools.py; the analytic noise of power_spectrum_noise.py. *)
From Coq Require Import List Reals Bool.
Import ListNotations.
Local Open Scope R_scope.

(** What a caller may pass: a Python number, a plain numpy array (one entry followed), or an astropy quantity. *)
Inductive unit_ := mag | rad2 | deg2 | Msun | Mpc_ | other.
Inductive arg := Number (x : R) | Array (x : R) | Quantity (x : R) (u : unit_).
Inductive result := Value (x : R) | InUnit (x : R) (u : unit_) | Raised.

(** Adding a quantity with a dimension and something without one raises UnitConversionError. *)
Definition add (a b : result) : result :=
  match a, b with
  | Value x, Value y => Value (x + y)
  | InUnit x mag, InUnit y mag => InUnit (x + y) mag
  | _, _ => Raised
  end.
Definition neg (a : result) : result := match a with Value x => Value (- x) | InUnit x u => InUnit (- x) u | Raised => Raised end.
(** [if isinstance(v, (int,float)): v *= u] *)
Definition attach (u : unit_) (a : arg) : result := match a with Number x => InUnit x u | Array x => Value x | Quantity x v => InUnit x v end.

Definition log10 (x : R) : R := ln x / ln 10.
(** [FoV_cMpc2] (astro_tools.py:7-36); [D] is the comoving distance. *)
Definition FoV_cMpc2 (D : R) (a : arg) : result :=
  match attach rad2 a with
  | InUnit x rad2 => Value (x * D ^ 2)
  | InUnit x deg2 => Value (x * (PI / 180) ^ 2 * D ^ 2)
  | _ => Raised
  end.
(** [mag_to_flux] (39-60). *)
Definition mag_to_flux (a : arg) : result := match attach mag a with InUnit m mag => Value (Rpower 10 (- (m + 486 / 10) / (5 / 2))) | _ => Raised end.
(** [Muv_to_muv] (63-94): the distance modulus loses its unit and the correction never had one. *)
Definition Muv_to_muv (distmod z : R) (a : arg) : result := add (add (attach mag a) (Value distmod)) (neg (Value (5 / 2 * log10 (1 + z)))).
(** [muv_to_Muv] (97-128). *)
Definition muv_to_Muv (distmod z : R) (a : arg) : result := add (add (attach mag a) (neg (InUnit distmod mag))) (InUnit (5 / 2 * log10 (1 + z)) mag).
(** [Muv_to_L1500] (131-152): the first line reads the local [Muv] before it is assigned. *)
Definition Muv_to_L1500 (a : arg) : result := Raised.

(** nbody_tools.py:27-51, [rho] is the mean matter density today in Msun/Mpc^3; numbers are taken in Msun and Mpc. *)
Definition cbrt (x : R) : R := Rpower x (/ 3).
Definition ParticleMass_to_ParticleNumber (rho Lbox mass : R) : R := cbrt (rho / mass) * Lbox.
(** [np.cbrt(None)] raises. *)
Definition particle_number_to_particle_mass (rho Lbox : R) (each total : option R) : option R :=
  match each, total with
  | Some n, _ => Some (rho * (Lbox / n) ^ 3)
  | None, Some t => Some (rho * (Lbox / cbrt t) ^ 3)
  | None, None => None
  end.
Definition halo_mass_to_particle_number (rho Lbox halo_mass particles_in_halo : R) : option R := particle_number_to_particle_mass rho Lbox (Some (halo_mass / particles_in_halo)) None.

(** [noise_error_ps] (power_spectrum_noise.py:10-67). Keyword arguments that may be functions of the frequency are sums; [dist] is
    [nu_to_cdist]. *)
Inductive param := Const_ (x : R) | Fun_ (f : R -> R).
Definition at_nu (p : param) (nu : R) : R := match p with Const_ x => x | Fun_ f => f nu end.
Record setup := Setup { Rmax : R; Aeff : param; Nstat : R; Tsys : param; B : R; epsilon : R; multipole : nat }.
Definition noise_error_ps (dist : R -> R) (s : setup) (nu k t : R) : R :=
  let wavel := 3 * 10 ^ 5 / nu / 10 ^ 3 in
  let secs := t * 60 * 60 in
  let Acore := Rmax s ^ 2 * PI in
  let A := at_nu (Aeff s) nu in
  let Acoll := Nstat s * A in
  let Dc := dist nu in
  let deltaDc := Rabs (Dc - dist (nu + B s)) in
  let OmegaFoV := wavel ^ 2 / A in
  let T := at_nu (Tsys s) nu in
  2 / PI * Rpower k (3 / 2) * sqrt (Dc ^ 2 * deltaDc * OmegaFoV) * (T / sqrt (B s * 10 ^ 6 * secs)) ^ 2 * (Acore * A / Acoll ^ 2) / sqrt (epsilon s) * sqrt (2 * INR (multipole s) + 1).
(** The defaults (39-58). *)
Definition lofar : setup := Setup 1500 (Fun_ (fun nu => 526 * (/ (nu / 150)) ^ 2)) 48 (Fun_ (fun nu => (140 + 60 * Rpower (nu / 300) (- (255 / 100))) * 1000)) 10 1 0.
