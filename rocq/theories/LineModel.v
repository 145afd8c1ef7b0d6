(** Line intensity maps from haloes (line_intensity.py). Exact reals; masses in Msun and positive, positions and boxes in Mpc. *)
From Coq Require Import String List ZArith Reals Bool.
From Verif Require Import HaloGridModel WindowModel.
Import ListNotations.
Local Open Scope R_scope.

(** An argument is a plain array or an astropy quantity, the latter already converted to Msun or Mpc. *)
Inductive arg (A : Type) := Plain (v : A) | Quantity (v : A).
Arguments Plain {A}. Arguments Quantity {A}.
Definition content {A} (a : arg A) : A := match a with Plain v | Quantity v => v end.
(** [Squared]: positions that were already lengths are multiplied by Mpc once more; what the binning makes of Mpc^2 is up to the libraries. *)
Inductive outcome := Map (g : cell -> R) | Raises | Squared.
(** The call of [halo_list_to_grid]: scipy refuses an empty list of haloes and lists of different lengths. *)
Definition gridded (ps : list point) (vs : list R) (box : R) (n : nat) : outcome :=
  match ps with [] => Raises | _ => if Nat.eqb (length ps) (length vs) then Map (halo_list_to_grid (combine ps vs) box n) else Raises end.
Record cosmology := { Ob : R; Om : R; hlittle : R }.
Definition known (s : string) (names : list string) : bool := existsb (String.eqb (lower s)) names.

(** The recipe of Padmanabhan 2017 (64-76), velocities in km/s. *)
Record hi_par := { Y_p : R; alpha : R; v_c0 : R; beta : R }.
Definition hi_default : hi_par := {| Y_p := 249 / 1000; alpha := 9 / 10; v_c0 := Rpower 10 (156 / 100); beta := - (58 / 100) |}.
Definition fHc (p : hi_par) (c : cosmology) : R := (1 - Y_p p) * Ob c / Om c.
Definition v_c (c : cosmology) (Mh z : R) : R := 96.6 * Rpower (178 * Om c / 54.4) (1 / 6) * Rpower ((1 + z) / 3.3) (1 / 2) * Rpower (Mh / 10 ^ 11) (1 / 3).
Definition M_hi (p : hi_par) (c : cosmology) (z Mh : R) : R := alpha p * fHc p c * Mh * Rpower (Mh / hlittle c / 10 ^ 11) (beta p) * exp (- (v_c0 p / v_c c Mh z) ^ 3).
(** [M_HI_on_grid] (10-78). Whether positions have units is decided by the masses (53). *)
Definition M_HI_on_grid (recipe : string) (p : hi_par) (c : cosmology) (z : R) (mass : arg (list R)) (pos : arg (list point)) (box : R) (n : nat) : outcome :=
  if known recipe ["padmanabhan2017"%string] then
    match mass, pos with
    | Quantity _, Plain _ => Raises
    | Plain _, Quantity _ => Squared
    | _, _ => gridded (content pos) (map (M_hi p c z) (content mass)) box n
    end
  else Raises.

(** The star formation rate (137-147) in Msun/yr. *)
Record sfr_par := { SFR0 : R; a_SFR : R; b_SFR : R; d_SFR : R; e_SFR : R; c1 : R; c2 : R; c3 : R }.
Definition sfr_default : sfr_par := {| SFR0 := 2.25 / 10 ^ 26; a_SFR := 2.59; b_SFR := - 0.62; d_SFR := 0.40; e_SFR := - 2.25; c1 := 8 * 10 ^ 8; c2 := 7 * 10 ^ 9; c3 := 10 ^ 11 |}.
Definition sfr (p : sfr_par) (z Mh : R) : R :=
  SFR0 p * (1 + (z - 7) * 0.075) * Rpower Mh (a_SFR p) * Rpower (1 + Mh / c1 p) (b_SFR p) * Rpower (1 + Mh / c2 p) (d_SFR p) * Rpower (1 + Mh / c3 p) (e_SFR p).
(** The argument SFR: absent, a name, a function of mass and redshift, or a dictionary (documented, but then called). *)
Inductive sfr_arg := SfrNone | SfrName (s : string) | SfrFun (f : R -> R -> R) | SfrDict.
Definition sfr_of (p : sfr_par) (a : sfr_arg) : option (R -> R -> R) :=
  match a with
  | SfrNone => Some (fun Mh z => sfr p z Mh)
  | SfrName s => if known s ["silva2013"; "silva2015"]%string then Some (fun Mh z => sfr p z Mh) else None
  | SfrFun f => Some f
  | SfrDict => None
  end.
(** The coefficients (149-160), unless given. *)
Definition coefficients (recipe : string) : option (R * R) :=
  if known recipe ["silva2015m1"]%string then Some (0.8475, 7.2203)
  else if known recipe ["silva2015m2"]%string then Some (1, 6.9647)
  else if known recipe ["silva2015m3"]%string then Some (0.8727, 6.7250)
  else if known recipe ["silva2015m4"]%string then Some (0.9231, 6.5234)
  else None.
(** [10**(a*log10(SFR)+b)] (166) for a positive rate. *)
Definition luminosity (a b rate : R) : R := Rpower 10 (a * (ln rate / ln 10) + b).
(** [L_CII_on_grid] (80-168); an unknown recipe fails the assertion (112). *)
Definition L_CII_on_grid (recipe : string) (a_LCII b_LCII : option R) (p : sfr_par) (SFR : sfr_arg) (z : R) (mass : arg (list R)) (pos : arg (list point)) (box : R) (n : nat) : outcome :=
  match coefficients recipe, sfr_of p SFR with
  | Some (a0, b0), Some f =>
      let a := match a_LCII with Some v => v | None => a0 end in let b := match b_LCII with Some v => v | None => b0 end in
      gridded (content pos) (map (fun Mh => luminosity a b (f Mh z)) (content mass)) box n
  | _, _ => Raises
  end.
