(** Model of temperature.py: [mean_dt], [_dt], [_dt_full], [calc_dt*]. *)
From Coq Require Import List Arith ZArith Reals Bool.
Import ListNotations.
Local Open Scope R_scope.

Record cosmo := Cosmo { Om : R; lam : R; h : R; meandt : R; rho_crit_0 : R; OmegaB : R; Tcmb0 : R }.
(** [mean_dt] (lines 207-212). *)
Definition Ez2 (c : cosmo) (z : R) : R := Om c * (1 + z) ^ 3 + lam c + (1 - Om c - lam c) * (1 + z) ^ 2.
Definition mean_dt (c : cosmo) (z : R) : R := meandt c / h c * (1 + z) ^ 2 / sqrt (Ez2 c z).

(** A field is the list of its cells (density, ionised fraction, redshift of the cell). *)
Definition cellv : Type := (R * R)%type.
(** [rho_mean = rho_crit_0*OmegaB if rho.min()>=0 else 1] (line 217). *)
Definition no_negative (rho : list R) : bool := forallb (fun r => if Rle_dec 0 r then true else false) rho.
Definition rho_mean (c : cosmo) (rho : list R) : R := if no_negative rho then rho_crit_0 c * OmegaB c else 1.
(** [_dt] (lines 219-222) for one redshift. *)
Definition dt_cells (c : cosmo) (z : R) (cells : list cellv) : list R :=
  let m := rho_mean c (map fst cells) in
  map (fun p => mean_dt c z * (1 - snd p) * fst p / m) cells.

(** * Light cones (lines 143-150): [_dt] with one redshift per position along [los_axis].
    NumPy broadcasts the one-dimensional array of redshifts along the LAST axis. *)
Definition box : Type := nat -> nat -> nat -> R.
Definition axis_size (s : nat * nat * nat) (a : nat) : option nat :=
  match s, a with (x, _, _), 0%nat => Some x | (_, y, _), 1%nat => Some y | (_, _, z), 2%nat => Some z | _, _ => None end.
(** [zs] has one redshift per position along the axis. [nonneg]: the branch of line 217.
    [None]: the shapes do not match. When the last axis has size 1 it is stretched to the
    number of redshifts. *)
Definition dt_lightcone (c : cosmo) (nonneg : bool) (s : nat * nat * nat) (los : nat) (zs : list R) (rho xi : box)
  : option (nat * nat * nat * box) :=
  match s, axis_size s los with
  | (nx, ny, nz), Some n =>
      let m := if nonneg then rho_crit_0 c * OmegaB c else 1 in
      let cell i j kz kb := mean_dt c (nth kz zs 0) * (1 - xi i j kb) * rho i j kb / m in
      if Nat.eqb n nz then Some (nx, ny, nz, fun i j k => cell i j k k)
      else if Nat.eqb n 1 then Some (nx, ny, nz, fun i j k => cell i j 0%nat k)
      else if Nat.eqb nz 1 then Some (nx, ny, n, fun i j k => cell i j k 0%nat)
      else None
  | _, None => None
  end.

(** The redshifts of the slices (lines 143-146 and 189-192): [cell_size =
    conv.LB/xfrac.shape[(los_axis+1)%3]], [cdist = arange(shape[los_axis])*cell_size +
    z_to_cdist(lowest_z)], [z = cdist_to_z(cdist)]. The distance functions of cosmo.py are
    parameters. Python's indices from -3 count from the end; [None]: IndexError. *)
Definition los_index (los : Z) : option nat :=
  if (Z.leb 0 los && Z.ltb los 3)%bool then Some (Z.to_nat los)
  else if (Z.leb (-3) los && Z.ltb los 0)%bool then Some (Z.to_nat (los + 3)) else None.
Definition shape_at (s : nat * nat * nat) (a : nat) : nat :=
  match s with (x, y, z) => match a with O => x | S O => y | _ => z end end.
Definition lightcone_redshifts (z_to_cdist cdist_to_z : R -> R) (LB : R) (s : nat * nat * nat) (los : Z) (lowest_z : R) : option (list R) :=
  match los_index los with
  | None => None
  | Some a =>
      let cell := LB / INR (shape_at s (Z.to_nat ((los + 1) mod 3))) in
      Some (map (fun k => cdist_to_z (INR k * cell + z_to_cdist lowest_z)) (seq 0 (shape_at s a)))
  end.

(** * [_dt_full] (lines 224-259) for one cell *)
(** The values an IEEE division by zero can give. *)
Inductive ereal := Fin (x : R) | PInf | NaN.
Definition T_HII : R := 20000.
Definition T_min (c : cosmo) (z : R) : R := Tcmb0 c * 201 * (1 + z) ^ 2 / 201 ^ 2.
(** [(Ts-xi*T_HII)/(1.-xi)], then values below [T_min] are replaced; minus infinity is
    below it, NaN is not. *)
Definition Ts_new (c : cosmo) (z : R) (correct : bool) (Ts xi : R) : ereal :=
  if correct then
    if Req_EM_T xi 1 then
      if Rlt_dec Ts T_HII then Fin (T_min c z) else if Req_EM_T Ts T_HII then NaN else PInf
    else let t := (Ts - xi * T_HII) / (1 - xi) in Fin (if Rlt_dec t (T_min c z) then T_min c z else t)
  else Fin Ts.
(** [((Ts_new-Tcmb)/Ts_new)*Cdt*(1.0-xi)*rho/rho_mean]: infinity over infinity is NaN. *)
Definition dt_full (c : cosmo) (z : R) (correct : bool) (rho xi Ts : R) : ereal :=
  match Ts_new c z correct Ts xi with
  | Fin t => Fin ((t - Tcmb0 c * (1 + z)) / t * mean_dt c z * (1 - xi) * rho / (rho_crit_0 c * OmegaB c))
  | _ => NaN
  end.
(** [calc_dt_full_lightcone]: [z = np.mean(z)] (line 225). *)
Definition mean_z (zs : list R) : R := fold_right Rplus 0 zs / INR (length zs).
Definition dt_full_lightcone (c : cosmo) (zs : list R) (correct : bool) (rho xi Ts : box) : nat -> nat -> nat -> ereal :=
  fun i j k => dt_full c (mean_z zs) correct (rho i j k) (xi i j k) (Ts i j k).
