(** Distances and ages as integrals: cosmo.py:78-190. *)
From Coq Require Import List ZArith Reals Bool.
From Verif Require Import ConstModel UnitsModel.
Import ListNotations.
Local Open Scope R_scope.

(** [_ldist] (78-97) for a number (what quad passes); at a zero denominator numpy gives inf, written here as 1/sqrt 0. *)
Definition ldist (c : const) (z : R) : R := if Rle_dec 0 (ldist_denom c z) then 1 / sqrt (ldist_denom c z) else 0.
(** [Ez_func] in [z_to_cdist] (143). *)
Definition inv_E (c : const) (x : R) : R := 1 / sqrt (Omega0 c * (1 + x) ^ 3 + lam c).
(** [luminosity_distance] (100-130) for one redshift; [quad f z] is scipy's integral of f from 0 to z. *)
Definition luminosity_distance (c : const) (quad : (R -> R) -> R -> R) (z k : R) : R :=
  if Req_EM_T (lam c) 0 then
    3 * 10 ^ 5 * z / H0 c * (1 + z * (1 - q0 c) / (sqrt (1 + 2 * q0 c * z) + 1 + q0 c * z))
  else
    let d := if Rle_dec z 0 then 0 else quad (ldist c) z in
    let d := if Rlt_dec 0 k then sinh (sqrt k * d) / sqrt k else if Rlt_dec k 0 then sin (sqrt (- k) * d) / sqrt (- k) else d in
    3 * 10 ^ 5 * (1 + z) * d / H0 c.
(** [z_to_cdist] (132-146) for a floating-point redshift. *)
Definition cdist (c : const) (quad : (R -> R) -> R -> R) (z : R) : R := 3 * 10 ^ 5 / H0 c * quad (inv_E c) z.
(** [cdist_to_z] (149-174): [guess] is the interpolation of the precalculated table, [interp] the cubic interpolation through a table.
    Redshifts of the table strictly within 1 of the guesses for the smallest and largest distance are kept. *)
Definition kept (guess : R -> R) (dmin dmax : R) (table : list R) : list R :=
  filter (fun z => if Rlt_dec z (guess dmax + 1) then true else false) (filter (fun z => if Rlt_dec (guess dmin - 1) z then true else false) table).
Definition cdist_to_z (D : R -> R) (guess : R -> R) (interp : list (R * R) -> R -> R) (table : list R) (dmin dmax : R) (d : number) : number :=
  store_like d (interp (map (fun z => (D z, z)) (kept guess dmin dmax table)) (val d)).
