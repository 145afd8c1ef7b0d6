(** Model of the coeval cubes of usefuls.py:23-50, 97-133, of read_files.py:11-99, of [calc_dt_halo] (temperature.py:13-49) and of the velocities of
    vel_file.py:112-132 and pv_mpm.py:134-157. *)
From Coq Require Import List Arith ZArith QArith Qreals Reals Bool.
From Verif Require Import RLib CoevalModel TempModel.
From Verif Require NamesModel ConstModel.
Import ListNotations.
Local Open Scope R_scope.

(** [get_zs_list] (usefuls.py:23-36): [names] is what glob returns; None stands for the exception of a name without a valid number. *)
Definition get_zs_list (names : list NamesModel.str) : option (list R) :=
  match NamesModel.get_file_redshifts NamesModel.ZNone (NamesModel.Vector names) with Some (NamesModel.Arr l) => Some (NamesModel.sort l) | _ => None end.

Definition mean (l : list R) : R := rsum l / INR (length l).
(** [calc_dt(xfrac, dens, z)] (temperature.py:52-80) on two cubes; cubes of different sizes do not broadcast (a cube of one cell is left out). *)
Definition calc_dt (c : cosmo) (z : R) (xfrac dens : list R) : option (list R) :=
  if (length xfrac =? length dens)%nat then Some (dt_cells c z (combine dens xfrac)) else None.
(** [coeval_21cm] (usefuls.py:39-50). [linear]: the interpolation is 'linear', otherwise ValueError. *)
Definition coeval_21cm (c : cosmo) (xzs : list Q) (xcubes : list cube) (dzs : list Q) (dcubes : list cube) (z : Q) (linear mean_subtract : bool) : option (list R) :=
  if linear then
    match coeval_xfrac xzs xcubes z, coeval_xfrac dzs dcubes z with
    | Some x, Some d => option_map (fun dt => if mean_subtract then map (fun v => v - mean dt) dt else dt) (calc_dt c (Q2R z) (map Q2R x) (map Q2R d))
    | _, _ => None
    end
  else None.
(** [coeval_overdens] (usefuls.py:97-105): None for a mean of zero (the result is infinite or NaN) and for an exception. *)
Definition overdens (dens : list R) : option (list R) := if Req_EM_T (mean dens) 0 then None else Some (map (fun d => d / mean dens - 1) dens).
Definition coeval_overdens (dzs : list Q) (dcubes : list cube) (z : Q) (linear : bool) : option (list R) :=
  if linear then match coeval_xfrac dzs dcubes z with Some d => overdens (map Q2R d) | None => None end else None.

(** [coeval_vel] (usefuls.py:107-133). [get_vel] opens the density file and then looks up [VelocityFile] on its own first parameter, the name of the velocity
    file, a string. [opens]: the density file can be read. What is raised. *)
Inductive raised := ValueError | TypeError | IndexError | FileError | AttributeError | UnboundLocalError | AssertionError.
Inductive outcome (A : Type) := Returned (a : A) | Raised (e : raised).
Arguments Returned {A}. Arguments Raised {A}.
Definition get_vel (opens : nat -> bool) (nvel ndens i : nat) : outcome (list R) :=
  if (i <? nvel)%nat then if (i <? ndens)%nat then if opens i then Raised AttributeError else Raised FileError else Raised IndexError else Raised IndexError.
Definition bind {A B} (x : outcome A) (f : A -> outcome B) : outcome B := match x with Returned a => f a | Raised e => Raised e end.
Definition coeval_vel (opens : nat -> bool) (vzs : list Q) (ndens : nat) (z : Q) (linear : bool) : outcome (list R) :=
  if linear then
    if present vzs z then Raised TypeError
    else match below vzs z, above vzs z with
         | _ :: _, _ :: _ =>
             bind (get_vel opens (length vzs) ndens (low_index vzs z)) (fun vl => bind (get_vel opens (length vzs) ndens (high_index vzs z)) (fun vh =>
             let zl := Q2R (nth (low_index vzs z) (below vzs z) 0%Q) in let zh := Q2R (nth (high_index vzs z) (above vzs z) 0%Q) in
             Returned (map (fun p => snd p + (fst p - snd p) * (Q2R z - zh) / (zl - zh)) (combine vl vh))))
         | _, _ => Raised ValueError
         end
  else Raised ValueError.

(** [coeval_21cm_c2ray] (read_files.py:94-99): slices along the third axis, one after the other, in place. *)
Definition slice_mean (a b : nat) (dt : box) (i : nat) : R := rsum (map (fun p => dt (fst p) (snd p) i) (list_prod (seq 0 a) (seq 0 b))) / INR (a * b).
Definition subtract_slice (a b : nat) (dt : box) (i : nat) : box := let m := slice_mean a b dt i in fun x y k => if (k =? i)%nat then dt x y k - m else dt x y k.
Definition subtract_slices (a b n : nat) (dt : box) : box := fold_left (subtract_slice a b) (seq 0 n) dt.

(** [round] (halves to even) and [read_21cmfast_files] (read_files.py:25-35): the size to the power 0.333333, reshaped in C order; None when reshape raises. *)
Definition pyround (x : R) : Z := let k := Int_part (x + 1 / 2) in if Req_EM_T (x + 1 / 2) (IZR k) then if Z.even k then k else (k - 1)%Z else k.
Definition dim (size : nat) : nat := if (size =? 0)%nat then 0%nat else Z.to_nat (pyround (Rpower (INR size) (333333 / 1000000))).
Definition read_21cmfast {A} (d : A) (data : list A) : option (nat * (nat -> nat -> nat -> A)) :=
  let n := dim (length data) in if (n ^ 3 =? length data)%nat then Some (n, fun i j k => nth ((i * n + j) * n + k) data d) else None.

(** [read_c2ray_files] (read_files.py:37-63). The parameter [density_file] hides the module of that name; [vel_file] is assigned in the function and so is local.
    [xi], [dens]: what the readers give. *)
Inductive ftype := Xfrac | Dens | Vel | Other.
Inductive darg := DNone | DString | DModule.
Definition read_c2ray {A} (t : ftype) (density_file : darg) (xi dens : outcome A) : outcome A :=
  match t with
  | Xfrac => xi
  | Dens => dens
  | Vel => match density_file with DNone => Raised AssertionError | DString => Raised AttributeError | DModule => Raised TypeError end
  | Other => Raised AssertionError
  end.
(** [read_grizzly_files] (read_files.py:65-73). *)
Definition read_grizzly {A} (xi : outcome A) : outcome A := xi.

(** [calc_dt_halo] (temperature.py:13-49). [Ob], [rhoc] belong to the cosmology passed in, [rhoc] in solar masses per cubic Mpc; the prefactor is that of the
    package's own cosmology [c]. [n] is the first dimension of the array. None: division by zero ([1-Y_p], an empty array). *)
Definition calc_dt_halo (c : cosmo) (mp Ob rhoc : R) (n : nat) (mhalo : list R) (box_dim z Yp : R) : option (list R) :=
  if Req_EM_T (1 - Yp) 0 then None
  else if (n =? 0)%nat then None
  else
    let mu := 1 / (1 - Yp) in let V := (box_dim / INR n) ^ 3 in let nH := Ob * rhoc / mu / mp in
    Some (map (fun m => mean_dt c z * (m / V / mu / mp / nH)) mhalo).

(** [kmsrho8] (vel_file.py:77) and [get_kms_from_density] (vel_file.py:112-132): one component of one cell; the redshift is the file's. *)
Definition kmsrho8 (v : ConstModel.conv) (z raw : R) : R := raw * ConstModel.velconvert v z.
Definition kms (v : ConstModel.conv) (z raw density : R) : R := kmsrho8 v z raw / (density / 8).
