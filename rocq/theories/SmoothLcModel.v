(** [smooth_lightcone] (smoothing.py:333-375) with [smooth_lightcone_tophat] (443-462) and [smooth_lightcone_gauss] (464-482) in it. A light cone is
    the list of its slices, each with the same number of cells on both sides. Redshifts and widths are rational numbers; the cosmology
    functions are arguments. A baseline with a unit is not modelled. *)
From Coq Require Import List Arith ZArith QArith Qround Qreals Reals Bool.
From Verif Require Import PyBase QLib RLib FourierModel LosModel SmoothModel.
Import ListNotations.
Local Open Scope nat_scope.

Definition slice : Type := nat -> nat -> R.
(** Lines 457-460: the slices averaged for output slice [i]. [None]: an exception. *)
Definition window (redshifts dz : list Q) (i : nat) : option (nat * nat) :=
  let z := nth i redshifts 0%Q in let d := nth i dz 0%Q in
  match find_one redshifts (z - d / 2)%Q, find_one redshifts (z + d / 2)%Q with
  | Some lo, Some hi => Some (Z.to_nat (Qceiling lo), Z.to_nat (Qceiling hi + 1))
  | _, _ => None
  end.
(** [np.mean(..., axis=2)] (461); [None]: no slices, so NaN. *)
Definition mean_slice (l : list slice) : option slice :=
  match l with [] => None | _ => Some (fun a b => (rsum (map (fun s => s a b) l) / INR (length l))%R) end.
Definition lightcone_tophat (lc : list slice) (redshifts dz : list Q) : option (list (option slice)) :=
  all_some (map (fun i => option_map (fun w => mean_slice (py_slice lc (fst w) (snd w))) (window redshifts dz i)) (seq 0 (length lc))).
(** [smooth_gauss] (166-184) of a slice of [N] by [N] cells; of NaN it is NaN. *)
Definition gauss_slice (N : nat) (s : option slice) (fwhm : R) : option slice :=
  match s with
  | None => None
  | Some s => match smooth_gauss N N (as_array s) 1 (Some fwhm) with Some (_, o) => Some (fun a b => o [a; b]) | None => None end
  end.
(** [assert lightcone.shape[nu_axis] == len(fwhm)] (476). *)
Definition lightcone_gauss (N : nat) (lc : list (option slice)) (fwhm : list R) : option (list (option slice)) :=
  if Nat.eqb (length lc) (length fwhm) then Some (map (fun p => gauss_slice N (fst p) (snd p)) (combine lc fwhm)) else None.

(** What may be passed as [z_array]: a number has no first dimension ([z_array.shape[0]], 351). *)
Inductive z_arg := Number (z : Q) | Array (l : list Q).
Section Cosmology.
  Context (cdist hubble cdist_to_z : Q -> Q) (c LB : Q).
  (** Lines 367-369 for one redshift. *)
  Definition ang_res (max_baseline z : Q) : Q := ((1 + z) * (21 # 100000) / max_baseline * cdist z)%Q.
  Definition out_dz (max_baseline ratio z : Q) : Q := (ratio * ang_res max_baseline z / c * hubble z)%Q.
  (** Lines 350-357: arrays of another length broadcast only when they have one entry (with a light cone of one
      slice any length does, and the assertion at 476 fails later). *)
  Definition input_redshifts (N n : nat) (box : Q) (z : z_arg) : option (list Q) :=
    match z with
    | Number _ => None
    | Array l =>
        if Nat.eqb (length l) n then Some l
        else match l with
             | [z0] => Some (map (fun k => cdist_to_z (cdist z0 + inject_Z (Z.of_nat k) * (box / inject_Z (Z.of_nat N)))%Q) (seq 0 n))
             | _ => None
             end
    end.
  (** Lines 367-371. *)
  Definition smooth_ascending (N : nat) (box max_baseline ratio : Q) (lc : list slice) (zs : list Q) : option (list (option slice)) :=
    match lightcone_tophat lc zs (map (out_dz max_baseline ratio) zs) with
    | None => None
    | Some t => lightcone_gauss N t (map (fun z => Q2R (ang_res max_baseline z * inject_Z (Z.of_nat N) / box)) zs)
    end.
  (** The whole function. [box]: zero or nothing given counts as the box of the simulation (350). A light cone with one slice has no second
      redshift (362). *)
  Definition smooth_lightcone (N : nat) (lc : list slice) (z : z_arg) (box max_baseline ratio : Q) : option (list (option slice) * list Q) :=
    let box := if Qeq_bool box 0 then LB else box in
    match input_redshifts N (length lc) box z with
    | Some ((z0 :: z1 :: _) as zs) =>
        if Qltb (z1 - z0) 0
        then option_map (fun o => (rev o, rev (rev zs))) (smooth_ascending N box max_baseline ratio (rev lc) (rev zs))
        else option_map (fun o => (o, zs)) (smooth_ascending N box max_baseline ratio lc zs)
    | _ => None
    end.
End Cosmology.
