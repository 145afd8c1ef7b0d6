(** Python's binding of call arguments to parameters, and the functions of the library whose calls do not
    fit the callee. What a callee or an earlier statement computes is an argument. *)
From Coq Require Import String List ZArith.
Import ListNotations.
Local Open Scope string_scope.

(** * Binding (Python reference, "Calls"), without *args and **kwargs. *)
Record param (V : Type) := Param { pname : string; pdefault : option V }.
Arguments Param {V}. Arguments pname {V}. Arguments pdefault {V}.
(** Positional arguments fill the slots from the left. *)
Fixpoint fill_positional {V} (ps : list (param V)) (args : list V) : option (list (option V)) :=
  match ps, args with
  | [], [] => Some []
  | [], _ :: _ => None
  | _ :: ps', [] => match fill_positional ps' [] with Some r => Some (None :: r) | None => None end
  | _ :: ps', a :: args' => match fill_positional ps' args' with Some r => Some (Some a :: r) | None => None end
  end.
(** A keyword fills the slot of its name, which must exist and be empty. *)
Fixpoint fill_keyword {V} (ps : list (param V)) (slots : list (option V)) (k : string) (v : V) : option (list (option V)) :=
  match ps, slots with
  | p :: ps', s :: slots' =>
      if String.eqb (pname p) k then match s with None => Some (Some v :: slots') | Some _ => None end
      else match fill_keyword ps' slots' k v with Some r => Some (s :: r) | None => None end
  | _, _ => None
  end.
Fixpoint fill_keywords {V} (ps : list (param V)) (slots : list (option V)) (kws : list (string * V)) : option (list (option V)) :=
  match kws with
  | [] => Some slots
  | (k, v) :: rest => match fill_keyword ps slots k v with Some s => fill_keywords ps s rest | None => None end
  end.
(** Empty slots take the default, which must exist. *)
Fixpoint fill_defaults {V} (ps : list (param V)) (slots : list (option V)) : option (list V) :=
  match ps, slots with
  | p :: ps', s :: slots' =>
      match (match s with Some v => Some v | None => pdefault p end), fill_defaults ps' slots' with
      | Some v, Some r => Some (v :: r)
      | _, _ => None
      end
  | _, _ => Some []
  end.
(** [None] is a TypeError. *)
Definition bind {V} (ps : list (param V)) (args : list V) (kws : list (string * V)) : option (list V) :=
  match fill_positional ps args with
  | Some s => match fill_keywords ps s kws with Some s' => fill_defaults ps s' | None => None end
  | None => None
  end.

(** * Signatures of the callees *)
Inductive pv := PNone | PBool (b : bool) | PInt (z : Z) | PFloat (text : string) | PStr (s : string) | PObj (n : nat).
Definition required (s : string) : param pv := Param s None.
Definition optional (s : string) (d : pv) : param pv := Param s (Some d).
(** power_spectrum.py:481 *)
Definition get_mu_params : list (param pv) := map required ["k_comp"; "k"; "los_axis"; "absolute_mus"].
(** lightcone.py:431-432 *)
Definition get_interp_slice_params : list (param pv) :=
  (map required ["data_high"; "data_low"; "z_bracket_high"; "z_bracket_low"; "z"; "comoving_pos_idx"; "los_axis"] ++ [optional "interpolation" (PStr "linear")])%list.
(** radio_telescope_noise.py:577 *)
Definition get_uv_map_params : list (param pv) :=
  [required "ncells"; required "z"; optional "subarray_type" (PStr "AA4"); optional "total_int_time" (PFloat "6."); optional "int_time" (PFloat "10.");
   optional "boxsize" PNone; optional "declination" (PFloat "-30."); optional "include_mirror_baselines" (PBool true); optional "verbose" (PBool true); optional "max_baseline" PNone].

(** * Callers *)
Inductive outcome (A : Type) := Returned (a : A) | Raised (exc : string).
Arguments Returned {A}. Arguments Raised {A}.
Definition call {V A} (ps : list (param V)) (args : list V) (kws : list (string * V)) (body : list V -> outcome A) : outcome A :=
  match bind ps args kws with Some env => body env | None => Raised "TypeError" end.
(** A statement that may raise, before the one of interest. *)
Definition after {A} (earlier : option string) (rest : outcome A) : outcome A := match earlier with Some e => Raised e | None => rest end.

(** [power_spectrum_multipoles] (power_legendre.py:4-97) up to line 47. [spectrum]: lines 39-46. *)
Definition power_spectrum_multipoles {A} (ndim : nat) (los_axis : Z) (spectrum : option string) (k_comp k : pv) (get_mu rest : list pv -> outcome A) : outcome A :=
  if ((0 <=? los_axis) && (los_axis <=? Z.of_nat ndim))%Z%bool then
    after spectrum (match call get_mu_params [k_comp; k; PInt los_axis] [] get_mu with Returned mu => rest [] | Raised e => Raised e end)
  else Raised "AssertionError".

(** [freq_box] (deprecated.py:20-121): [setup] is lines 60-70, [output_z] the redshifts left, [reads z] the
    reading of the files of a slice (88-101). *)
Fixpoint freq_box_loop {A} (reads : pv -> option string) (slice_args : pv -> list pv) (interp : list pv -> outcome A) (finish : list A -> outcome A) (done : list A) (zs : list pv) : outcome A :=
  match zs with
  | [] => finish done
  | z :: rest =>
      after (reads z) (match call get_interp_slice_params (slice_args z) [] interp with
                       | Returned a => freq_box_loop reads slice_args interp finish (a :: done) rest
                       | Raised e => Raised e
                       end)
  end.
Definition freq_box {A} (setup : option string) (output_z : list pv) (reads : pv -> option string) (data : pv -> pv) (brackets : pv -> pv * pv) (pos : pv)
    (interp : list pv -> outcome A) (finish : list A -> outcome A) : outcome A :=
  after setup (match output_z with
               | [] => Raised "Exception"
               | _ => freq_box_loop reads (fun z => [data z; data z; fst (brackets z); snd (brackets z); z; pos]) interp finish [] output_z
               end).

(** [convolve_uvmap] (smoothing.py:528-549), the choice of the uv map: lines 534-543. *)
Definition convolve_uvmap_map {A} (n z filename total_int_time int_time boxsize declination verbose : pv) (uv_map : option A) (get_uv_map : list pv -> outcome A) : outcome A :=
  match uv_map with
  | Some m => Returned m
  | None => call get_uv_map_params [n; z]
      [("filename", filename); ("total_int_time", total_int_time); ("int_time", int_time); ("boxsize", boxsize); ("declination", declination); ("verbose", verbose)] get_uv_map
  end.
(** [convolve_uvmap_coeval] (smoothing.py:553-595): line 577 takes [array.shape] of the function
    [numpy.array] (imported at line 15); functions have no [shape]. *)
Definition convolve_uvmap_coeval_map {A} (uv_map : option A) : outcome A :=
  match uv_map with Some m => Returned m | None => Raised "AttributeError" end.

(** [halo3d] (Friends_of_Friends.py:64-79): [reduce] is not a name in Python 3, and is used once per cell. *)
Definition halo3d {A} (n1 n2 n3 : nat) (zeros : A) : outcome A :=
  if Nat.eqb (n1 * n2 * n3) 0 then Returned zeros else Raised "NameError".

(** [horizon_wedge_equation] (power_spect_fast.py:334-347): the call returns a function, which looks up
    [smoothing.hubble_parameter]; smoothing.py defines no such name. *)
Definition smoothing_names : list string :=
  ["gauss_kernel"; "gauss_kernel_3d"; "tophat_kernel"; "tophat_kernel_3d"; "lanczos_kernel"; "smooth_gauss"; "smooth_tophat"; "smooth_lanczos"; "smooth_with_kernel";
   "get_beam_w"; "interpolate3d"; "interpolate2d"; "smooth_lightcone"; "smooth_coeval"; "smooth_coeval_tophat"; "smooth_coeval_gauss"; "smooth_lightcone_tophat";
   "smooth_lightcone_gauss"; "smooth_lightcone_uv_threshold"; "remove_baselines_from_uvmap"; "convolve_uvmap"; "convolve_uvmap_coeval"; "smooth_line";
   "np"; "const"; "conv"; "cm"; "get_uv_map"; "ndimage"; "scipy"; "signal"; "fft"; "ifft"; "fftn"; "ifftn"; "rfftn"; "irfftn"; "ceil"; "floor"; "array"; "asarray"; "roll"; "find_idx"; "fftconvolve"; "tqdm"; "u"].
Definition attribute {A} (names : list string) (s : string) (use : outcome A) : outcome A :=
  if existsb (String.eqb s) names then use else Raised "AttributeError".
Definition horizon_wedge_equation {A} (formula : pv -> A) : outcome (pv -> outcome A) :=
  Returned (fun kper => attribute smoothing_names "hubble_parameter" (Returned (formula kper))).
