(** Thermal noise of the interferometer: [get_SEFD], [sigma_noise_radio] (radio_telescope_sensitivity.py),
    [signal_window], [apply_uv_response_noise], [noise_map], the baseline cut of [get_uv_map] and the slice
    bandwidths of [noise_lightcone] (radio_telescope_noise.py), over exact reals. *)
From Coq Require Import String List Arith Reals Bool.
From Verif Require Import RLib KGridModel FourierModel DftLib UnitsModel.
Import ListNotations.
Local Open Scope R_scope.

(** * System equivalent flux density (radio_telescope_sensitivity.py:10-96) *)
(** The arguments [T_sys] and [ep_aperture]: None, a number, or a function of the frequency. *)
Inductive quantity : Type := Default | Number (r : R) | Function (f : R -> R).
(** A numpy operand: a float, or an array. *)
Inductive operand : Type := Sc (r : R) | Ar (l : list R).
Definition binop (f : R -> R -> R) (a b : operand) : operand :=
  match a, b with
  | Sc x, Sc y => Sc (f x y)
  | Sc x, Ar l => Ar (map (f x) l)
  | Ar l, Sc y => Ar (map (fun x => f x y) l)
  | Ar l, Ar m => Ar (map (fun p => f (fst p) (snd p)) (combine l m))
  end.
(** lines 67-74 *)
Definition T_default (nu : R) : R := 60 * Rpower (300 / nu) (255 / 100) + 100.
Definition T_sys_val (q : quantity) (nus : list R) : operand :=
  match q with Default => Ar (map T_default nus) | Number r => Sc r | Function f => Ar (map f nus) end.
(** lines 79-88 *)
Definition ep_default (nu : R) : R := if Rlt_dec 110 nu then (110 / nu) ^ 2 else 1.
Definition ep_val (q : quantity) (nus : list R) : operand :=
  match q with Default => Ar (map ep_default nus) | Number r => Sc r | Function f => Ar (map f nus) end.
Inductive sefd_result : Type := TypeErr | ValueErr | Scalar (r : R) | Array (l : list R).
(** lines 56-96; [nus] is [np.atleast_1d(nu_obs)]; [sefd_data] is given by its interpolating function
    (or by its absence), and [nu_data] by whether it is given. *)
Definition get_SEFD (nus : list R) (T_sys : quantity) (sefd_data : option (R -> R)) (nu_data : bool) (D_station : R) (ep : quantity) : sefd_result :=
  match sefd_data with
  | Some f => if nu_data then (match nus with [nu] => Scalar (f nu) | _ => Array (map f nus) end) else ValueErr
  | None =>
      let A_eff := binop Rmult (ep_val ep nus) (Sc (PI * (D_station / 2) ^ 2)) in
      let sefd := binop (fun t a => 2 * KB_SI * t / a / janskytowatt) (T_sys_val T_sys nus) A_eff in
      if Nat.eqb (length nus) 1
      then match sefd with Sc _ => TypeErr | Ar (x :: _) => Scalar x | Ar [] => TypeErr end
      else match sefd with Sc r => Scalar r | Ar l => Array l end
  end.

(** * Rms of the noise (radio_telescope_sensitivity.py:140-163); [sefd] in Jy, bandwidth in MHz,
      [int_time] in seconds, [obs_time] in hours *)
Definition rms_noise (sefd depth_mhz int_time : R) : R := 10 ^ 6 * sefd / sqrt (2 * depth_mhz * 10 ^ 6 * int_time).
Definition sigma_image (sefd depth_mhz obs_time int_time N_ant : R) : R :=
  rms_noise sefd depth_mhz int_time / sqrt (N_ant * (N_ant - 1) / 2) / sqrt (3600 * obs_time / int_time).

(** * Taper: [signal_window(ncells, 'blackmanharris', ndim)] (radio_telescope_noise.py:48-76);
      [windows.blackmanharris] is scipy's general cosine window on [linspace(-pi, pi, M)], and [1] for M = 1 *)
Definition win_fac (n i : nat) : R := - PI + INR i * (2 * PI / INR (n - 1)).
Definition blackmanharris (n i : nat) : R :=
  if Nat.eqb n 1 then 1 else
  let f := win_fac n i in
  35875 / 100000 + 48829 / 100000 * cos f + 14128 / 100000 * cos (2 * f) + 1168 / 100000 * cos (3 * f).
Definition win_2d (n : nat) : array := fun a => blackmanharris n (nth 0 a 0%nat) * blackmanharris n (nth 1 a 0%nat).
(** [np.fft.fftshift(win_2d)] *)
Definition taper (n : nat) : array := fun a => win_2d n (shift_sources [n; n] a).

(** * [apply_uv_response_noise] with the default [uv_map_min] and no smoothing of the uv map
      (radio_telescope_noise.py:461-473) *)
Definition in_strings (x : string) (l : list string) : bool := existsb (String.eqb x) l.
Definition natural_names : list string := ["nat"; "natural"; "natural_weighting"]%string.
Definition uniform_names : list string := ["uni"; "uniform"; "uniform_weighting"]%string.
Definition uv_map_min : R := 1 / 100.
(** The factor on each cell of the drawn noise. *)
Definition uv_factor (natural : bool) (uv : array) (j : list nat) : R :=
  if Rlt_dec (uv j) uv_map_min then 0 else if natural then / sqrt (uv j) else 1.
(** Result and content of the caller's array afterwards; [None] is the UnboundLocalError for an unknown
    scheme. [weighting] is the lower-cased argument. The noise is its real and imaginary part. *)
Definition cplx : Type := (array * array)%type.
Definition scaled (f : list nat -> R) (x : cplx) : cplx := (fun j => fst x j * f j, fun j => snd x j * f j).
Definition apply_uv_response_noise (weighting : string) (uv : array) (noise : cplx) : option (cplx * cplx) :=
  if in_strings weighting natural_names then Some (scaled (uv_factor true uv) noise, noise)
  else if in_strings weighting uniform_names then let out := scaled (uv_factor false uv) noise in Some (out, out)
  else None.

(** * [noise_map] with a given uv map, [fft_wrap=False] (radio_telescope_noise.py:386-397).
      [g] holds the standard normal variates drawn: [np.random.normal(0, rms)] is [rms] times those. *)
Definition noise_map (n : nat) (sefd depth_mhz obs_time int_time : R) (weighting : string) (uv : array) (g : cplx) : option array :=
  let rms := rms_noise sefd depth_mhz int_time in
  match apply_uv_response_noise weighting uv (scaled (fun _ => rms) g) with
  | None => None
  | Some (four, _) =>
      let four' := scaled (taper n) four in
      Some (fun a => ifft_re [n; n] (fst four') (snd four') a * sqrt (int_time / 3600 / obs_time))
  end.

(** * The cut at the longest baseline (radio_telescope_noise.py:569-574, 612-623) *)
(** [max_baseline_to_max_k]: [cdist] is the comoving distance, [max_baseline] in km; 21 cm is 0.21e-3 km. *)
Definition max_baseline_to_max_k (z cdist max_baseline : R) : R := PI / ((1 + z) * (21 / 100000 / max_baseline) * cdist).
(** [np.linspace(-ncells/2, ncells/2, ncells)[i] * np.pi / boxsize] *)
Definition kk (n : nat) (boxsize : R) (i : nat) : R :=
  (- (INR n / 2) + INR i * (INR n / INR (n - 1))) * PI / boxsize.
(** [fftshift], zero where [ksq > kcut**2], [fftshift] again *)
Definition cut_uv_map (n : nat) (boxsize kcut : R) (uv : array) : array :=
  let shifted := fun a => uv (shift_sources [n; n] a) in
  let kept := fun a => if Rlt_dec (kcut ^ 2) (kk n boxsize (nth 1 a 0%nat) ^ 2 + kk n boxsize (nth 0 a 0%nat) ^ 2) then 0 else shifted a in
  fun a => kept (shift_sources [n; n] a).

(** * Bandwidth of slice [k] of [noise_lightcone] (radio_telescope_noise.py:842-847); [nus] are the
      frequencies of the redshifts. [zs[k-1]] wraps around for k = 0. *)
Definition slice_bandwidth (nus : list R) (k : nat) : R :=
  if Nat.ltb (k + 1) (length nus) then Rabs (nth (k + 1) nus 0 - nth k nus 0)
  else Rabs (nth k nus 0 - nth (match k with O => length nus - 1 | S k' => k' end) nus 0).

(** * Positional call of [noise_lightcone] by [noise_cube_lightcone] (radio_telescope_noise.py:762-766,
      768-770): the parameters in order, the arguments by name; Python refuses more positional arguments
      than parameters. *)
Definition noise_lightcone_params : list string :=
  ["ncells"; "zs"; "obs_time"; "subarray_type"; "boxsize"; "save_uvmap"; "total_int_time"; "int_time"; "declination";
   "uv_weighting"; "fft_wrap"; "verbose"; "n_jobs"; "checkpoint"; "T_sys"; "sefd_data"; "nu_data"; "D_station";
   "ep_aperture"; "suppress_sharp_features_uv_map"]%string.
Definition cube_lightcone_args : list string :=
  ["ncells"; "zs"; "obs_time"; "subarray_type"; "boxsize"; "save_uvmap"; "total_int_time"; "int_time"; "declination";
   "N_ant"; "uv_weighting"; "fft_wrap"; "verbose"; "n_jobs"; "checkpoint"; "T_sys"; "sefd_data"; "nu_data"; "D_station";
   "ep_aperture"; "suppress_sharp_features_uv_map"]%string.
Definition bind_positional {A} (params : list string) (args : list A) : option (list (string * A)) :=
  if Nat.ltb (length params) (length args) then None else Some (combine params args).
Definition noise_cube_lightcone {A} (value : string -> A) (body : list (string * A) -> option A) : option A :=
  match bind_positional noise_lightcone_params (map value cube_lightcone_args) with None => None | Some env => body env end.
