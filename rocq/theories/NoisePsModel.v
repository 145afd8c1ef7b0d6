(** Spectrum of the thermal noise, Briggs weights, the wrapped inverse transform and uv maps of a light cone
    (radio_telescope_noise.py:78-180, 475-526, 625-654; binning by power_spectrum.py:98-134). Exact reals with infinities and nan. *)
From Coq Require Import String List Arith ZArith Reals Bool.
From Verif Require Import RLib KGridModel FourierModel NoiseModel SpecModel.
Import ListNotations.
Local Open Scope R_scope.

(** IEEE values: a number, the two infinities, nan. *)
Inductive ext := Fin (r : R) | Inf | NegInf | NaN.
Definition add (a b : ext) : ext :=
  match a, b with
  | Fin x, Fin y => Fin (x + y)
  | NaN, _ | _, NaN => NaN
  | Inf, NegInf | NegInf, Inf => NaN
  | Inf, _ | _, Inf => Inf
  | NegInf, _ | _, NegInf => NegInf
  end.
Definition opp (a : ext) : ext := match a with Fin x => Fin (- x) | Inf => NegInf | NegInf => Inf | NaN => NaN end.
Definition sub (a b : ext) : ext := add a (opp b).
(** Division by a number of modes. *)
Definition over (a : ext) (m : nat) : ext :=
  match a, m with
  | Fin x, O => if Req_EM_T x 0 then NaN else if Rlt_dec 0 x then Inf else NegInf
  | Fin x, _ => Fin (x / INR m)
  | v, _ => v
  end.

(** [np.histogram] with given edges (numpy computes it from cumulative sums): the entries below an edge, the last edge being inclusive. *)
Definition under (edges : list R) (b : nat) (k : R) : bool := if (S b =? length edges)%nat then rleb k (nth b edges 0) else rltb k (nth b edges 0).
Definition cum (edges : list R) (cells : list (R * ext)) (b : nat) : ext := fold_left (fun acc c => if under edges b (fst c) then add acc (snd c) else acc) cells (Fin 0).
Definition hist_weighted (edges : list R) (cells : list (R * ext)) (b : nat) : ext := sub (cum edges cells (S b)) (cum edges cells b).
Definition hist_count (edges : list R) (cells : list (R * ext)) (b : nat) : nat := length (filter (fun c => under edges (S b) (fst c)) cells) - length (filter (fun c => under edges b (fst c)) cells).
(** [radial_average] (power_spectrum.py:121-134) given the edges. *)
Definition averaged (edges : list R) (cells : list (R * ext)) : list ext := map (fun b => over (hist_weighted edges cells b) (hist_count edges cells b)) (seq 0 (length edges - 1)).

(** [rms_noi/np.sqrt(uv_map)] squared (163, 169): a cell without baselines divides by zero. *)
Definition cell_noise (rms uv : R) : ext := if Rlt_dec uv 0 then NaN else if Req_EM_T uv 0 then (if Req_EM_T rms 0 then NaN else Inf) else Fin (rms ^ 2 / uv).
Definition times (c : R) (a : ext) : ext := match a with Fin x => Fin (c * x) | Inf => if Req_EM_T c 0 then NaN else if Rlt_dec 0 c then Inf else NegInf | NegInf => if Req_EM_T c 0 then NaN else if Rlt_dec 0 c then NegInf else Inf | NaN => NaN end.
(** [power *= pixelsize**2/boxvol] (171-173) on an n by n map of side L. *)
Definition ps_scale (n : nat) (L : R) : R := (L * L / (INR n * INR n)) ^ 2 / (L * L).
Definition noise_cells (n : nat) (L rms : R) (uv : array) : list (R * ext) :=
  map (fun a => (k_of [n; n] [L; L] a, times (ps_scale n L) (cell_noise rms (uv (shift_sources [n; n] a))))) (indices [n; n]).
(** [noise_coeval_power_spectrum_1d] (153-180) with a given map and given edges; [weighting] is lower case. Natural weights; for uniform weights the
    number [rms_noi**2] reaches fftshift, and for other names [out] is unbound: both raise (None). [sigma], the only value depending on the observing time
    and the number of antennas, is not used. *)
Definition noise_ps (weighting : string) (n : nat) (L sefd depth_mhz obs_time int_time N_ant : R) (uv : array) (edges : list R) : option (list ext) :=
  if in_strings weighting natural_names then Some (averaged edges (noise_cells n L (rms_noise sefd depth_mhz int_time) uv)) else None.
(** The edges made from an integer number of bins (power_spectrum.py:504-520), log and linear. *)
Definition kmax (n : nat) (L : R) : R := fold_left Rmax (map (k_of [n; n] [L; L]) (indices [n; n])) 0.
Definition step (a b : R) (m t : nat) : R := a + INR t * ((b - a) / INR m).
Definition log_edges (n : nat) (L : R) (m : nat) : list R := map (fun t => Rpower 10 (step (log10 (2 * PI / L)) (log10 (kmax n L)) m t)) (seq 0 (S m)).
Definition linear_edges (n : nat) (L : R) (m : nat) : list R := map (step (2 * PI / L) (kmax n L) m) (seq 0 (S m)).

(** [apply_uv_response_noise_briggs] (475-502). The mean over the sampled cells; without any it is nan, but then every cell is set to zero. *)
Definition pos_mean (ws : list R) : R := let p := filter (fun w => rltb 0 w) ws in rsum p / INR (length p).
Definition w_mean (ws : list R) (eps : R) : R := pos_mean ws + eps.
Definition briggs_weight (wm robust w : R) : R := w / (1 + (w / wm) ^ 2 * Rpower 10 (2 * robust)).
Definition briggs (ws : list R) (robust eps : R) (noise w : R) : R := if Req_EM_T w 0 then 0 else noise / sqrt (briggs_weight (w_mean ws eps) robust w + eps).

(** Python numbers as shifts and slice bounds: [/] always gives a float, and floats are refused by np.roll (unless they are multiples of the length) and by slicing. *)
Inductive pynum := PyInt (z : Z) | PyFloat (r : R).
Definition true_div (a b : Z) : pynum := PyFloat (IZR a / IZR b).
Definition roll_ok (shift : pynum) (len : Z) : bool := match shift with PyInt _ => true | PyFloat r => if Req_EM_T r 0 then true else false end.
Definition slice_ok (lo hi : pynum) : bool := match lo, hi with PyInt _, PyInt _ => true | _, _ => false end.
(** [ifft2_wrap] (504-526) on an n by m array: whether it returns. [tr] stands for the transform of the wrapped array. *)
Definition ifft2_wrap {A} (n m : nat) (tr : A) : option A :=
  let zn := Z.of_nat n in let zm := Z.of_nat m in
  if roll_ok (true_div zn 2) (2 * zn) && roll_ok (true_div zm 2) (2 * zm) && slice_ok (true_div zn 2) (true_div (- zn) 2) && slice_ok (true_div zm 2) (true_div (- zm) 2) then Some tr else None.

(** [make_uv_map_lightcone] (625-654): one map per redshift and the number of antennas of the last call; an empty array of redshifts divides by zero. [get] is [get_uv_map]. *)
Fixpoint uv_loop {Z M} (get : Z -> M * nat) (zs : list Z) (acc : list M) (n : nat) : list M * nat := match zs with [] => (acc, n) | z :: r => let '(m, k) := get z in uv_loop get r (acc ++ [m]) k end.
Definition make_uv_map_lightcone {Z M} (get : Z -> M * nat) (zs : list Z) : option (list M * nat) := match zs with [] => None | _ => Some (uv_loop get zs [] 0%nat) end.
