(** Smoothing with a uv map (smoothing.py:484-595), over exact reals. *)
From Coq Require Import List Arith ZArith Reals Bool.
From Verif Require Import RLib FourierModel DftLib.
Import ListNotations.
Local Open Scope R_scope.

(** Real part of the inverse FFT of the transform times a real weight per mode. *)
Definition filter_modes (s : list nat) (w x : array) : array :=
  ifft_re s (fun j => fft_re s x j * w j) (fun j => fft_im s x j * w j).

(** [smooth_lightcone_uv_threshold] (484-504), one slice. *)
Definition threshold_weight (uv : array) (thr : R) : array := fun j => if Rlt_dec (uv j) thr then 0 else 1.
Definition smooth_uv_threshold (s : list nat) (x uv : array) (thr : R) : array := filter_modes s (threshold_weight uv thr) x.

(** Its argument check (497-498) returns the exception instead of raising it. *)
Inductive threshold_arg := TFloat (v : R) | TOther (z : Z).
Inductive threshold_result := Smoothed (out : array) | ErrorObject | RaisedError.
Definition smooth_lightcone_uv_threshold (s : list nat) (x uv : array) (t : threshold_arg) : threshold_result :=
  match t with
  | TFloat v => if Rlt_dec v 0 then ErrorObject else Smoothed (smooth_uv_threshold s x uv v)
  | TOther _ => ErrorObject
  end.

(** [remove_baselines_from_uvmap] (506-526). Lines 511-514: the radius of the cut in cells; [cdist] is
    [z_to_cdist(z)]. *)
Definition cut_radius (z max_baseline cdist box : R) : R := box / ((1 + z) * (21 / 100000) / max_baseline * cdist).
(** Lines 515-525 for cell (i, j). [np.meshgrid] puts its first argument along the second axis. *)
Definition kept (n0 n1 : nat) (radius : R) (i j : nat) : bool :=
  let within := fun a b : R => if Rle_dec (a ^ 2 + b ^ 2) (radius ^ 2) then true else false in
  let xx := INR j in let yy := INR i in
  ((within xx yy || within (INR n0 - xx) yy || within xx (INR n1 - yy) || within (INR n0 - xx) (INR n1 - yy)) && negb (Nat.eqb i 0 && Nat.eqb j 0))%bool.
(** [None]: the mask has the transposed shape, so it does not fit a map that is not square. *)
Definition remove_baselines_from_uvmap (n0 n1 : nat) (radius : R) (uv : array) : option array :=
  if Nat.eqb n0 n1 then Some (fun c => (if kept n0 n1 radius (nth 0 c 0%nat) (nth 1 c 0%nat) then 1 else 0) * uv c) else None.

(** [convolve_uvmap] (528-549) with a map of the shape of the image. [cdist]: as above. [None] is an
    exception; the result has no defined value when the largest entry of the map is 0. *)
Definition largest (s : list nat) (uv : array) : R := match map uv (indices s) with [] => 0 | x :: r => fold_right Rmax x r end.
Definition convolve_uvmap (n0 n1 : nat) (x : array) (z : option R) (uv : array) (max_baseline : option R) (box cdist : R) : option array :=
  let map' := match max_baseline with
              | None => Some uv
              | Some b => match z with Some z => remove_baselines_from_uvmap n0 n1 (cut_radius z b cdist box) uv | None => None end
              end in
  match map' with
  | Some m => Some (filter_modes [n0; n1] (fun j => m j / largest [n0; n1] m) x)
  | None => None
  end.

(** * [convolve_uvmap_coeval] (553-595) with a given map *)
Definition cube := (nat * nat * nat * (nat -> nat -> nat -> R))%type.
Definition swapaxes02 (c : cube) : cube := let '(a, b, d, f) := c in (d, b, a, fun i j k => f k j i).
Definition swapaxes12 (c : cube) : cube := let '(a, b, d, f) := c in (a, d, b, fun i j k => f i k j).
Definition swap_with_last (nu : nat) (c : cube) : cube := match nu with 0%nat => swapaxes02 c | 1%nat => swapaxes12 c | _ => c end.
(** Lines 585-595: [smoothed] is the cube smoothed along the line of sight [nu], [conv] smooths a slice.
    [np.array] of the list of slices puts the slice number first. *)
Definition convolve_slices (conv : (nat -> nat -> R) -> nat -> nat -> R) (nu : nat) (smoothed : cube) : cube :=
  let '(a, b, d, f) := swap_with_last nu smoothed in
  swap_with_last nu (d, a, b, fun k i j => conv (fun i' j' => f i' j' k) i j).
(** Line 586 divides by [max_baseline]. *)
Definition convolve_uvmap_coeval (conv : (nat -> nat -> R) -> nat -> nat -> R) (nu : nat) (max_baseline : option R) (smooth : R -> cube) : option cube :=
  match max_baseline with None => None | Some b => Some (convolve_slices conv nu (smooth b)) end.
