(** Sliding windows, beams and painted spheres: box_counting.py, beam_convolve.py, spa_np.py:29-41, radio_telescope_noise.py:870-920,
    radio_telescope_sensitivity.py:166-184. Exact reals; FFT convolution as its defining sum. *)
From Coq Require Import String List ZArith Bool Reals.
From Verif Require Import RLib GenusModel.
Import ListNotations.
Local Open Scope Z_scope.

Definition cube := pos -> R.
Definition minus (p q : pos) : pos := let '(i, j, k) := p in let '(a, b, c) := q in (i - a, j - b, k - c).
Definition shift (p : pos) (d : Z) : pos := let '(i, j, k) := p in (i + d, j + d, k + d).
Definition in_box (s p : pos) : bool := let '(a, b, c) := s in let '(i, j, k) := p in (0 <=? i) && (i <? a) && (0 <=? j) && (j <? b) && (0 <=? k) && (k <? c).
(** scipy's [fftconvolve]: full output of shape [s + m - 1] for kernels of shape [(m,m,m)]; mode='same' crops it from [(m-1)//2]. *)
Definition full (s : pos) (m : Z) (x w : cube) (p : pos) : R :=
  rsum (map (fun q => if in_box s (minus p q) then (w q * x (minus p q))%R else 0%R) (grid (m, m, m))).
Definition full_shape (s : pos) (m : Z) : pos := shift s (m - 1).
Definition same (s : pos) (m : Z) (x w : cube) (p : pos) : R := full s m x w (shift p ((m - 1) / 2)).

(** [get_kernel] (12-23): x and y run over [-size//2, ...]; the two-dimensional mask selects all of the third axis. *)
Definition on_disc (m : Z) (q : pos) : bool := let '(i, j, k) := q in let h := m / 2 in (i - h) * (i - h) + (j - h) * (j - h) <=? h * h.
Inductive window := Ball | Cube.
Definition raw_kernel (m : Z) (win : window) (q : pos) : R := match win with Cube => 1%R | Ball => if on_disc m q then 1%R else 0%R end.
Definition get_kernel (m : Z) (win : window) (q : pos) : R := (raw_kernel m win q / rsum (map (raw_kernel m win) (grid (m, m, m))))%R.
(** [box_count_sliding] (5-9) for a natural exponent. *)
Definition box_count_sliding (s : pos) (data : cube) (m : Z) (q : nat) (win : window) : R := rsum (map (fun p => (same s m data (get_kernel m win) p ^ q)%R) (grid s)).
(** A size given as a float is refused by np.zeros, np.ones; [Renyi_diemsnions] (25-31) rounds, which keeps floats. *)
Inductive number := PyInt (n : Z) | PyFloat (x : R).
Definition box_count (s : pos) (data : cube) (size : number) (q : nat) (win : window) : option R :=
  match size with PyInt m => Some (box_count_sliding s data m q win) | PyFloat _ => None end.
Fixpoint all_counts (s : pos) (data : cube) (sizes : list number) (q : nat) : option (list R) :=
  match sizes with
  | [] => Some []
  | m :: r => match box_count s data m q Ball, all_counts s data r q with Some v, Some l => Some (v :: l) | _, _ => None end
  end.
Definition renyi_sizes (rr : nat -> R) : list number := map (fun i => PyFloat (rr i)) (seq 0 10).
Definition Renyi_dimensions (finish : list R -> R) (s : pos) (data : cube) (rr : nat -> R) (q : nat) : option R := option_map finish (all_counts s data (renyi_sizes rr) q).

(** [gauss_kernel_3d] (870-900) and [smooth_gauss_3d] (902-920); the kernel has the size of the first axis, the output is the full convolution. *)
Definition gauss (m : Z) (sigma : R) (q : pos) : R := let '(i, j, k) := q in let h := m / 2 in exp (- IZR ((i - h) * (i - h) + (j - h) * (j - h) + (k - h) * (k - h)) / (2 * sigma ^ 2)).
Definition gauss_kernel (m : Z) (sigma : R) (q : pos) : R := (gauss m sigma q / rsum (map (gauss m sigma) (grid (m, m, m))))%R.
Definition smooth_gauss_3d (s : pos) (array : cube) (fwhm : R) : pos * cube :=
  let m := fst (fst s) in (full_shape s m, full s m array (gauss_kernel m (fwhm / (2 * sqrt (2 * ln 2))))).

(** [put_sphere] (29-41). [finite]: no nan or infinity in the array; otherwise the distances cannot be reshaped. *)
Definition dist2 (p : pos) (c : R * R * R) : R := let '(i, j, k) := p in let '(x, y, z) := c in ((IZR i - x) ^ 2 + (IZR j - y) ^ 2 + (IZR k - z) ^ 2)%R.
Definition far (s p : pos) : pos := let '(a, b, c) := s in let '(i, j, k) := p in (i + a, j + b, k + c).
Definition put_sphere (s : pos) (finite : bool) (array : cube) (centre : R * R * R) (radius label : R) (periodic : bool) : option cube :=
  if finite then
    let one : cube := fun p => if Rle_dec (dist2 p centre) (radius ^ 2) then label else array p in
    Some (if periodic then fun p => if Rle_dec (dist2 (far s p) centre) (radius ^ 2) then label else one p else one)
  else None.

(** [beam_convolve] (8-55). *)
Inductive failure := NoWidth | FloatSlice | BadFormat.
Definition truthy (x : option R) : bool := match x with None => false | Some v => if Req_EM_T v 0 then false else true end.
Definition beam_convolve (beam_w max_baseline : option R) (beamshape : string) : failure + cube :=
  if negb (truthy beam_w) && negb (truthy max_baseline) then inl NoWidth
  else if String.eqb beamshape "gaussian" then inl FloatSlice (** [out[ox*0.25:ox*0.75, ...]] *)
  else inl BadFormat. (** ['%g' % beamshape] *)

(** [apply_uv_response] (166-184) on arrays of shape [(a, b)]: both loops run over the first axis. [None]: an index out of range. *)
Definition uv_cell (v u : R) : R := if Req_EM_T u 0 then 0%R else (v / sqrt u)%R.
Definition apply_uv_response (a b : Z) (re im uv : Z -> Z -> R) : option ((Z -> Z -> R) * (Z -> Z -> R)) :=
  if (b <? a) then None else Some ((fun i j => if j <? a then uv_cell (re i j) (uv i j) else 0%R), (fun i j => if j <? a then uv_cell (im i j) (uv i j) else 0%R)).
