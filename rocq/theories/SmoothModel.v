(** Model of the smoothing kernels and of the smoothing of slices (smoothing.py:20-134,
    165-249, 401-419). Two- and three-dimensional kernels are one definition here, with the
    number of axes as an argument. *)
From Coq Require Import List Arith ZArith QArith Qround Reals Bool.
From Verif Require Import RLib FourierModel ConvModel PadModel.
Import ListNotations.
Local Open Scope R_scope.

(** [np.mgrid[-m:m]] / [np.mgrid[-m:m+1]] with m = size//2: the offset of cell b. *)
Definition offset (size b : nat) : R := IZR (Z.of_nat b - Z.of_nat (size / 2)).
Definition radius2 (size : nat) (b : list nat) : R := rsum (map (fun k => offset size k * offset size k) b).
(** [kernel /= np.sum(kernel)] *)
Definition normalise (s : list nat) (w : array) : array := fun b => w b / rsum (map w (indices s)).

(** [gauss_kernel], [gauss_kernel_3d] (20-82) *)
Definition gauss_sigma (sigma : R) (fwhm : option R) : R :=
  match fwhm with Some f => f / (2 * sqrt (2 * ln 2)) | None => sigma end.
Definition gauss_weight (size : nat) (s : R) : array := fun b => exp (- radius2 size b / (2 * s * s)).
Definition gauss_kernel (dims size : nat) (sigma : R) (fwhm : option R) : array :=
  normalise (repeat size dims) (gauss_weight size (gauss_sigma sigma fwhm)).

(** [tophat_kernel], [tophat_kernel_3d(shape='cube')] (85-125): [int] truncates towards zero;
    the bounds are used as Python slice bounds, so a negative one counts from the end. The
    widths are rational numbers. [None]: the block is empty and every cell is 0/0. *)
Definition truncate (q : Q) : Z := if Qle_bool 0 q then Qfloor q else Qceiling q.
Definition idx_low (size : nat) (width : Q) : Z := truncate ((Z.of_nat size # 2) - inject_Z (Qfloor (width / 2)))%Q.
Definition idx_high (size : nat) (width : Q) : Z := truncate ((Z.of_nat size # 2) + inject_Z (Qceiling (width / 2)))%Q.
Definition slice_bound (size : nat) (k : Z) : nat :=
  if (k <? 0)%Z then Z.to_nat (Z.of_nat size + k) else Nat.min (Z.to_nat k) size.
Definition in_block (size : nat) (width : Q) (b : nat) : bool :=
  (slice_bound size (idx_low size width) <=? b)%nat && (b <? slice_bound size (idx_high size width))%nat.
Definition tophat_weight (size : nat) (width : Q) : array := fun b => if forallb (in_block size width) b then 1 else 0.
Definition tophat_kernel (dims size : nat) (width : Q) : option array :=
  if forallb (fun b => negb (forallb (in_block size width) b)) (indices (repeat size dims)) then None
  else Some (normalise (repeat size dims) (tophat_weight size width)).
(** [tophat_kernel_3d(shape='sphere')] (126-134) *)
Definition sphere_weight (size : nat) (width : R) : array := fun b => if Rle_dec (sqrt (radius2 size b)) (0.5 * width) then 1 else 0.
Definition sphere_kernel (size : nat) (width : R) : array := normalise (repeat size 3) (sphere_weight size width).

(** [smooth_with_kernel] (231-249): [fftconvolve] with its defaults. *)
Definition smooth_with_kernel (s1 s2 : list nat) (x y : array) : option (list nat * array) := fftconvolve s1 s2 x y Same Circular.
(** [smooth_gauss] (165-184) *)
Definition smooth_gauss (n m : nat) (x : array) (sigma : R) (fwhm : option R) : option (list nat * array) :=
  smooth_with_kernel [n; m] [n; n] x (gauss_kernel 2 n sigma fwhm).

(** [smooth_tophat] (187-212) for square slices; the recursive call is on an odd size. The
    result is [None] when it raises or is all NaN. *)
Definition smooth_odd (n : nat) (x : array) (width : Q) : option (list nat * array) :=
  match tophat_kernel 2 n width with
  | None => None
  | Some k => smooth_with_kernel [n; n] [n; n] x k
  end.
Definition as_fun2 (x : array) : nat -> nat -> R := fun i j => x [i; j].
Definition as_array (x : nat -> nat -> R) : array := fun b => x (nth 0 b 0%nat) (nth 1 b 0%nat).
Definition smooth_tophat (n : nat) (x : array) (width : Q) : option (list nat * array) :=
  if Nat.even n then
    match get_padded_slice 0 (n, n, as_fun2 x) (n + 1) with
    | None => None
    | Some (_, _, p) =>
        match smooth_odd (n + 1) (as_array p) width with
        | None => None
        | Some (_, out) => Some ([n; n], out)
        end
    end
  else smooth_odd n x width.

(** [smooth_coeval_tophat] (401-419) for a cube of side n. *)
Definition smooth_coeval_tophat (n : nat) (cube : nat -> nat -> nat -> R) (width : Q) (nu_axis : nat) : option (nat -> nat -> nat -> R) :=
  match tophat_kernel 2 n width with
  | None => None
  | Some k =>
      if Nat.eqb nu_axis 0 then
        Some (fun a i b => match smooth_with_kernel [n; n] [n; n] (as_array (fun a b => cube a i b)) k with Some (_, o) => o [a; b] | None => 0 end)
      else
        Some (fun i a b => match smooth_with_kernel [n; n] [n; n] (as_array (fun a b => cube i a b)) k with Some (_, o) => o [a; b] | None => 0 end)
  end.
