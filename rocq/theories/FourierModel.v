(** Model of [power_spectrum_nd] and [cross_power_spectrum_nd]
    (power_spectrum.py:24-95; power_spect_fast.py:11-44 computes the same thing for 3-D).

    An n-dimensional array is a function on index lists, with its shape. Real numbers
    instead of floats; scipy's [fftn] is its defining sum. *)
From Coq Require Import List Arith Reals Lia Bool.
From Verif Require Import RLib KGridModel.
Import ListNotations.
Local Open Scope R_scope.

Definition array : Type := list nat -> R.

(** All index tuples of an array of the given shape, in C order. *)
Fixpoint indices (shape : list nat) : list (list nat) :=
  match shape with
  | [] => [[]]
  | n :: sh => flat_map (fun i => map (cons i) (indices sh)) (seq 0 n)
  end.

(** sum_d j_d a_d / n_d *)
Fixpoint phase (shape j a : list nat) : R :=
  match shape, j, a with
  | n :: sh, jd :: j', ad :: a' => INR jd * INR ad / INR n + phase sh j' a'
  | _, _, _ => 0
  end.

(** [fftpack.fftn]: F[j] = sum_a x[a] exp(-2 pi i phase(j, a)); real and imaginary part. *)
Definition fft_re (shape : list nat) (x : array) (j : list nat) : R :=
  rsum (map (fun a => x a * cos (2 * PI * phase shape j a)) (indices shape)).
Definition fft_im (shape : list nat) (x : array) (j : list nat) : R :=
  - rsum (map (fun a => x a * sin (2 * PI * phase shape j a)) (indices shape)).

(** [fftpack.fftshift] over all axes: the source index of output cell [i]. *)
Fixpoint shift_sources (shape i : list nat) : list nat :=
  match shape, i with
  | n :: sh, id :: i' => shift_source n id :: shift_sources sh i'
  | _, _ => []
  end.

(** [numpy_product] *)
Definition rprod (l : list R) : R := fold_right Rmult 1 l.
Definition ncells (shape : list nat) : R := rprod (map INR shape).
(** [pixelsize**2/boxvol] with [pixelsize = boxvol/prod(shape)] (power_spectrum.py:49-52). *)
Definition ps_scale (shape : list nat) (box : list R) : R :=
  let boxvol := rprod box in let pixelsize := boxvol / ncells shape in pixelsize ^ 2 / boxvol.

(** [np.abs(ft)**2], scaled (power_spectrum.py:44-52). *)
Definition cabs (re im : R) : R := sqrt (re ^ 2 + im ^ 2).
Definition power_spectrum_nd (shape : list nat) (box : list R) (x : array) (i : list nat) : R :=
  let j := shift_sources shape i in
  cabs (fft_re shape x j) (fft_im shape x j) ^ 2 * ps_scale shape box.
(** power_spectrum.py:84-93. *)
Definition cross_power_spectrum_nd (shape : list nat) (box : list R) (x1 x2 : array) (i : list nat) : R :=
  let j := shift_sources shape i in
  (fft_re shape x1 j * fft_re shape x2 j + fft_im shape x1 j * fft_im shape x2 j) * ps_scale shape box.
