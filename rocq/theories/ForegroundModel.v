(** Foregrounds and wedge filters: foreground_model.py:53-159. *)
From Coq Require Import List Arith Reals Bool.
From Verif Require Import RLib KGridModel FourierModel DftLib.
Import ListNotations.
Local Open Scope R_scope.

(** Point sources of one slice (83-86): drawn cells and brightness temperatures, in the order of the loop. Random draws, fluxes and the
    conversion to kelvin are arguments. *)
Definition image := nat -> nat -> R.
Definition put (img : image) (src : nat * nat * R) : image := let '(x, y, t) := src in fun a b => if (Nat.eqb a x && Nat.eqb b y)%bool then t else img a b.
Definition point_sources (srcs : list (nat * nat * R)) : image := fold_left put srcs (fun _ _ => 0).

Inductive profile := Step | Sigmoid | Gaussian.
(** [np.linspace(-n pi/L, n pi/L, n)] (96). *)
Definition k0 (n : nat) (box : R) (i : nat) : R := - INR n * PI / box + INR i * ((INR n * PI / box - - INR n * PI / box) / INR (n - 1)).
(** [kmin] (103); the comoving distance is an argument. *)
Definition kmin (dist small_base : R) : R := PI / (dist * (21 / small_base / 100)).
(** One value of the filter (104-114): transverse wavenumber k2, line-of-sight wavenumber kpp. *)
Definition weight (f : profile) (mu km k2 kpp : R) : R :=
  let kpr := Rabs kpp * (1 - mu ^ 2) / mu in
  if Rle_dec k2 km then 0
  else match f with
       | Sigmoid => 1 - 1 / (1 + exp (10 * (k2 - kpr)))
       | _ => if Rle_dec k2 kpr then 0 else 1
       end.
Definition diabolo (f : profile) (n : nat) (box mu km : R) (i j k : nat) : R := weight f mu km (sqrt (k0 n box i ^ 2 + k0 n box j ^ 2)) (k0 n box k).
(** [diabolo_filter] (90-117): the side of the filter, or [None] for an exception: without an array [array.shape] does not exist, and
    a shorter last axis is sliced with floats. *)
Definition diabolo_size (ncells : option nat) (array : option (nat * nat * nat)) : option nat :=
  match array with
  | None => None
  | Some (a, b, c) => let n := Nat.max a (Nat.max b c) in if (c <? n)%nat then None else Some n
  end.
(** [barrel_filter] (119-134): the whole filter is assigned to one of its slices (line 131). *)
Definition barrel (ncells : option nat) (array : option (nat * nat * nat)) : option (nat * R) :=
  match array with
  | None => None
  | Some (a, b, c) => let n := Nat.max a (Nat.max b c) in if Nat.eqb n 1 then Some (1%nat, 0) else None
  end.
(** Multiplying an array of the given shape with the filter (line 139): numpy's broadcasting. *)
Definition broadcasts (n a : nat) : bool := (Nat.eqb a n || Nat.eqb a 1)%bool.
Definition wedge_accepts (shape : nat * nat * nat) : bool :=
  let '(a, b, c) := shape in match diabolo_size None (Some shape) with None => false | Some n => (broadcasts n a && broadcasts n b && broadcasts n c)%bool end.
(** [remove_wedge_image] (136-141) for an array of shape [s] and a filter of the same shape: [fftshift] is applied twice. *)
Definition remove_wedge (s : list nat) (filt x : array) : array :=
  let shifted_re := fun i => fft_re s x (shift_sources s i) * filt i in
  let shifted_im := fun i => fft_im s x (shift_sources s i) * filt i in
  ifft_re s (fun j => shifted_re (shift_sources s j)) (fun j => shifted_im (shift_sources s j)).
Definition as_array (f : nat -> nat -> nat -> R) : array := fun i => f (nth 0 i 0%nat) (nth 1 i 0%nat) (nth 2 i 0%nat).
