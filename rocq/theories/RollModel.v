(** Rolling wedge removal: foreground_model.py:144-205. *)
From Coq Require Import List Arith ZArith Reals Bool.
From Verif Require Import RLib KGridModel FourierModel DftLib.
Import ListNotations.
Local Open Scope R_scope.

(** A light cone: slices (two-dimensional images) by channel; [nz] channels of [n] by [n] cells. *)
Definition cone := nat -> array.
(** [np.blackman] (186, 189). *)
Definition blackman (c t : nat) : R := 42 / 100 - 1 / 2 * cos (2 * PI * INR t / INR (c - 1)) + 8 / 100 * cos (4 * PI * INR t / INR (c - 1)).
(** Power of the window's transform (186). *)
Definition window_power (c p : nat) : R :=
  (rsum (map (fun t => blackman c t * cos (2 * PI * (INR p * INR t / INR c))) (seq 0 c))) ^ 2 + (rsum (map (fun t => blackman c t * sin (2 * PI * (INR p * INR t / INR c))) (seq 0 c))) ^ 2.
Fixpoint largest (l : list R) : R := match l with [] => 0 | v :: r => Rmax v (largest r) end.
Fixpoint first_index (f : nat -> bool) (l : list nat) : option nat := match l with [] => None | p :: r => if f p then Some p else first_index f r end.
(** Index in line 187: the first frequency whose relative power is at most the threshold; [None] raises IndexError. *)
Definition buffer_index (c : nat) (thr : R) : option nat :=
  let m := largest (map (window_power c) (seq 0 c)) in first_index (fun p => if Rle_dec (window_power c p / m) thr then true else false) (seq 0 c).
(** [np.fft.fftfreq] times n d: the signed frequency. *)
Definition signed (n k : nat) : Z := if (2 * k <? n)%nat then Z.of_nat k else (Z.of_nat k - Z.of_nat n)%Z.
Definition k_par (c : nat) (d : R) (q : nat) : R := IZR (signed c q) / (INR c * d).
Definition k_perp (n : nat) (d : R) (u v : nat) : R := sqrt ((IZR (signed n u) / (INR n * d)) ^ 2 + (IZR (signed n v) / (INR n * d)) ^ 2).
(** The mask (200-201) for one channel; division by zero gives an infinity of the sign of the numerator, or nan for 0/0. *)
Definition keeps (n c : nat) (d mf : R) (p : nat) (u v q : nat) : bool :=
  let buffer := (k_par c d 1 - k_par c d 0) * (INR p - 1) in
  let den := k_perp n d u v * mf + buffer in
  if Req_EM_T den 0 then (if Req_EM_T (k_par c d q) 0 then false else true)
  else if Rlt_dec (k_par c d q / den) (-1) then true else if Rlt_dec 1 (k_par c d q / den) then true else false.
(** Index of the redshift used for channel s (line 200), with i = s + chunk. *)
Definition redshift_index (nz c s : nat) : nat := Nat.min (s + c - c / 2 - 1) (nz - 1).
(** The transverse transform of channel s of the light cone, padded with [c] empty channels on both sides (177, 195); i = s + c is the
    position of channel s in the padded array. *)
Definition padded_re (n nz c : nat) (lc : cone) (i : nat) (j : list nat) : R := if ((c <=? i) && (i <? c + nz))%nat%bool then fft_re [n; n] (lc (i - c)%nat) j else 0.
Definition padded_im (n nz c : nat) (lc : cone) (i : nat) (j : list nat) : R := if ((c <=? i) && (i <? c + nz))%nat%bool then fft_im [n; n] (lc (i - c)%nat) j else 0.
(** Lines 198-203 for channel s: the chunk of padded positions s + c - c/2 .. times the window, its transform along the line of sight times
    the mask, and the real part of the three-dimensional inverse at the middle of the chunk. *)
Definition theta (c q t : nat) : R := 2 * PI * (INR q * INR t / INR c).
Definition chunk_re (n nz c : nat) (lc : cone) (s : nat) : array := fun j => match j with
  | [u; v; q] => rsum (map (fun t => blackman c t * padded_re n nz c lc (s + c - c / 2 + t) [u; v] * cos (theta c q t) + blackman c t * padded_im n nz c lc (s + c - c / 2 + t) [u; v] * sin (theta c q t)) (seq 0 c))
  | _ => 0 end.
Definition chunk_im (n nz c : nat) (lc : cone) (s : nat) : array := fun j => match j with
  | [u; v; q] => rsum (map (fun t => blackman c t * padded_im n nz c lc (s + c - c / 2 + t) [u; v] * cos (theta c q t) - blackman c t * padded_re n nz c lc (s + c - c / 2 + t) [u; v] * sin (theta c q t)) (seq 0 c))
  | _ => 0 end.
Definition mask (n c : nat) (d mf : R) (p : nat) : array := fun j => match j with [u; v; q] => if keeps n c d mf p u v q then 1 else 0 | _ => 0 end.
Definition channel (n nz c : nat) (d : R) (mf : nat -> R) (p : nat) (lc : cone) (s a b : nat) : R :=
  let w := mask n c d (mf (redshift_index nz c s)) p in
  ifft_re [n; n; c] (fun j => chunk_re n nz c lc s j * w j) (fun j => chunk_im n nz c lc s j * w j) [a; b; (c / 2)%nat].
(** The whole function: shape (n, m, nz), number of redshifts, chunk length. [None]: an exception (non-square channels, an odd chunk, whose
    window is one longer than the slice, too few redshifts, or no buffer). *)
Definition rolling (n m nz nred c : nat) (d thr : R) (mf : nat -> R) (lc : cone) : option (nat -> nat -> nat -> R) :=
  if negb (Nat.eqb n m) then None
  else if negb (Nat.eqb (2 * (c / 2)) c) then None
  else if (nred <? nz)%nat then None
  else match buffer_index c thr with None => None | Some p => Some (channel n nz c d mf p lc) end.
