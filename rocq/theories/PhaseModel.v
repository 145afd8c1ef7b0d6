(** Model of [fourier_phase_shuffled], [_get_ps_func_for_field], [make_gaussian_random_field_like_field] (gaussian_random_field.py:65-121) and of
    [real_to_fourier_amplitude_phase] (helper_functions.py:21-26), over exact reals. *)
From Coq Require Import List Arith ZArith Reals Bool.
From Verif Require Import RLib KGridModel FourierModel DftLib GrfModel SpecModel.
Import ListNotations.
Local Open Scope R_scope.

(** [np.random.shuffle] permutes the entries of the first axis only: row [i] of the shuffled array is row [sigma i]. *)
Definition shuffle_rows (sigma : nat -> nat) (phi : array) : array := fun i => match i with [] => phi [] | x :: t => phi (sigma x :: t) end.
(** Lines 114-120. [ang re im] is [np.angle]; [sigma] is the draw. *)
Definition fourier_phase_shuffled (ang : R -> R -> R) (sigma : nat -> nat) (s : list nat) (x : array) : array :=
  let ft_re := fun i => fft_re s x (shift_sources s i) in let ft_im := fun i => fft_im s x (shift_sources s i) in
  let ft_abs := fun i => cabs (ft_re i) (ft_im i) in
  let ft_phi := shuffle_rows sigma (fun i => ang (ft_re i) (ft_im i)) in
  let new_re := fun i => ft_abs i * cos (ft_phi i) in let new_im := fun i => ft_abs i * sin (ft_phi i) in
  ifft_re s (fun j => new_re (shift_sources s j)) (fun j => new_im (shift_sources s j)).

(** [_get_ps_func_for_field] (93-105): the binned spectrum as (centre, power, number of modes); bins with modes, linear, zero out of range. *)
Definition ps_func (spectrum : list (R * R * nat)) (k : R) : R :=
  let nodes := map (fun b => (fst (fst b), Some (snd (fst b)))) (filter (fun b => (0 <? snd b)%nat) spectrum) in
  match interp1d nodes k with Some (Some v) => v | _ => 0 end.
(** [make_gaussian_random_field_like_field] (65-91), given the binned spectrum of the field. *)
Definition like_field (s : list nat) (box : list R) (spectrum : list (R * R * nat)) (g : array * array) : option array :=
  make_gaussian_random_field s box (ps_func spectrum) g.

(** [real_to_fourier_amplitude_phase] for one mode [a + ib]: [None] is NaN (0/0); a quotient by zero is infinite, with the sign of [b] (a negative zero is left out). *)
Definition amplitude (a b : R) : R := sqrt (a ^ 2 + b ^ 2).
Definition phase_of (a b : R) : option R :=
  if Req_EM_T a 0 then if Req_EM_T b 0 then None else Some (if Rlt_dec 0 b then PI / 2 else - (PI / 2)) else Some (atan (b / a)).
Definition amplitude_phase (s : list nat) (x : array) (j : list nat) : R * option R := (amplitude (fft_re s x j) (fft_im s x j), phase_of (fft_re s x j) (fft_im s x j)).
