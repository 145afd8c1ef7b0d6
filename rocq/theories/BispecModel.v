(** The bispectrum: bispectrum.py:15-103, 256-332. *)
From Coq Require Import List Arith Reals Bool.
From Verif Require Import RLib KGridModel FourierModel DftLib.
Import ListNotations.
Local Open Scope R_scope.

(** [spherical_shell_mask] (45-51): with magnitudes, and with components, whose squares are summed without a root. *)
Definition in_shell (k dk kmag : R) : R := if Rlt_dec (Rabs (kmag - k)) (dk / 2) then 1 else 0.
Definition in_shell_comp (k dk : R) (comps : list R) : R := in_shell k dk (rsum (map (fun c => c ^ 2) comps)).
(** [cosine_rule] (53-55). *)
Definition cosine_rule (k1 k2 alpha : R) : R := sqrt (k1 ^ 2 + k2 ^ 2 + 2 * k1 * k2 * cos alpha).
(** Real part of a product of three complex numbers. *)
Definition re3 (r1 i1 r2 i2 r3 i3 : R) : R := (r1 * r2 - i1 * i2) * r3 - (r1 * i2 + i1 * r2) * i3.
(** [bispectrum_fast] (57-103) applied to [fft_nd] (15-37) of a real array of shape [s]; [kmag] is the grid of wavenumbers, in shifted
    order as the transform. The masked transform and the mask are shifted (once more) before the inverse transform. *)
Definition masks (k1 k2 k3 dk1 dk2 dk3 : R) (kmag : array) : array * array * array :=
  let m1 := fun i => in_shell k1 dk1 (kmag i) in
  let m2 := if Req_EM_T k2 k1 then m1 else fun i => in_shell k2 dk2 (kmag i) in
  let m3 := if Req_EM_T k3 k1 then m1 else if Req_EM_T k3 k2 then m2 else fun i => in_shell k3 dk3 (kmag i) in
  (m1, m2, m3).
Definition ft_re (s : list nat) (x : array) : array := fun i => fft_re s x (shift_sources s i).
Definition ft_im (s : list nat) (x : array) : array := fun i => fft_im s x (shift_sources s i).
Definition shifted (s : list nat) (y : array) : array := fun j => y (shift_sources s j).
Definition d_re (s : list nat) (x m : array) : array := ifft_re s (shifted s (fun i => ft_re s x i * m i)) (shifted s (fun i => ft_im s x i * m i)).
Definition d_im (s : list nat) (x m : array) : array := ifft_im s (shifted s (fun i => ft_re s x i * m i)) (shifted s (fun i => ft_im s x i * m i)).
Definition s_re (s : list nat) (m : array) : array := ifft_re s (shifted s m) (fun _ => 0).
Definition s_im (s : list nat) (m : array) : array := ifft_im s (shifted s m) (fun _ => 0).
Definition sum_d (s : list nat) (x m1 m2 m3 : array) : R := rsum (map (fun a => re3 (d_re s x m1 a) (d_im s x m1 a) (d_re s x m2 a) (d_im s x m2 a) (d_re s x m3 a) (d_im s x m3 a)) (indices s)).
Definition sum_s (s : list nat) (m1 m2 m3 : array) : R := rsum (map (fun a => re3 (s_re s m1 a) (s_im s m1 a) (s_re s m2 a) (s_im s m2 a) (s_re s m3 a) (s_im s m3 a)) (indices s)).
Definition bispectrum (s : list nat) (box : list R) (kmag x : array) (k1 k2 k3 dk1 dk2 dk3 : R) : R :=
  let '(m1, m2, m3) := masks k1 k2 k3 dk1 dk2 dk3 kmag in
  sum_d s x m1 m2 m3 / sum_s s m1 m2 m3 * rprod box ^ 2 / ncells s ^ 3.
(** [bispectrum_equilateral] (287-332): the wavenumbers of linear binning and the angle used. *)
Definition equilateral_k (box : R) (nmin n_bins i : nat) : R :=
  let kmin := 2 * PI / box in let kmax := kmin * INR nmin / 2 in
  let e := fun j => kmin + INR j * ((kmax - kmin) / INR n_bins) in (e (S i) + e i) / 2.
Definition equilateral_angle : R := PI / 3.
