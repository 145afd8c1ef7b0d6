(** Tapering before power spectra: power_spectrum.py:12-21 and its callers (power_spectrum.py:137-225). *)
From Coq Require Import String Ascii.
From Coq Require Import List Arith Reals Bool.
From Verif Require Import RLib FourierModel.
Import ListNotations.
Local Open Scope R_scope.

(** The argument [window]: None, a string, or an array. *)
Inductive window := NoWindow | Name (s : string) | Table (v : array).
(** [str.lower] on ASCII letters. *)
Definition lower_char (c : ascii) : ascii := let n := nat_of_ascii c in if (Nat.leb 65 n && Nat.leb n 90)%bool then ascii_of_nat (n + 32) else c.
Fixpoint lower (s : string) : string := match s with EmptyString => EmptyString | String c r => String (lower_char c) (lower r) end.

(** [scipy.signal.windows.blackmanharris(M)] (line 16): [general_cosine] with four coefficients on [linspace(-pi, pi, M)]. *)
Definition bh_angle (M t : nat) : R := - PI + INR t * (2 * PI / INR (M - 1)).
Definition blackmanharris (M t : nat) : R :=
  if (M <=? 1)%nat then 1 else let x := bh_angle M t in 0.35875 + 0.48829 * cos x + 0.14128 * cos (2 * x) + 0.01168 * cos (3 * x).
(** [scipy.signal.windows.tukey(M)] (line 18) with its default alpha = 0.5. *)
Definition tukey (M t : nat) : R :=
  if (M <=? 1)%nat then 1 else
  let width := ((M - 1) / 4)%nat in
  if (t <=? width)%nat then 0.5 * (1 + cos (PI * (-1 + 2 * INR t / 0.5 / INR (M - 1))))
  else if (t <? M - width - 1)%nat then 1
  else 0.5 * (1 + cos (PI * (-2 / 0.5 + 1 + 2 * INR t / 0.5 / INR (M - 1)))).

(** An array object of the caller: its shape, whether it stores floating-point numbers, and its content. *)
Record data := Data { dims : list nat; floating : bool; content : array }.
Definition last_axis (s : list nat) : nat := last s 0%nat.
(** [input_array *= w[None,None,:]]: in place. Integer arrays cannot store the product, and with fewer than three axes the product has more
    axes than the array. *)
Definition multiply (w : nat -> nat -> R) (d : data) : option data :=
  if (floating d && (3 <=? length (dims d))%nat)%bool then Some (Data (dims d) true (fun i => content d i * w (last_axis (dims d)) (last i 0%nat))) else None.
(** [apply_window] (12-21): the array returned, which is the caller's object with its new content; [None] is an exception. Arrays have no
    method [lower], and an array cannot be multiplied with a string. *)
Definition apply_window (d : data) (w : window) : option data :=
  match w with
  | NoWindow => Some d
  | Table _ => None
  | Name s => if String.eqb (lower s) "blackmanharris" then multiply blackmanharris d else if String.eqb (lower s) "tukey" then multiply tukey d else None
  end.
(** A call of [power_spectrum_1d], [power_spectrum_2d] (164, 208) or a bispectrum (bispectrum.py:112, 168, 282, 312): the caller's array
    afterwards, and the statistic of the tapered array. *)
Definition spectrum_call {S} (stat : data -> S) (d : data) (w : window) : data * option S :=
  match apply_window d w with Some d' => (d', Some (stat d')) | None => (d, None) end.
Fixpoint calls {S} (stat : data -> S) (d : data) (ws : list window) : data * list (option S) :=
  match ws with [] => (d, []) | w :: r => let '(d1, o) := spectrum_call stat d w in let '(d2, os) := calls stat d1 r in (d2, o :: os) end.
