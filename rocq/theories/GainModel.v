(** Antenna gains: radio_telescope_calibration.py:20-284. *)
From Coq Require Import List Arith ZArith QArith Reals Bool.
From Verif Require Import RLib FourierModel DftLib UvGridModel.
Import ListNotations.
Local Open Scope R_scope.

(** The gain of an antenna: its two columns, real and imaginary part. *)
Definition gain : Type := R * R.
(** The four stored products of a pair (98-101). *)
Record products := Products { rr : R; ii : R; ri : R; ir : R }.
Definition product (a b : gain) : products := Products (fst a * fst b) (snd a * snd b) (fst a * snd b) (snd a * fst b).
(** [itertools.combinations(range(N), 2)] (89-104): baselines i - j for i < j with their products. *)
Definition pairs {A} (l : list A) : list (A * A) := (fix go (l : list A) := match l with [] => [] | a :: r => map (fun b => (a, b)) r ++ go r end) l.
Definition rows_of {P} (diff : P -> P -> baseline) (ants : list (P * gain)) : list (baseline * products) :=
  map (fun p => (diff (fst (fst p)) (fst (snd p)), product (snd (fst p)) (snd (snd p)))) (pairs ants).

(** The map: hits and the four sums of every cell. *)
Definition gmap := nat -> nat -> nat -> R.
Definition chan (g : products) (c : nat) : R := match c with O => 1 | 1%nat => rr g | 2%nat => ii g | 3%nat => ri g | 4%nat => ir g | _ => 0 end.
Definition bump (f : gmap) (x y : nat) (g : products) : gmap := fun i j c => if (Nat.eqb i x && Nat.eqb j y)%bool then f i j c + chan g c else f i j c.
Definition bump_at (n : nat) (x y : Z) (g : products) (f : option gmap) : option gmap :=
  match f, wrap_index n x, wrap_index n y with Some f, Some x, Some y => Some (bump f x y g) | _, _, _ => None end.
(** [_grid_uv_tracks_with_gains] (187-245): in-bounds baselines, negative indices as Python reads them, mirror images at the opposite
    index. [None]: index out of range. *)
Definition grid_gains (mirror : bool) (n : nat) (theta : Q) (rows : list (baseline * products)) (f : option gmap) : option gmap :=
  fold_left (fun f r => let f1 := bump_at n (fst (fst r)) (snd (fst r)) (snd r) f in
                        if mirror then bump_at n (- fst (fst r)) (- snd (fst r)) (snd r) f1 else f1)
            (filter (fun r => mask n (fst r)) (map (fun r => (pix theta (fst r), snd r)) rows)) f.

(** [get_uv_map_with_gains] (109-185): new gains whenever [time_idx*int_time] is a multiple of one of the timescales (whole seconds
    here). [draw t]: the rows made with the gains drawn at time step t; [rotate t]: earth rotation. *)
Definition renew (timescales : list nat) (int_time t : nat) : bool := existsb (fun tt => Nat.eqb ((t * int_time) mod tt) 0) timescales.
Definition time_step (mirror : bool) (n : nat) (theta : Q) (timescales : list nat) (int_time : nat) (draw : nat -> list (baseline * products)) (rotate : nat -> baseline -> baseline)
  (s : option (list (baseline * products)) * option gmap) (t : nat) : option (list (baseline * products)) * option gmap :=
  let rows := if renew timescales int_time t then Some (draw t) else fst s in
  (rows, match rows with Some rs => grid_gains mirror n theta (map (fun r => (rotate t (fst r), snd r)) rs) (snd s) | None => None end).
Definition uv_map_with_gains (mirror : bool) (n : nat) (theta : Q) (timescales : list nat) (int_time total : nat) (draw : nat -> list (baseline * products)) (rotate : nat -> baseline -> baseline) : option gmap :=
  snd (fold_left (time_step mirror n theta timescales int_time draw rotate) (seq 0 total) (None, Some (fun _ _ _ => 0))).

(** Principal square root of a complex number, [np.sqrt]. *)
Definition cabs (a b : R) : R := sqrt (a ^ 2 + b ^ 2).
Definition csqrt_re (a b : R) : R := sqrt ((cabs a b + a) / 2).
Definition csqrt_im (a b : R) : R := if Rle_dec 0 b then sqrt ((cabs a b - a) / 2) else - sqrt ((cabs a b - a) / 2).
(** [np.nan_to_num((map[1] + 1j map[2])/map[0])] (276): zero where there are no hits. *)
Definition eff_re (f : gmap) (j : list nat) : R := let h := f (nth 0 j 0%nat) (nth 1 j 0%nat) in if Req_EM_T (h 0%nat) 0 then 0 else csqrt_re (h 1%nat / h 0%nat) (h 2%nat / h 0%nat).
Definition eff_im (f : gmap) (j : list nat) : R := let h := f (nth 0 j 0%nat) (nth 1 j 0%nat) in if Req_EM_T (h 0%nat) 0 then 0 else csqrt_im (h 1%nat / h 0%nat) (h 2%nat / h 0%nat).
(** [apply_uv_with_gains_response_on_image] (250-284). *)
Definition gains_response (n : nat) (f : gmap) (x : array) : array :=
  let s := [n; n] in
  ifft_re s (fun j => fft_re s x j * eff_re f j - fft_im s x j * eff_im f j) (fun j => fft_re s x j * eff_im f j + fft_im s x j * eff_re f j).
