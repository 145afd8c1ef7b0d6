(** Model of statistics.py, [combined_mean_variance] (helper_functions.py:581-639) and
    [get_combined_mean_std] (superpixels.py:206-211), over the reals (no rounding). *)
From Coq Require Import List Arith ZArith Reals Bool Lia.
From Verif Require Import RLib.
Import ListNotations.
Local Open Scope R_scope.

Definition mean (l : list R) : R := rsum l / INR (length l).

(** * combined_mean_variance *)
(** One dataset: mean, variance, sample size (kept real, as numpy converts it). *)
Record dataset := DS { dmean : R; dvar : R; dsize : R }.
(** helper_functions.py:633-637. *)
Definition combined_mean (ds : list dataset) : R :=
  rsum (map (fun d => dsize d * dmean d) ds) / rsum (map dsize ds).
Definition combined_variance (ds : list dataset) : R :=
  let m := combined_mean ds in
  rsum (map (fun d => (dsize d - 1) * dvar d + dsize d * (dmean d - m) ^ 2) ds)
  / (rsum (map dsize ds) - 1).
Definition combined_mean_variance (ds : list dataset) : R * R :=
  (combined_mean ds, combined_variance ds).
(** [sample_sizes is None]: all ones (lines 628-629). *)
Definition combined_mean_variance_nosize (mv : list (R * R)) : R * R :=
  combined_mean_variance (map (fun p => DS (fst p) (snd p) 1) mv).
(** superpixels.py:206-211: the same formula with sigma squared, and a square root. *)
Definition get_combined_mean_std (ms : list (R * R * R)) : R * R :=
  let r := combined_mean_variance (map (fun t => DS (fst (fst t)) (snd (fst t) ^ 2) (snd t)) ms) in
  (fst r, sqrt (snd r)).

(** * skewness, kurtosis (statistics.py:8-43)
    [x**(3./2.)] of a non-negative x is x * sqrt x. NaN (0/0) is [None]. *)
Definition deviations (l : list R) : list R := map (fun x => x - mean l) l.
Definition variance1 (l : list R) : R :=
  rsum (map (fun d => d ^ 2) (deviations l)) / (INR (length l) - 1).
Definition pow_3_2 (x : R) : R := x * sqrt x.
Definition skewness (l : list R) : R :=
  (rsum (map (fun d => d ^ 3) (deviations l)) / INR (length l)) / pow_3_2 (variance1 l).
Definition kurtosis (l : list R) : R :=
  (rsum (map (fun d => d ^ 4) (deviations l)) / INR (length l)) / (variance1 l) ^ 2.

(** * mass_weighted_mean_xi (statistics.py:46-59); cells are (xi, rho). *)
Definition mass_weighted_mean_xi (cells : list (R * R)) : R :=
  mean (map (fun c => fst c * snd c) cells) / mean (map snd cells).

(** * subtract_mean_signal, signal_overdensity (statistics.py:62-111) *)
Record arr3 := Arr { s0 : nat; s1 : nat; s2 : nat; at3 : nat -> nat -> nat -> R }.

(** [signal[i,:,:].mean()] and the other two. *)
Definition slice_values (axis : nat) (a : arr3) (i : nat) : list R :=
  match axis with
  | 0 => flat_map (fun y => map (fun z => at3 a i y z) (seq 0 (s2 a))) (seq 0 (s1 a))
  | 1 => flat_map (fun x => map (fun z => at3 a x i z) (seq 0 (s2 a))) (seq 0 (s0 a))
  | _ => flat_map (fun x => map (fun y => at3 a x y i) (seq 0 (s1 a))) (seq 0 (s0 a))
  end%nat.
Definition side (axis : nat) (a : arr3) : nat :=
  match axis with 0 => s0 a | 1 => s1 a | _ => s2 a end%nat.
(** In-place update of slice [i] along [axis] with [f]. *)
Definition update_slice (axis i : nat) (f : R -> R) (a : arr3) : arr3 :=
  Arr (s0 a) (s1 a) (s2 a)
      (fun x y z => let k := match axis with 0 => x | 1 => y | _ => z end%nat in
                    if Nat.eqb k i then f (at3 a x y z) else at3 a x y z).
(** [los_axis in [0,-3]] etc.; [None]: no branch of the loop body is taken. *)
Definition axis_sub (los : Z) : option nat :=
  if ((los =? 0) || (los =? -3))%Z then Some 0%nat
  else if ((los =? 1) || (los =? -2))%Z then Some 1%nat
  else if ((los =? 2) || (los =? -1))%Z then Some 2%nat else None.
(** [los_axis == 0] etc. in [signal_overdensity]. *)
Definition axis_over (los : Z) : option nat :=
  if (los =? 0)%Z then Some 0%nat else if (los =? 1)%Z then Some 1%nat
  else if (los =? 2)%Z then Some 2%nat else None.
(** [signal.shape[los_axis]]: Python accepts -3..2, anything else is an IndexError. *)
Definition shape_at (los : Z) (a : arr3) : option nat := option_map (fun ax => side ax a) (axis_sub los).

(** The loops read slice means from the untouched input and update the copy. *)
Definition subtract_mean_signal (a : arr3) (los : Z) : option arr3 :=
  match shape_at los a with
  | None => None
  | Some n => Some (fold_left (fun out i =>
                match axis_sub los with
                | Some ax => update_slice ax i (fun v => v - mean (slice_values ax a i)) out
                | None => out
                end) (seq 0 n) a)
  end.
Definition signal_overdensity (a : arr3) (los : Z) : option arr3 :=
  match shape_at los a with
  | None => None
  | Some n =>
      let q := fold_left (fun out i =>
                match axis_over los with
                | Some ax => update_slice ax i (fun v => v / mean (slice_values ax a i)) out
                | None => out
                end) (seq 0 n) a in
      Some (Arr (s0 q) (s1 q) (s2 q) (fun x y z => at3 q x y z - 1))
  end.

(** [apply_func_along_los] (statistics.py:114-144) for a function of the slice values. *)
Definition apply_func_along_los (a : arr3) (f : list R -> R) (los : Z) : option (list R) :=
  if ((los <? 0) || (3 <=? los))%Z then None   (* assertion *)
  else Some (map (fun i => f (slice_values (Z.to_nat los) a i)) (seq 0 (side (Z.to_nat los) a))).
