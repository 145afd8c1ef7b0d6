(** Model of the line-of-sight operations that smooth or rebin a light cone:
    [smooth_lightcone_tophat] (smoothing.py:443-462), [bin_lightcone_in_frequency] and
    [bin_lightcone_in_mpc] (angular_coordinates.py:274-343). They act on every pixel alike, so
    the model is about one line of sight. Distances and frequencies are given (the cosmology
    functions are not modelled); numbers are exact. *)
From Coq Require Import List Arith ZArith QArith Qround Bool.
From Verif Require Import PyBase QLib FindIdxModel.
Import ListNotations.
Local Open Scope nat_scope.

(** [hf.find_idx(ar, v)] for one value; [None]: it raises or is NaN (and [int(nan)] raises). *)
Definition find_one (ar : list Q) (v : Q) : option Q :=
  match find_idx store_float ar [v] with
  | Some (_, [Some r]) => Some r
  | _ => None
  end.
(** [np.mean]; NaN for an empty slice. *)
Definition mean (l : list Q) : option Q :=
  match l with [] => None | _ => Some (qsum l / inject_Z (Z.of_nat (length l)))%Q end.

(** One output slice. [None] for an exception, [Some None] for NaN. The indices are never
    negative here, so slicing needs no wrap-around. *)
Definition smooth_slice (redshifts dz line : list Q) (i : nat) : option (option Q) :=
  let z := nth i redshifts 0%Q in let d := nth i dz 0%Q in
  match find_one redshifts (z - d / 2)%Q, find_one redshifts (z + d / 2)%Q with
  | Some lo, Some hi => Some (mean (py_slice line (Z.to_nat (Qceiling lo)) (Z.to_nat (Qceiling hi + 1))))
  | _, _ => None
  end.

(** [np.arange(start, stop, step)] *)
Definition arange (start stop step : Q) : list Q :=
  map (fun i => start + inject_Z (Z.of_nat i) * step)%Q (seq 0 (Z.to_nat (Qceiling ((stop - start) / step)))).
Definition truncate (q : Q) : Z := if Qle_bool 0 q then Qfloor q else Qceiling q.

(** Cell [k] of the full convolution of the line of sight, continued by zeros, with a top hat
    of [s] cells: scipy.signal.fftconvolve, which is taken to compute the convolution. *)
Definition cell_or_zero (line : list Q) (k : Z) : Q := if (k <? 0)%Z then 0%Q else nth (Z.to_nat k) line 0%Q.
Definition conv_full (s : nat) (line : list Q) (k : Z) : Q :=
  qsum (map (fun b => / inject_Z (Z.of_nat s) * cell_or_zero line (k - Z.of_nat b))%Q (seq 0 s)).
(** [mode='same']: the central part, which starts at (s-1)//2. *)
Definition conv_same (s : nat) (line : list Q) (k : Z) : Q := conv_full s line (k + (Z.of_nat s - 1) / 2)%Z.

Fixpoint all_some {A} (l : list (option A)) : option (list A) :=
  match l with
  | [] => Some []
  | Some x :: r => match all_some r with Some l' => Some (x :: l') | None => None end
  | None :: _ => None
  end.

(** [bin_lightcone_in_mpc]: the slices and the distances of the returned redshifts. *)
Definition bin_in_mpc (distances line : list Q) (cell : Q) : option (list Q * list Q) :=
  let d0 := nth 0 distances 0%Q in let d1 := last distances 0%Q in
  let n := ((d1 - d0) / cell)%Q in
  let outd := arange d0 d1 cell in
  if Qeq_bool n 0 then None else
  let s := round_half_even (inject_Z (Z.of_nat (length distances)) / n) in
  if (s <? 0)%Z || (truncate n <? 0)%Z then None else
  let slices := Z.to_nat (truncate n) in
  if (s =? 0)%Z && (0 <? slices) then None else
  match all_some (map (fun i => option_map (fun r => conv_same (Z.to_nat s) line (truncate r)) (find_one distances (nth i outd 0%Q))) (seq 0 slices)) with
  | Some l => Some (l, outd)
  | None => None
  end.

(** [bin_lightcone_in_frequency]: [ratio] is the width in cells of the last output bin. *)
Definition bin_in_frequency (freqs line : list Q) (dnu ratio : Q) : option (list Q * list Q) :=
  let outf := arange (nth 0 freqs 0%Q) (last freqs 0%Q) (- dnu)%Q in
  if length outf <? 2 then None else
  let s := Z.to_nat (Z.max 1 (round_half_even ratio)) in
  match all_some (map (fun nu => option_map (fun r => conv_full s line (truncate r)) (find_one freqs nu)) outf) with
  | Some l => Some (l, outf)
  | None => None
  end.
