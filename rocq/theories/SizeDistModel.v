(** Model of [dist_from_volumes] and [get_distribution] (bubble_stats.py:342-400), over the
    reals (no rounding). *)
From Coq Require Import List Arith ZArith Reals Bool.
From Verif Require Import RLib.
Import ListNotations.
Local Open Scope R_scope.

(** * np.histogram(x, bins=n) for an integer n and a non-empty x *)
Definition rmin (x : R) (l : list R) : R := fold_right Rmin x l.
Definition rmax (x : R) (l : list R) : R := fold_right Rmax x l.
(** [_get_outer_edges]: the range of the data, widened if it is a single point. *)
Definition outer_edges (x : R) (l : list R) : R * R :=
  let lo := rmin x l in let hi := rmax x l in
  if Req_EM_T lo hi then (lo - 1/2, hi + 1/2) else (lo, hi).
Definition linspace_edges (n : nat) (lo hi : R) : list R :=
  map (fun i => lo + INR i * ((hi - lo) / INR n)) (seq 0 (S n)).
(** Bin [i] of [n]: half open, except the last one. *)
Definition in_bin (n : nat) (edges : list R) (i : nat) (x : R) : bool :=
  (if Rle_dec (nth i edges 0) x then true else false) &&
  (if Nat.eqb (S i) n then (if Rle_dec x (nth (S i) edges 0) then true else false)
   else (if Rlt_dec x (nth (S i) edges 0) then true else false)).
Definition histogram (n : nat) (x : R) (l : list R) : list nat * list R :=
  let e := outer_edges x l in
  let edges := linspace_edges n (fst e) (snd e) in
  (map (fun i => length (filter (in_bin n edges i) (x :: l))) (seq 0 n), edges).

(** * dist_from_volumes (bubble_stats.py:362-382) *)
Definition log10 (x : R) : R := ln x / ln 10.
Definition pow10 (x : R) : R := Rpower 10 x.
(** [(vols*3./4./np.pi)**(1./3.)] *)
Definition radius_of (v : R) : R := Rpower (v * 3 / 4 / PI) (1 / 3).

Definition fractions (h : list nat) : list R := map (fun c => INR c / INR (list_sum h)) h.
Definition nonzero (l : list R) : list R := filter (fun d => if Req_EM_T d 0 then false else true) l.
(** [d[d!=0].min()/1000.]; [null_factor] replaces it. *)
Definition dummy (null : option R) (d : list R) : R :=
  match null with
  | Some f => f
  | None => match nonzero d with [] => 0 | x :: r => rmin x r / 1000 end
  end.
Definition dist_from_volumes (v : R) (vs : list R) (resolution : R) (n : nat) (null : option R)
  : list R * list R * list R * list R :=
  let hv := histogram n (log10 v) (map log10 vs) in
  let hr := histogram n (log10 (radius_of v)) (map (fun u => log10 (radius_of u)) vs) in
  let d_v := fractions (fst hv) ++ [0] in
  let d_v := let dm := dummy null d_v in map (fun d => if Req_EM_T d 0 then dm else d) d_v in
  let d_r := 0 :: fractions (fst hr) in
  let d_r := dummy null d_r :: tl d_r in
  (map (fun e => pow10 e * resolution ^ 3) (snd hv), d_v, map (fun e => pow10 e * resolution) (snd hr), d_r).

(** * get_distribution (bubble_stats.py:385-400) for a label array *)
(** [sizes[i] = len(array[array==i+1])] for i below the maximum. *)
Definition label_sizes (array : list nat) : list nat :=
  map (fun i => length (filter (Nat.eqb (S i)) array)) (seq 0 (list_max array)).
(** An absent label gives a size 0, log(0) = -inf and a ValueError from np.histogram; no
    label at all gives a 0/0. Both are [None]. *)
Definition get_distribution (array : list nat) (resolution : R) (n : nat) : option (list nat * list R * list R) :=
  let sizes := label_sizes array in
  if existsb (Nat.eqb 0) sizes then None else
  match map (fun s => ln (INR s)) sizes with
  | [] => None
  | x :: l =>
      let h := histogram n x l in
      Some (sizes, map (fun c => c / rsum (map INR (fst h) ++ [0])) (map INR (fst h) ++ [0]),
            map (fun e => exp e * resolution) (snd h))
  end.
