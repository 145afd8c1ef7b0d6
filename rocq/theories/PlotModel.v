(** Model of what the plotting functions hand to matplotlib: [plot_fof_sizes] (bubble_stats.py:402-414), [plot_slice], [plot_hist], the order of the
    corner plot and the panels of the forest plot (plotting.py:24-136, 393-511). Drawing itself is not modelled. *)
From Coq Require Import String List Arith ZArith Reals Bool.
From Verif Require Import RLib SizeDistModel.
Import ListNotations.
Local Open Scope R_scope.

(** [plot_fof_sizes] (bubble_stats.py:402-414) of a non-empty list of sizes [v :: vs], with an integer number [n] of bins. [LB] is [conv.LB]. *)
Definition least_tenth (zz : list R) : R := match nonzero zz with [] => 0 | x :: r => rmin x r / 10 end.
Definition plot_fof_sizes (LB v : R) (vs : list R) (n : nat) (boxsize : option R) (normalize : string) : list R * list R * R :=
  let ht := histogram n (log10 v) (map log10 vs) in
  let xx := map pow10 (snd ht) in
  let yy := map (fun i => INR (nth i (fst ht) 0%nat) * nth i xx 0) (seq 0 n) in
  let box := match boxsize with Some b => b | None => LB end in
  let zz := if String.eqb normalize "ionized" then map (fun y => y / rsum yy) yy else map (fun y => y / box ^ 3) yy in
  let d := least_tenth zz in
  (xx, map (fun z => if Req_EM_T z 0 then d else z) zz ++ [d], d).

(** [plot_slice] (plotting.py:54-72): the image, with [data_slice[i]] of Python (negative numbers count from the end), and its extent. The logarithm of the values
    ([logscale]) and labels are left out. *)
Inductive drawn (V : Type) := Image (rows cols : nat) (f : nat -> nat -> V) | Failed (e : string).
Arguments Image {V}. Arguments Failed {V}.
Definition py_pos (n : nat) (i : Z) : option nat := let m := Z.of_nat n in if (Z.leb (- m) i && Z.ltb i m)%bool then Some (Z.to_nat (if Z.ltb i 0 then i + m else i)%Z) else None.
Definition plot_slice {V} (shape : nat * nat * nat) (data : nat -> nat -> nat -> V) (los_axis slice_num : Z) : drawn V :=
  let '(n0, n1, n2) := shape in
  if Z.eqb los_axis 0 then match py_pos n0 slice_num with Some i => Image n1 n2 (fun r c => data i r c) | None => Failed "IndexError" end
  else if Z.eqb los_axis 1 then match py_pos n1 slice_num with Some i => Image n0 n2 (fun r c => data r i c) | None => Failed "IndexError" end
  else if Z.eqb los_axis 2 then match py_pos n2 slice_num with Some i => Image n0 n1 (fun r c => data r c i) | None => Failed "IndexError" end
  else Failed "AssertionError".
(** [ext = [0, conv.LB, 0, conv.LB]] (plotting.py:67): left, right, bottom, top. *)
Definition slice_extent (LB : R) : R * R * R * R := (0, LB, 0, LB).
(** matplotlib's [imshow]: where the centre of the pixel of row [r] and column [c] is drawn. [lower] is [origin='lower'], which the caller
    may pass on; the default puts row 0 at the top. *)
Definition imshow_centre (lower : bool) (ext : R * R * R * R) (rows cols r c : nat) : R * R :=
  let '(x0, x1, bottom, top) := ext in
  (x0 + (INR c + 1 / 2) * ((x1 - x0) / INR cols),
   if lower then bottom + (INR r + 1 / 2) * ((top - bottom) / INR rows) else top - (INR r + 1 / 2) * ((top - bottom) / INR rows)).

(** [plot_hist] (plotting.py:118-122): the bins passed on, from the type of the data and the caller's [bins]. *)
Inductive bins_arg := Number (n : nat) | Edges (l : list R).
Definition linspace (lo hi : R) (n : nat) : list R := map (fun i => lo + INR i * ((hi - lo) / INR (n - 1))) (seq 0 n).
Definition hist_bins (xfrac : bool) (bins : option bins_arg) : bins_arg :=
  match xfrac, bins with true, None => Edges (linspace 0 1 30) | _, _ => Number 30 end.

(** [_plot_corner_backend] (plotting.py:393-455): from the number of parameters of each distribution, in the order they were added.
    [sorted] with the key [-k] is a stable sort. Full distributions are drawn on the main figure, others transplanted into it. *)
Fixpoint insert_desc (x : nat * nat) (l : list (nat * nat)) : list (nat * nat) :=
  match l with [] => [x] | y :: r => if Nat.ltb (snd x) (snd y) then y :: insert_desc x r else x :: l end.
Definition drawing_order (ks : list nat) : list (nat * nat) := fold_right insert_desc [] (combine (seq 0 (length ks)) ks).
Fixpoint insert_key {A} (x : nat * A) (l : list (nat * A)) : list (nat * A) := match l with [] => [x] | y :: r => if Nat.leb (fst x) (fst y) then x :: l else y :: insert_key x r end.
(** The legend (446-454): the handles made while drawing, by the number of the distribution. *)
Definition legend {A} (dists : list (A * nat)) : list A :=
  let handle_map := flat_map (fun o => match nth_error dists (fst o) with Some d => [(fst o, fst d)] | None => [] end) (drawing_order (map snd dists)) in
  map snd (fold_right insert_key [] handle_map).
(** Whether [fig] exists when a distribution is transplanted (402, 424-432): [None] stands for the AttributeError. *)
Fixpoint draw (max_params : nat) (fig : bool) (order : list (nat * nat)) : option bool :=
  match order with
  | [] => Some fig
  | (_, k) :: r => if Nat.eqb k max_params then draw max_params true r else if fig then draw max_params fig r else None
  end.
Definition corner_backend (ks : list nat) : option bool := draw (list_max ks) false (drawing_order ks).

(** [plot_forest] (plotting.py:483-511), panel [p]: row, point, and the two ends of the inner and outer bars; matplotlib draws from
    [x - err] to [x + err]. A distribution is its list of [(median, (lo1, hi1), (lo2, hi2))], one per parameter. *)
Definition ci := (R * (R * R) * (R * R))%type.
Definition bar (x err_lo err_hi : R) : R * R := (x - err_lo, x + err_hi).
Definition forest_row (p i : nat) (d : list ci) : list (nat * R * (R * R) * (R * R)) :=
  match nth_error d p with
  | None => []
  | Some (m, (lo1, hi1), (lo2, hi2)) => [(i, m, bar m (m - lo1) (hi1 - m), bar m (m - lo2) (hi2 - m))]
  end.
Definition forest_panel (p : nat) (dists : list (list ci)) : list (nat * R * (R * R) * (R * R)) := flat_map (fun x => forest_row p (fst x) (snd x)) (combine (seq 0 (length dists)) dists).
