(** Spherical-average sizes: spa_np.py:7-26 and bubble_stats.py:53-88; kernels of box_counting.py. *)
From Coq Require Import List ZArith Reals.
Import ListNotations.
Local Open Scope R_scope.

(** [np.linspace]. *)
Definition linspace (a b : R) (m : nat) : list R := map (fun i => a + INR i * ((b - a) / (INR m - 1))) (seq 0 m).
(** Lines 11-13; [linspace] with one point gives its start ([0/0] is [0] in Coq, so the formula agrees). *)
Definition scales (linear : bool) (Rmx : nat) (nscales : nat) : list R :=
  if linear then linspace 1 (INR Rmx / 2) nscales else map exp (linspace (ln 2) (ln (INR Rmx / 2)) nscales).

(** [skimage.morphology.ball(ra)] (line 20): [N = int(2*ra+1)] points from [-ra] to [ra] along each axis,
    ones where the squared distance is at most [ra**2]; in units of [ra/(N-1)] the points are
    [2*t-(N-1)]. Rounding at the surface is not modelled. *)
Definition ball_points (ra : R) : Z := Int_part (2 * ra + 1).
Definition zseq (n : Z) : list Z := map Z.of_nat (seq 0 (Z.to_nat n)).
Definition triples (l : list Z) : list (Z * Z * Z) := list_prod (list_prod l l) l.
Definition in_ball (N : Z) (t : Z * Z * Z) : bool := let '(a, b, c) := t in let f := fun u => ((2 * u - (N - 1)) * (2 * u - (N - 1)))%Z in (f a + f b + f c <=? (N - 1) * (N - 1))%Z.
Definition ball (N : Z) : list (Z * Z * Z) := filter (in_ball N) (triples (zseq N)).
(** [fftconvolve(data, kernel/kernel.sum(), mode='same')] (line 21) at one cell: the box is surrounded by zeros and
    the kernel centred at point [(N-1)//2]. *)
Definition cube := Z -> Z -> Z -> R.
Definition padded (n : Z) (d : cube) : cube := fun i j k => if ((0 <=? i) && (i <? n) && (0 <=? j) && (j <? n) && (0 <=? k) && (k <? n))%Z%bool then d i j k else 0.
Definition total (l : list R) : R := fold_right Rplus 0 l.
Definition convolved (n : Z) (d : cube) (ker : list (Z * Z * Z)) (N i j k : Z) : R :=
  let c := ((N - 1) / 2)%Z in
  total (map (fun t => let '(a, b, e) := t in padded n d (i + c - a)%Z (j + c - b)%Z (k + c - e)%Z) ker) / INR (length ker).
Definition smooth (n : Z) (d : cube) (ra : R) (i j k : Z) : R := convolved n d (ball (ball_points ra)) (ball_points ra) i j k.
(** Lines 16-22: one cell of [rad] after the loop. *)
Definition rad (xth : R) (sm : R -> R) (rs : list R) : R := fold_left (fun acc ra => if Rle_dec xth (sm ra) then ra else acc) rs 0.
(** Line 25: number of cells with that value. *)
Definition cells (n : Z) : list (Z * Z * Z) := triples (zseq n).
Definition count_eq (l : list R) (v : R) : nat := length (filter (fun w => if Req_EM_T w v then true else false) l).
Definition rad_field (n : Z) (d : cube) (xth : R) (rs : list R) : list R := map (fun p => let '(i, j, k) := p in rad xth (fun ra => smooth n d ra i j k) rs) (cells n).
Definition counts (n : Z) (d : cube) (xth : R) (rs : list R) : list R := map (fun r => INR (count_eq (rad_field n d xth rs) r)) rs.
(** [spa] (bubble_stats.py:81-88). [None]: division of zero by zero. *)
Definition spa (n : Z) (d : cube) (xth boxsize : R) (nscales : nat) (upper_lim linear : bool) : option (list R * list R) :=
  let d' := if upper_lim then (fun i j k => -1 * d i j k) else d in
  let x' := if upper_lim then -1 * xth else xth in
  let rs := scales linear (Z.to_nat n) nscales in
  let ni := counts n d' x' rs in
  if Req_EM_T (total ni) 0 then None else Some (map (fun r => r * boxsize / IZR n) rs, map (fun v => v / total ni) ni).

(** box_counting.py:12-23: kernel as a function on [size]^3; the two-dimensional mask selects whole columns. *)
Definition kernel_ball (size : Z) (x y z : Z) : bool := let h := (size / 2)%Z in ((x - h) * (x - h) + (y - h) * (y - h) <=? h * h)%Z.
Definition kernel_cells (size : Z) : list (Z * Z * Z) := filter (fun t => let '(x, y, z) := t in kernel_ball size x y z) (triples (zseq size)).
