(** [genus] and its neighbourhood counts: topology.py:143-205. *)
From Coq Require Import List ZArith Bool QArith.
Import ListNotations.
Local Open Scope Z_scope.

Definition pos := (Z * Z * Z)%type.
Definition upto (n : Z) : list Z := map Z.of_nat (seq 0 (Z.to_nat n)).
Definition grid (s : pos) : list pos := let '(a, b, c) := s in list_prod (list_prod (upto a) (upto b)) (upto c).
(** mode='wrap'. *)
Definition wrap (s x : pos) : pos := let '(a, b, c) := s in let '(i, j, k) := x in (i mod a, j mod b, k mod c).
Definition zsum (l : list Z) : Z := fold_right Z.add 0 l.
Definition offsets : list pos := grid (3, 3, 3).
(** Cell [x] of a convolution with a 3x3x3 kernel looks at [x+1-o] for kernel index [o]. *)
Definition look (x o : pos) : pos := let '(i, j, k) := x in let '(p, q, r) := o in (i + 1 - p, j + 1 - q, k + 1 - r).
Definition kernel := pos -> Z.
Definition convolve (s : pos) (d : pos -> Z) (w : kernel) (x : pos) : Z := zsum (map (fun o => w o * d (wrap s (look x o))) offsets).
Definition ones : kernel := fun _ => 1.
Definition total (w : kernel) : Z := zsum (map w offsets).
(** [count_neighbors_once] (200-205). The result of scipy's convolve has the type of its input: for booleans anything but zero becomes one. *)
Definition as_int (v : Z) : Z := v.
Definition as_bool (v : Z) : Z := if Z.eqb v 0 then 0 else 1.
Definition count_once (cast : Z -> Z) (s : pos) (d : pos -> Z) (w : kernel) : Z :=
  Z.of_nat (length (filter (fun x => let neb26 := cast (convolve s d ones x) * d x in let neba := cast (convolve s d w x) * d x in Z.eqb neba neb26 && Z.eqb neba (total w)) (grid s))).
(** [np.rot90] of a 3x3x3 array by 1, 2 or 3 quarter turns in the plane of the first two axes, and by a half turn in that of the first and last. *)
Definition rot1 (w : kernel) : kernel := fun o => let '(i, j, k) := o in w (j, 2 - i, k).
Definition rot2 (w : kernel) : kernel := fun o => let '(i, j, k) := o in w (2 - i, 2 - j, k).
Definition rot3 (w : kernel) : kernel := fun o => let '(i, j, k) := o in w (2 - j, i, k).
Definition half (w : kernel) : kernel := fun o => let '(i, j, k) := o in w (2 - i, j, 2 - k).
(** [count_neighbors] (189-198). *)
Definition turns (w : kernel) : list kernel := let w4 := half w in [w; rot1 w; rot2 w; rot3 w; w4; rot1 w4; rot2 w4; rot3 w4].
Definition count_neighbors (cast : Z -> Z) (s : pos) (d : pos -> Z) (w : kernel) : Z := zsum (map (count_once cast s d) (turns w)).
(** The four structuring elements (163-185). *)
Definition pos_eqb (a b : pos) : bool := let '(i, j, k) := a in let '(p, q, r) := b in Z.eqb i p && Z.eqb j q && Z.eqb k r.
Definition stel (l : list pos) : kernel := fun o => if existsb (pos_eqb o) l then 1 else 0.
Definition stela := stel [(0,0,0); (0,0,1); (0,1,0); (0,1,1); (1,0,0); (1,0,1); (1,1,0); (1,1,1)].
Definition steld := stel [(0,0,0); (0,0,1); (0,0,2); (0,1,0); (0,1,1); (0,1,2); (1,1,0); (1,1,1); (1,1,2); (1,0,0); (1,0,1); (1,0,2); (2,0,1); (2,0,2); (2,1,1); (2,1,2)].
Definition stele := stel [(0,1,0); (0,1,1); (0,1,2); (1,1,0); (1,1,2); (1,2,1); (1,2,2); (2,2,1); (2,1,1); (1,0,0); (1,0,1); (2,0,1); (0,0,0); (0,0,1); (0,0,2); (1,0,2); (2,0,2); (2,1,2); (2,2,2); (1,1,1)].
Definition stelf := stel [(0,1,0); (0,1,1); (0,2,1); (1,2,1); (1,2,2); (1,1,2); (2,1,2); (2,1,1); (2,0,1); (1,0,1); (1,0,0); (1,1,0); (0,0,0); (0,0,1); (0,0,2); (0,2,2); (1,0,2); (2,0,2); (1,1,1)].
(** [genus] (143-186) of the thresholded array: [data>=xth] is an array of booleans, [1-data] one of integers. *)
Definition fg (b : pos -> bool) : pos -> Z := fun x => if b x then 1 else 0.
Definition bg (b : pos -> bool) : pos -> Z := fun x => 1 - fg b x.
Definition both (s : pos) (b : pos -> bool) (w : kernel) : Z := count_neighbors as_bool s (fg b) w + count_neighbors as_int s (bg b) w.
Definition genus (s : pos) (b : pos -> bool) : Q := (1 + inject_Z (both s b steld + 2 * (both s b stele + both s b stelf) - both s b stela) / 8)%Q.
