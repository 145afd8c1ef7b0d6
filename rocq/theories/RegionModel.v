(** Identifying regions by thresholds: [src/tools21cm/identify_regions.py]. Cubes are lists of
    cells in C order (values as rationals). The thresholds found by scikit-image's
    [threshold_triangle] and the labels and centres found by scikit-learn's [KMeans] are arguments. *)
From Coq Require Import List Arith ZArith QArith Bool Lia.
From Verif Require Import QLib.
Import ListNotations.
Local Open Scope nat_scope.

(** [bubbles_from_fixed_threshold]: identify_regions.py:71-94 (the comparison in 93-94), and the
    same comparison in 122-123 and 154-155. *)
Definition fixed_threshold (data : list Q) (threshold : Q) (upper_lim : bool) : list bool :=
  map (fun v => if upper_lim then Qle_bool v threshold else Qle_bool threshold v) data.
(** [bubbles_from_triangle3D]: identify_regions.py:96-123; [tri] is [threshold_triangle]. *)
Definition triangle3D (tri : list Q -> Q) (data : list Q) (upper_lim : bool) : list bool :=
  fixed_threshold data (tri data) upper_lim.

(** A cube of [n0] x [n1] x [n2] cells, its cells in C order, and the cells of one slice. *)
Record cube := { n0 : nat; n1 : nat; n2 : nat; cell : nat -> nat -> nat -> Q }.
Definition grid2 (a b : nat) (f : nat -> nat -> Q) : list Q := flat_map (fun i => map (f i) (seq 0 b)) (seq 0 a).
Definition cells (c : cube) : list Q := flat_map (fun i => grid2 (n1 c) (n2 c) (cell c i)) (seq 0 (n0 c)).
(** The slices the loop in identify_regions.py:150-152 goes through. Every [loc_axis] that is none
    of 0, -3, 1, -2 takes the else branch. *)
Definition slices (c : cube) (loc_axis : Z) : list (list Q) :=
  if ((loc_axis =? 0) || (loc_axis =? -3))%Z then map (fun i => grid2 (n1 c) (n2 c) (fun j k => cell c i j k)) (seq 0 (n0 c))
  else if ((loc_axis =? 1) || (loc_axis =? -2))%Z then map (fun j => grid2 (n0 c) (n2 c) (fun i k => cell c i j k)) (seq 0 (n1 c))
  else map (fun k => grid2 (n0 c) (n1 c) (fun i j => cell c i j k)) (seq 0 (n2 c)).
(** [np.median]: sort; the middle element, or the mean of the two middle ones. *)
Fixpoint insert (x : Q) (l : list Q) : list Q :=
  match l with [] => [x] | y :: r => if Qle_bool x y then x :: l else y :: insert x r end.
Definition sort (l : list Q) : list Q := fold_right insert [] l.
Definition median (l : list Q) : Q :=
  let s := sort l in let n := length l in
  if Nat.even n then ((nth (n / 2 - 1) s 0 + nth (n / 2) s 0) / 2)%Q else nth (n / 2) s 0%Q.
(** [bubbles_from_triangle2D]: identify_regions.py:125-155. *)
Definition triangle2D (tri : list Q -> Q) (c : cube) (upper_lim : bool) (loc_axis : Z) : list bool :=
  fixed_threshold (cells c) (median (map tri (slices c loc_axis))) upper_lim.

(** [X[y==label].max()]: None (ValueError) if no cell has the label. *)
Definition with_label (data : list Q) (labels : list nat) (l : nat) : list Q :=
  map fst (filter (fun p => snd p =? l) (combine data labels)).
Definition qmax (a b : Q) : Q := if Qle_bool a b then b else a.
Definition maximum (l : list Q) : option Q :=
  match l with [] => None | x :: r => Some (fold_left qmax r x) end.
(** [threshold_kmeans]: identify_regions.py:158-168. Note the strict comparison for lower limits. *)
Definition threshold_kmeans (data : list Q) (labels : list nat) (upper_lim : bool) : option (list bool * Q) :=
  match maximum (with_label data labels 0), maximum (with_label data labels 1) with
  | Some m0, Some m1 => let t := (m0 / 2 + m1 / 2)%Q in
      Some (map (fun v => if upper_lim then Qle_bool v t else Qltb t v) data, t)
  | _, _ => None
  end.
(** [centers.argmin()], [centers.argmax()]: index of the first extremum. *)
Fixpoint arg_best (better : Q -> Q -> bool) (l : list Q) (i best : nat) (v : Q) : nat :=
  match l with [] => best | x :: r => if better x v then arg_best better r (S i) i x else arg_best better r (S i) best v end.
Definition argmin (l : list Q) : nat := match l with [] => 0 | x :: r => arg_best (fun a b => Qltb a b) r 1 0 x end.
Definition argmax (l : list Q) : nat := match l with [] => 0 | x :: r => arg_best (fun a b => Qltb b a) r 1 0 x end.
(** [threshold_kmeans_3cluster]: identify_regions.py:170-183. *)
Definition threshold_kmeans_3cluster (labels : list nat) (centers : list Q) (upper_lim : bool) : list bool :=
  let true_label := if upper_lim then argmin centers else argmax centers in map (fun y => y =? true_label) labels.
(** [np.unique(data).size]. *)
Fixpoint distinct (l : list Q) : list Q :=
  match l with [] => [] | x :: r => if existsb (Qeq_bool x) r then distinct r else x :: distinct r end.
(** [bubbles_from_kmeans]: identify_regions.py:38-69. [fit k] is what KMeans with [k] clusters finds
    (labels and centres). *)
Definition kmeans (fit : nat -> list nat * list Q) (data : list Q) (upper_lim : bool) (n_clusters : nat) : option (list bool) :=
  if length (distinct data) <? 2 then Some (map (fun _ => true) data)
  else let n_clusters := if length (distinct data) =? 2 then 2 else n_clusters in
    if n_clusters =? 2 then option_map fst (threshold_kmeans data (fst (fit 2)) upper_lim)
    else Some (threshold_kmeans_3cluster (fst (fit 3)) (snd (fit 3)) upper_lim).
