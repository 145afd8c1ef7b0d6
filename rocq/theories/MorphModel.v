(** Binary morphology by convolution ([src/tools21cm/morph.py]) and granulometry
    ([src/tools21cm/bubble_stats.py]).

    Images are predicates on points (lists of integers, one per axis) together with a shape.
    [scipy.signal.fftconvolve] is taken to be exact; the code's margins of 0.5 are there to absorb its
    rounding noise. *)
From Coq Require Import List Arith ZArith QArith Bool Lia.
From Verif Require Import QLib.
Import ListNotations.
Local Open Scope nat_scope.

Definition point : Type := list Z.
Definition image : Type := point -> bool.
Fixpoint zip (f : Z -> Z -> Z) (a b : point) : point :=
  match a, b with x :: a', y :: b' => f x y :: zip f a' b' | _, _ => [] end.
Fixpoint inb (shape : list Z) (x : point) : bool :=
  match shape, x with
  | [], [] => true
  | n :: s, a :: x' => ((0 <=? a) && (a <? n))%Z && inb s x'
  | _, _ => false
  end.
(** All points of a shape. *)
Fixpoint grid (shape : list Z) : list point :=
  match shape with [] => [[]] | n :: s => flat_map (fun i => map (cons (Z.of_nat i)) (grid s)) (seq 0 (Z.to_nat n)) end.
(** The middle of a kernel in mode 'same': scipy's [_centered] keeps the part of the full convolution
    that starts at (k-1)//2. *)
Definition centre (k : list Z) : point := map (fun n => ((n - 1) / 2)%Z) k.
(** [fftconvolve(A, B, 'same')[x]] for boolean arrays: the number of kernel cells [q] with
    A[x + centre - q], nothing outside the image. *)
Definition convolve (shape k : list Z) (A B : image) (x : point) : nat :=
  length (filter (fun q => B q && let y := zip Z.sub (zip Z.add x (centre k)) q in inb shape y && A y) (grid k)).
Definition number (n : nat) : Q := inject_Z (Z.of_nat n).
(** [binary_dilation]: morph.py:10-11. *)
Definition dilation (shape k : list Z) (A B : image) : image := fun x => Qltb (1 # 2) (number (convolve shape k A B x)).
(** [_erode_v2], which is [binary_erosion]: morph.py:13-14, 24-26. *)
Definition count_nonzero (k : list Z) (B : image) : nat := length (filter B (grid k)).
Definition erosion (shape k : list Z) (A B : image) : image :=
  let thresh := (number (count_nonzero k B) - (1 # 2))%Q in fun x => Qltb thresh (number (convolve shape k A B x)).
(** [_erode_v1]: morph.py:16-22: the complement, padded with ones by R, dilated, cropped and inverted
    (R > 0; the code crops three axes). *)
Definition erode_v1 (shape k : list Z) (A B : image) (R : Z) : image :=
  let shape' := map (fun n => (n + 2 * R)%Z) shape in
  let A_inv := fun y => let x := map (fun a => (a - R)%Z) y in if inb shape x then negb (A x) else true in
  fun x => negb (dilation shape' k A_inv B (map (fun a => (a + R)%Z) x)).
(** [binary_opening]: morph.py:29-54. *)
Definition opening (shape k : list Z) (A B : image) : image := dilation shape k (erosion shape k A B) B.

(** [disk_structure], [disk], [ball]: bubble_stats.py:416-421, 496-507, for any number of axes. *)
Definition sum_squares (x : point) : Z := fold_right (fun a s => (a * a + s)%Z) 0%Z x.
Definition disk_shape (dim : nat) (n : Z) : list Z := repeat (2 * n + 1)%Z dim.
Definition disk (n : Z) : image := fun x => (sum_squares (map (fun a => (a - n)%Z) x) <=? n * n)%Z.
(** [morph.binary_opening(data, structure=disk(n)).sum()]: bubble_stats.py:433, 515-520. *)
Definition area (shape : list Z) (data : image) (n : Z) : nat :=
  length (filter (opening shape (disk_shape (length shape) n) data (disk n)) (grid shape)).

(** [granulometry_CDF]: bubble_stats.py:424-438; [shuffle] is what [np.random.shuffle] does;
    [argsort] and the indexing amount to sorting pairs by size. *)
Fixpoint insert_by (p : Z * nat) (l : list (Z * nat)) : list (Z * nat) :=
  match l with [] => [p] | q :: r => if (fst p <=? fst q)%Z then p :: l else q :: insert_by p r end.
Definition granulometry_CDF (shape : list Z) (data : image) (shuffle : list Z -> list Z) (sizes : list Z) : list nat :=
  let shuffled := shuffle sizes in
  map snd (fold_right insert_by [] (map (fun n => (n, area shape data n)) shuffled)).
(** The loop over radii in [_granulometry]: bubble_stats.py:513, 526-531: areas after the first zero
    stay zero. [areas f m n] covers the radii n .. n+m-1. *)
Fixpoint areas (f : Z -> nat) (m : nat) (n : Z) : list nat :=
  match m with 0 => [] | S m' => let a := f n in if a =? 0 then repeat 0 m else a :: areas f m' (n + 1) end.
(** [pattern_spectrum]: bubble_stats.py:535: differences over the first area, and a final zero. *)
Fixpoint differences (l : list nat) : list Q :=
  match l with a :: ((b :: _) as r) => (number a - number b)%Q :: differences r | _ => [] end.
Definition pattern_spectrum (l : list nat) : list Q := map (fun d => (d / number (nth 0 l 0%nat))%Q) (differences l) ++ [0%Q].
(** [_granulometry]: bubble_stats.py:494-538 (numpy before 1.24; later versions lack [np.int]). *)
Definition granulometry (shape : list Z) (data : image) : list nat * list Q :=
  let s := fold_right Z.max 0%Z shape in
  let a := areas (area shape data) (Z.to_nat (s / 2)) 0 in (a, pattern_spectrum a).
