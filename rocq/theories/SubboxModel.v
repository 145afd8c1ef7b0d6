(** Position-dependent power spectrum: [src/tools21cm/position_dependent_power_spectrum.py].
    Cubes as in [BubbleModel] (functions on index triples); [power_spectrum_1d] is an argument that
    gives the spectrum's value in each bin. *)
From Coq Require Import List Arith ZArith QArith Qround Bool Lia.
From Verif Require Import PyBase QLib BubbleModel LosModel.
Import ListNotations.
Local Open Scope nat_scope.

Definition point : Type := Q * Q * Q.
(** [int(rL - L/2) <= x < int(rL + L/2)]: the slice bounds in position_dependent_power_spectrum.py:97-99
    (they are never negative for the centres used). *)
Definition in_slice (rL L : Q) (x : Z) : bool :=
  ((LosModel.truncate (rL - L / 2) <=? x) && (x <? LosModel.truncate (rL + L / 2)))%Z.
(** [_W_L]: position_dependent_power_spectrum.py:90-101. *)
Definition window (rL L : point) : field := fun x =>
  let '(r0, r1, r2) := rL in let '(l0, l1, l2) := L in let '(x0, x1, x2) := x in
  if in_slice r0 l0 x0 && in_slice r1 l1 x1 && in_slice r2 l2 x2 then 1%Q else 0%Q.
(** The edge lengths and centres of the sub-boxes: position_dependent_power_spectrum.py:65-66. *)
Definition edge (n : Z) (ncuts : nat) : Q := (inject_Z n / inject_Z (Z.of_nat ncuts))%Q.
Definition edges (n : shape3) (ncuts : nat) : point := let '(a, b, c) := n in (edge a ncuts, edge b ncuts, edge c ncuts).
Definition middle (l : Q) (i : nat) : Q := (l / 2 + inject_Z (Z.of_nat i) * l)%Q.
Definition centres (n : shape3) (ncuts : nat) : list point :=
  let '(l0, l1, l2) := edges n ncuts in
  flat_map (fun i => flat_map (fun j => map (fun k => (middle l0 i, middle l1 j, middle l2 k)) (seq 0 ncuts)) (seq 0 ncuts)) (seq 0 ncuts).
Definition volume (L : point) : Q := let '(a, b, c) := L in (a * b * c)%Q.
Definition times (a b : field) : field := fun x => (a x * b x)%Q.
(** [c2.sum()/V_L]. *)
Definition box_mean (n : shape3) (L : point) (cube : field) (rL : point) : Q :=
  (qsum (map (times cube (window rL L)) (all_indices n)) / volume L)%Q.
(** [np.mean] over the [n_box] sub-boxes, as in position_dependent_power_spectrum.py:83-85. *)
Definition over_boxes (ncuts : nat) (l : list Q) : Q := (qsum l / inject_Z (Z.of_nat (ncuts ^ 3)))%Q.
(** [integrated_bispectrum_cross]: position_dependent_power_spectrum.py:45-88; None is a failed
    assertion (or [x % 0]). *)
Definition divides (ncuts : nat) (n : shape3) : bool :=
  let '(a, b, c) := n in let m := Z.of_nat ncuts in
  negb (ncuts =? 0) && ((a mod m =? 0) && (b mod m =? 0) && (c mod m =? 0))%Z.
Definition same_shape (n m : shape3) : bool :=
  let '(a, b, c) := n in let '(d, e, f) := m in ((a =? d) && (b =? e) && (c =? f))%Z.
Definition integrated (ps : field -> nat -> Q) (n n' : shape3) (cube1 cube2 : field) (ncuts : nat) (normalize : bool) : option (nat -> Q) :=
  if negb (same_shape n n' && divides ncuts n) then None else
  let L := edges n ncuts in
  let pk rL := ps (times cube1 (window rL L)) in
  let d rL := box_mean n L cube2 rL in
  let B bin := over_boxes ncuts (map (fun rL => (pk rL bin * d rL)%Q) (centres n ncuts)) in
  let P bin := over_boxes ncuts (map (fun rL => pk rL bin) (centres n ncuts)) in
  let sig2 := over_boxes ncuts (map (fun rL => (d rL * d rL)%Q) (centres n ncuts)) in
  Some (fun bin => if normalize then (B bin / P bin / sig2)%Q else B bin).
(** [power_spectrum_response], [integrated_bispectrum]: position_dependent_power_spectrum.py:5-43. *)
Definition response ps n cube (cube2 : option (shape3 * field)) ncuts : option (nat -> Q) :=
  match cube2 with Some (n2, c2) => integrated ps n n2 cube c2 ncuts true | None => integrated ps n n cube cube ncuts true end.
Definition integrated_auto ps n cube ncuts normalize := integrated ps n n cube cube ncuts normalize.

(** The sliding windows of [integrated_bispectrum_cross_slide] along one axis:
    position_dependent_power_spectrum.py:123-128 (the cube's size along axis 0 is used for all axes).
    None is the ZeroDivisionError of [sn = 1] (or of an overlap of one). *)
Definition slide_centres (size sub : Z) (overlap : Q) : option (list Q) :=
  let l := inject_Z size in let s := inject_Z sub in
  let step := (s - overlap * s)%Q in
  if Qeq_bool step 0 then None else
  let sn := round_half_even ((l - s) / step + 1) in
  if (sn =? 1)%Z then None else
  let slide := round_half_even (s - (l - s) / inject_Z (sn - 1)) in
  Some (map (fun i => (s * (1 # 2) + inject_Z ((sub - slide) * Z.of_nat i))%Q) (seq 0 (Z.to_nat sn))).
