(** Rays from a point and averaged rays, rebinning, granulometric sizes and the h-transform: bubble_stats.py:164-339, 440-491, 544-554, and the
    [point] argument of mfp_np.py:82-93, 118-127. Random draws are arguments; exact reals. *)
From Coq Require Import List Arith ZArith Reals Bool QArith Qreals.
From Verif Require Import RLib FourierModel MfpModel SizeDistModel.
From Verif Require MorphModel.
Import ListNotations.
Local Open Scope R_scope.

(** What a call gives: a value, [None], the number 0 (wrong dimension), or an exception. *)
Inductive answer (A : Type) := Value (a : A) | Nothing | Zero | Error.
Arguments Value {A} a. Arguments Nothing {A}. Arguments Zero {A}. Arguments Error {A}.
(** Coordinates given as Python ints, numpy integers, or floats (lists and tuples; non-negative). *)
Inductive point := PyInt (p : list nat) | NpInt (p : list nat) | Floats (p : list R).
Fixpoint within (shape p : list nat) : bool := match shape, p with n :: s, i :: r => (i <? n)%nat && within s r | [], [] => true | _, _ => false end.
Definition rays_from (p : list nat) (dirs : list (list R)) : list ray := map (fun d => (map INR p, d)) dirs.
(** mfp_np.py:86-93: in 3-D only Python numbers are looked up; numpy integers go on unchecked. *)
Definition mfp3d_point (shape : list nat) (roi : list nat -> bool) (p : point) (dirs : list (list R)) : answer (list nat) :=
  match p with
  | Floats _ => Error
  | NpInt q => Value (ray_loop shape roi (longest_3d shape) (rays_from q dirs))
  | PyInt q => if within shape q then if roi q then Value (ray_loop shape roi (longest_3d shape) (rays_from q dirs)) else Nothing else Error
  end.
(** mfp_np.py:122-127: in 2-D every point is looked up. *)
Definition mfp2d_point (shape : list nat) (roi : list nat -> bool) (p : point) (dirs : list (list R)) : answer (list nat) :=
  match p with
  | Floats _ => Error
  | NpInt q | PyInt q => if within shape q then if roi q then Value (ray_loop shape roi (longest_2d shape) (rays_from q dirs)) else Nothing else Error
  end.
(** [mfp_from_point] (255-329) without rebinning. [dirs]: the directions of [iterations] rays; [dirs0]: of the 3 rays used without a region. *)
Definition mfp_from_point (shape : list nat) (data : list nat -> R) (p : point) (xth : R) (upper_lim : bool) (iterations : nat) (boxsize : R) (dirs dirs0 : list (list R)) : answer (list R * list R) :=
  let data := if upper_lim then fun i => -1 * data i else data in
  let xth := if upper_lim then -1 * xth else xth in
  let check_box := length (filter (fun i => geb (data i) xth) (indices shape)) in
  let data := if Nat.eqb check_box 0 then fun _ => 1 else data in
  let dirs := if Nat.eqb check_box 0 then dirs0 else dirs in
  let roi := fun i => geb (data i) xth in
  let out := match length shape with 2%nat => mfp2d_point shape roi p dirs | 3%nat => mfp3d_point shape roi p dirs | _ => Zero end in
  match out with
  | Value h => let nn := if Nat.eqb check_box 0 then map (fun _ => 0) h else map (fun c => INR c / INR iterations) h in
               Value (map (fun k => INR k * boxsize / INR (hd 0%nat shape)) (seq 0 (length h)), nn)
  | Nothing => Nothing | Zero => Zero | Error => Error
  end.

(** [compute_ray_length] (220-223): the average over the rays that ended; nan if none did. *)
Definition weighted (h : list nat) : R := rsum (map (fun k => INR (nth k h 0%nat) * INR k) (seq 0 (length h))).
Definition average (h : list nat) : option R := if Nat.eqb (list_sum h) 0 then None else Some (weighted h / INR (list_sum h)).
(** [ray_list[ray_list>0]]: nan is not. *)
Fixpoint positive (l : list (option R)) : list R :=
  match l with [] => [] | Some v :: r => if Rlt_dec 0 v then v :: positive r else positive r | None :: r => positive r end.
(** [np.histogram(..., density=True, bins=50)]: counts over widths over their total. *)
Definition density (h : list nat * list R) : list R :=
  map (fun i => INR (nth i (fst h) 0%nat) / (nth (S i) (snd h) 0 - nth i (snd h) 0) / INR (list_sum (fst h))) (seq 0 (length (fst h))).
Definition bin_middle (edges : list R) (i : nat) : R := exp (nth (S i) edges 0 / 2 + nth i edges 0 / 2).
(** [averaged_mfp] (164-253) without rebinning. Each draw: the position of the start cell in the list of selected cells and the directions of
    its rays; the coordinates are numpy integers. Without any positive average the densities are 0/0: [None]. *)
Definition averaged_mfp (shape : list nat) (data : list nat -> R) (xth : R) (upper_lim : bool) (boxsize : R) (draws draws0 : list (nat * list (list R))) : answer (list R * list (option R)) :=
  let data := if upper_lim then fun i => -1 * data i else data in
  let xth := if upper_lim then -1 * xth else xth in
  let check_box := length (filter (fun i => geb (data i) xth) (indices shape)) in
  let data := if Nat.eqb check_box 0 then fun _ => 1 else data in
  let draws := if Nat.eqb check_box 0 then draws0 else draws in
  let roi := fun i => geb (data i) xth in
  if Nat.eqb (length shape) 3 then
    match filter roi (indices shape) with
    | [] => Error
    | loc =>
      let ray_list := map (fun d => average (ray_loop shape roi (longest_3d shape) (rays_from (nth (fst d) loc []) (snd d)))) draws in
      let h := match positive ray_list with [] => (repeat 0%nat 50, linspace_edges 50 0 1) | x :: r => histogram 50 (ln x) (map ln r) end in
      let nn := match positive ray_list with [] => repeat None 50 | _ => map Some (density h) end in
      let nn := if Nat.eqb check_box 0 then repeat (Some 0) 50 else nn in
      Value (map (fun i => bin_middle (snd h) i * boxsize / INR (hd 0%nat shape)) (seq 0 50), nn)
    end
  else Zero.

(** [rebin_bsd] (332-339). [cubic]: scipy's interpolation through the nodes; [None] outside them. *)
Inductive rebins := Count (n : nat) | Sizes (l : list R).
Definition log_grid (lo hi : R) (n : nat) : list R := map (fun i => pow10 (log10 lo + INR i * ((log10 hi - log10 lo) / INR (n - 1)))) (seq 0 n).
Definition list_min (l : list R) : R := match l with [] => 0 | x :: r => rmin x r end.
Definition list_maxR (l : list R) : R := match l with [] => 0 | x :: r => rmax x r end.
Definition default {A} (d : A) (x : option A) : A := match x with Some v => v | None => d end.
Definition rebin_bsd (cubic : list R -> list R -> R -> option R) (rr pp : list R) (bins : rebins) (r_min r_max : option R) : list (R * option R) :=
  let rs := match bins with Count n => log_grid (default (list_min rr + 1) r_min) (default (list_maxR rr - 10) r_max) n | Sizes l => l end in
  map (fun r => (r, cubic rr pp r)) rs.

(** [granulometry_bsd] (440-491): the strict threshold and the curves made from the pattern spectrum. *)
Definition gran_mask (data : list Z -> Q) (xth : Q) (upper_lim : bool) : MorphModel.image :=
  let data := if upper_lim then fun i => (-1 * data i)%Q else data in let xth := if upper_lim then (-1 * xth)%Q else xth in fun i => negb (Qle_bool (data i) xth).
Definition granulometry_bsd (shape : list Z) (data : list Z -> Q) (xth : Q) (upper_lim : bool) (boxsize : Q) : list Q * list Q * list Q :=
  let ps := snd (MorphModel.granulometry shape (gran_mask data xth upper_lim)) in
  let R := map (fun k => inject_Z (Z.of_nat k)) (seq 0 (length ps)) in
  (map (fun r => (r * boxsize / inject_Z (hd 0%Z shape))%Q) R, map (fun p => (fst p * snd p)%Q) (combine R ps), ps).

(** [h_transform] (544-554). [reconstruction] is skimage's; it refuses seeds above the mask. *)
Definition h_transform {C} (cells : list C) (reconstruction : (C -> R) -> (C -> R) -> C -> R) (image : C -> R) (h : R) : option (C -> R) :=
  let seed := fun x => image x - h in
  if existsb (fun x => if Rlt_dec (image x) (seed x) then true else false) cells then None else Some (fun x => image x - reconstruction seed image x).
