(** Model of the mean-free-path tracer: mfp_np.py and [mfp] in bubble_stats.py:91-162.
    Positions and directions are reals (no rounding); the random start cells and
    directions are arguments. *)
From Coq Require Import List Arith ZArith Reals Bool.
From Verif Require Import RLib FourierModel.
Import ListNotations.
Local Open Scope R_scope.

(** * RegularGridInterpolator on the integer grid, [bounds_error=False, fill_value=0]. *)
(** Multilinear interpolation of a 0/1 field in the cell that holds the point (the last
    cell also takes the upper boundary). *)
Fixpoint multilinear (shape : list nat) (f : list nat -> bool) (pos : list R) : R :=
  match shape, pos with
  | n :: sh, x :: xs =>
      let i := Nat.min (Z.to_nat (Int_part x)) (n - 2) in
      let t := x - INR i in
      (1 - t) * multilinear sh (fun r => f (i :: r)) xs + t * multilinear sh (fun r => f (S i :: r)) xs
  | _, _ => if f [] then 1 else 0
  end.
Fixpoint in_grid_dec (shape : list nat) (pos : list R) {struct shape} : bool :=
  match shape, pos with
  | n :: sh, x :: xs =>
      (if Rle_dec 0 x then if Rle_dec x (INR n - 1) then true else false else false) && in_grid_dec sh xs
  | _, _ => true
  end.
Definition interp (shape : list nat) (f : list nat -> bool) (pos : list R) : R :=
  if in_grid_dec shape pos then multilinear shape f pos else 0.

(** * The loop (mfp_np.py:28-47 in 3-D, 140-160 in 2-D) *)
Notation ray := (list R * list R)%type.            (* position, direction *)
Fixpoint vadd (a b : list R) : list R :=
  match a, b with x :: a', y :: b' => (x + y) :: vadd a' b' | _, _ => [] end.
Definition move (r : ray) : ray := (vadd (fst r) (snd r), snd r).
Definition above_half (v : R) : bool := if Rlt_dec (1/2) v then true else false.

(** [num_sz]: zeros at first; the loop stops when no ray is left. *)
Fixpoint ray_loop (shape : list nat) (f : list nat -> bool) (steps : nat) (rays : list ray) : list nat :=
  match steps with
  | O => []
  | S s =>
      let moved := map move rays in
      let valid := filter (fun r => above_half (interp shape f (fst r))) moved in
      (length rays - length valid)%nat ::
      match valid with
      | [] => repeat 0%nat s
      | _ => ray_loop shape f s valid
      end
  end.

(** Number of steps: [longest = max(info)] in 3-D (mfp_np.py:10),
    [int(np.sqrt(2)*max(info))] in 2-D (mfp_np.py:100). *)
Definition longest_3d (shape : list nat) : nat := list_max shape.
Definition longest_2d (shape : list nat) : nat := Z.to_nat (Int_part (sqrt 2 * INR (list_max shape))).

(** Ray directions for angles in degrees (mfp_np.py:69-77, 108-113). *)
Definition radians (d : Z) : R := IZR d * PI / 180.
Definition dir_3d (theta phi : Z) : list R :=
  [sin (radians theta) * cos (radians phi); sin (radians theta) * sin (radians phi); cos (radians theta)].
Definition dir_2d (theta : Z) : list R := [sin (radians theta); cos (radians theta)].

(** * mfp *)
(** Start cells: [loc[rand_loc]], drawn among the cells with [arr >= xth]. *)
Definition roi_cells (shape : list nat) (roi : list nat -> bool) : list (list nat) := filter roi (indices shape).
Definition start_rays (loc : list (list nat)) (choice : list nat) (dirs : list (list R)) : list ray :=
  combine (map (fun c => map INR (nth c loc [])) choice) dirs.

(** [mfp3d] / [mfp2d] with [point='random']: [randint(0, high=0)] raises. *)
Definition mfp_np (longest : list nat -> nat) (shape : list nat) (roi : list nat -> bool)
           (choice : list nat) (dirs : list (list R)) : option (list nat) :=
  match roi_cells shape roi with
  | [] => None
  | loc => Some (ray_loop shape roi (longest shape) (start_rays loc choice dirs))
  end.

(** bubble_stats.py:123-161 without rebinning. [choice], [dirs] are the draws for
    [iterations] rays and [choice0], [dirs0] those for the 3 rays used when no cell is
    selected. Result: the sizes (in cells, times boxsize/shape[0]) and the curve. *)
Definition geb (a b : R) : bool := if Rle_dec b a then true else false.
Definition mfp (longest : list nat -> nat) (shape : list nat) (data : list nat -> R) (xth : R) (upper_lim : bool)
           (iterations : nat) (boxsize : R) (choice : list nat) (dirs : list (list R))
           (choice0 : list nat) (dirs0 : list (list R)) : option (list R * list R) :=
  let data := if upper_lim then fun i => -1 * data i else data in
  let xth := if upper_lim then -1 * xth else xth in
  let check_box := length (filter (fun i => geb (data i) xth) (indices shape)) in
  let out :=
    if Nat.eqb check_box 0
    then option_map (fun o => (map (fun _ => 0) o, length o))
                    (mfp_np longest shape (fun _ => geb 1 xth) choice0 dirs0)
    else option_map (fun o => (map (fun c => INR c / INR iterations) o, length o))
                    (mfp_np longest shape (fun i => geb (data i) xth) choice dirs) in
  match out with
  | None => None
  | Some (nn, len) =>
      let rr := map INR (seq 0 len) in
      Some (map (fun r => r * boxsize / INR (hd 0%nat shape)) rr, map (fun p => fst p * snd p) (combine rr nn))
  end.
