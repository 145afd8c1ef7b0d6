(** Test cubes with spherical bubbles: [src/tools21cm/test_case.py].

    A cube is a function from index triples to rationals, read only at indices inside its
    shape. Cubes are float arrays (an integer array makes [+=] raise). Random draws are an
    argument, so is the table of [scipy.ndimage.distance_transform_edt]. *)
From Coq Require Import List Arith ZArith QArith Bool Lia.
From Verif Require Import QLib.
Import ListNotations.
Local Open Scope nat_scope.

Definition index : Type := Z * Z * Z.
Definition field : Type := index -> Q.
(** Sizes along the three axes. *)
Definition shape3 : Type := Z * Z * Z.
Definition upto (n : Z) : list Z := map Z.of_nat (seq 0 (Z.to_nat n)).
(** All indices of a shape in C order, the order of [np.argwhere]. *)
Definition all_indices (n : shape3) : list index :=
  let '(n0, n1, n2) := n in flat_map (fun i => flat_map (fun j => map (fun k => (i, j, k)) (upto n2)) (upto n1)) (upto n0).
Definition inside (n : shape3) (x : index) : bool :=
  let '(n0, n1, n2) := n in let '(x0, x1, x2) := x in
  ((0 <=? x0) && (x0 <? n0) && (0 <=? x1) && (x1 <? n1) && (0 <=? x2) && (x2 <? n2))%Z.
(** [np.roll(a, shift, axis=(0,1,2))[x] = a[(x - shift) % shape]]. *)
Definition roll (n : shape3) (a : field) (s : index) : field := fun x =>
  let '(n0, n1, n2) := n in let '(s0, s1, s2) := s in let '(x0, x1, x2) := x in
  a ((x0 - s0) mod n0, (x1 - s1) mod n1, (x2 - s2) mod n2)%Z.
Definition neg (p : index) : index := let '(a, b, c) := p in (- a, - b, - c)%Z.
Definition add (p q : index) : index := let '(a, b, c) := p in let '(d, e, f) := q in (a + d, b + e, c + f)%Z.
(** [k // 2] along each axis: test_case.py:20. *)
Definition radius_of (k : shape3) : index := let '(a, b, c) := k in (a / 2, b / 2, c / 2)%Z.

(** One pass of the loop in [paint_kernel]: test_case.py:22-30. *)
Definition paint_one (n : shape3) (kshape : shape3) (kernel : field) (cube : field) (pos : index) : field :=
  let rolled := roll n cube (add (neg pos) (radius_of kshape)) in
  let rolled' := fun x => if inside kshape x then (rolled x + kernel x)%Q else rolled x in
  fun x => (cube x + roll n rolled' (add pos (neg (radius_of kshape))) x)%Q.
(** The kernel fits: otherwise [rolled_cube[:k0, :k1, :k2] += kernel] (test_case.py:27) cannot
    broadcast. *)
Definition kernel_fits (n k : shape3) : bool :=
  let '(n0, n1, n2) := n in let '(k0, k1, k2) := k in ((k0 <=? n0) && (k1 <=? n1) && (k2 <=? n2))%Z.
(** [paint_kernel]: test_case.py:10-32. The caller's [cube] is overwritten with the result; None is
    the ValueError (raised in the first pass of the loop). *)
Definition paint_kernel (n k : shape3) (kernel : field) (cube : field) (positions : list index) : option field :=
  match positions with
  | [] => Some cube
  | _ => if kernel_fits n k then Some (fold_left (paint_one n k kernel) positions cube) else None
  end.

(** [skimage.morphology.ball(r)] for integer radius: (2r+1)^3 cells, one where the distance from
    the middle is at most r. *)
Definition ball_shape (r : Z) : shape3 := (2 * r + 1, 2 * r + 1, 2 * r + 1)%Z.
Definition ball (r : Z) : field := fun x => let '(a, b, c) := x in
  if ((a - r) ^ 2 + (b - r) ^ 2 + (c - r) ^ 2 <=? r ^ 2)%Z then 1%Q else 0%Q.

Definition size (n : shape3) : Z := let '(a, b, c) := n in (a * b * c)%Z.
(** [cube.mean()]. *)
Definition mean (n : shape3) (cube : field) : Q := (qsum (map cube (all_indices n)) / inject_Z (size n))%Q.
(** [(cube >= 0.5).astype(float)]: test_case.py:103. *)
Definition threshold (cube : field) : field := fun x => if Qle_bool (1 # 2) (cube x) then 1%Q else 0%Q.
(** The clamp at the end: test_case.py:119-120. *)
Definition clamp (cube : field) : field := fun x => if Qltb 1 (cube x) then 1%Q else if Qltb (cube x) 0 then 0%Q else cube x.

Inductive distribution := Poisson | NonOverlapping.
(** [edt > r] with the distance transform's table of distances as argument; squared, to stay in
    the rationals. *)
Definition free_cells (n : shape3) (dist : distribution) (edt2 : field -> field) (r : Z) (cube : field) : list index :=
  match dist with
  | Poisson => filter (fun x => Qeq_bool (cube x) 0) (all_indices n)
  | NonOverlapping => filter (fun x => Qltb (inject_Z (r ^ 2)) (edt2 cube x)) (all_indices n)
  end.
(** How the loop ended: [Raised] is the ValueError of [randint(0, 0)] or of a kernel that does not
    fit; the second component of [Ended] is what the caller's own array holds afterwards. *)
Inductive outcome := Raised | Ended (returned caller : field).

Section Model.
  Variables (n : shape3) (x_ion : Q) (r : Z) (dist : distribution) (batch : nat) (edt2 : field -> field).
  (** [draw it i m]: the i-th number that iteration [it] draws from [0, m). *)
  Variable draw : nat -> nat -> nat -> nat.
  Definition positions (it : nat) (free : list index) : list index :=
    map (fun i => nth (draw it i (length free)) free (0, 0, 0)%Z) (seq 0 batch).
  (** The loop: test_case.py:82-112. [caller] is None while the working array still is the
      caller's; line 103 rebinds it to a new array, so the caller keeps what the first pass painted. *)
  Fixpoint iterate (fuel it : nat) (cube : field) (caller : option field) : outcome :=
    let finish c := Ended (clamp c) (match caller with Some a => a | None => clamp c end) in
    match fuel with
    | 0 => finish cube
    | S fuel' =>
      let free := free_cells n dist edt2 r cube in
      match free with
      | [] => match dist with Poisson => Raised | NonOverlapping => finish cube end
      | _ =>
        match paint_kernel n (ball_shape r) (ball r) cube (positions it free) with
        | None => Raised
        | Some painted =>
          let cube' := threshold painted in
          let caller' := match caller with Some a => a | None => painted end in
          if Qle_bool x_ion (mean n cube') then Ended (clamp cube') caller' else iterate fuel' (S it) cube' (Some caller')
        end
      end
    end.
  (** [spherical_bubble_model]: test_case.py:34-122; [volume] is [4*np.pi/3*r**3] and [n_cells] the
      argument of that name ([n] is the shape of the cube). *)
  Definition bubble_model (volume : Q) (n_cells : Z) (max_iter : nat) (cube : field) : outcome :=
    let room := ((x_ion - mean n cube) * inject_Z (n_cells ^ 3))%Q in
    if Qle_bool room volume then Ended cube cube
    else if Qle_bool room (volume * inject_Z (Z.of_nat batch)) then Ended cube cube
    else iterate max_iter 0 cube None.
End Model.
