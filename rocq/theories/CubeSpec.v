(** What the cubical complex of a binary field on a periodic grid is, and its Euler
    characteristic, by direct counting. *)
From Coq Require Import List Arith ZArith Bool Lia.
From Verif Require Import CubeModel.
Import ListNotations.
Local Open Scope nat_scope.

(** Coordinate [i] of the doubled grid is the vertex [i/2] when even, and the segment
    from vertex [i/2] to the next one, periodically, when odd. *)
Definition corners (n i : nat) : list nat :=
  if Nat.even i then [i / 2] else [i / 2; (i / 2 + 1) mod n].

(** A cell belongs to the complex when all its corner vertices are set. *)
Definition present (nx ny nz : nat) (A : idx -> bool) (c : idx) : bool :=
  let '(i, j, k) := c in
  forallb (fun x => forallb (fun y => forallb (fun z => A (x, y, z)) (corners nz k)) (corners ny j))
          (corners nx i).

(** Dimension: number of odd coordinates. *)
Definition dim (c : idx) : nat :=
  let '(i, j, k) := c in Nat.b2n (Nat.odd i) + Nat.b2n (Nat.odd j) + Nat.b2n (Nat.odd k).

Definition in_box (Nx Ny Nz : nat) (c : idx) : Prop :=
  let '(i, j, k) := c in i < Nx /\ j < Ny /\ k < Nz.

(** The map users expect: 1 vertices, 2 edges, 3 faces, 4 cubes of the complex, 0 elsewhere. *)
Definition complex_map (nx ny nz : nat) (A : idx -> bool) (c : idx) : Z :=
  if present nx ny nz A c then Z.of_nat (S (dim c)) else 0%Z.

(** Number of voxels with a property. *)
Definition count (nx ny nz : nat) (P : idx -> bool) : Z :=
  Z.of_nat (length (filter P (cells (seq 0 nx) ny nz))).

(** Periodic neighbours of a voxel. *)
Definition sx (nx : nat) (p : idx) : idx := let '(i, j, k) := p in ((i + 1) mod nx, j, k).
Definition sy (ny : nat) (p : idx) : idx := let '(i, j, k) := p in (i, (j + 1) mod ny, k).
Definition sz (nz : nat) (p : idx) : idx := let '(i, j, k) := p in (i, j, (k + 1) mod nz).

Section Chi.
  Variables (nx ny nz : nat) (A : idx -> bool).
  Let X := sx nx. Let Y := sy ny. Let Z' := sz nz.
  Let cnt := count nx ny nz.

  (** 6-connectivity: voxels are points; edges, squares and cubes join neighbouring
      points that are all set. *)
  Definition chi6 : Z :=
    (cnt A
     - (cnt (fun p => A p && A (X p)) + cnt (fun p => A p && A (Y p)) + cnt (fun p => A p && A (Z' p)))
     + (cnt (fun p => A p && A (X p) && A (Y p) && A (X (Y p)))
        + cnt (fun p => A p && A (Y p) && A (Z' p) && A (Y (Z' p)))
        + cnt (fun p => A p && A (Z' p) && A (X p) && A (Z' (X p))))
     - cnt (fun p => A p && A (X p) && A (Y p) && A (X (Y p))
                     && A (Z' p) && A (X (Z' p)) && A (Y (Z' p)) && A (X (Y (Z' p)))))%Z.

  (** 26-connectivity: voxels are closed unit cubes; their union has the corners,
      edges and faces that touch at least one of them. The corner, edges and faces at
      the upper end of voxel [p] touch the voxels listed. *)
  Definition chi26 : Z :=
    (cnt (fun p => A p || A (X p) || A (Y p) || A (X (Y p))
                   || A (Z' p) || A (X (Z' p)) || A (Y (Z' p)) || A (X (Y (Z' p))))
     - (cnt (fun p => A p || A (X p) || A (Y p) || A (X (Y p)))
        + cnt (fun p => A p || A (Y p) || A (Z' p) || A (Y (Z' p)))
        + cnt (fun p => A p || A (Z' p) || A (X p) || A (Z' (X p))))
     + (cnt (fun p => A p || A (X p)) + cnt (fun p => A p || A (Y p)) + cnt (fun p => A p || A (Z' p)))
     - cnt A)%Z.
End Chi.
