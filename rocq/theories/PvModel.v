(** Model of [get_distorted_dt] (pv_mpm.py:8-131) over exact reals. *)
From Coq Require Import List Arith Reals Bool.
From Verif Require Import RLib.
Import ListNotations.
Local Open Scope R_scope.

(** [np.linspace(a, b, n)[q]]; a single point is [a]. *)
Definition linspace (a b : R) (n q : nat) : R := a + INR q * ((b - a) / INR (n - 1)).
(** [get_interpolated_array(in_array, n, 'linear')[q]] (helper_functions.py:156-159): linear
    interpolation between equally spaced points, at [q*(m-1)/(n-1)] for m old points. *)
Definition interpolated (l : list R) (n q : nat) : R :=
  let x := (q * (length l - 1))%nat in
  let j := (x / (n - 1))%nat in
  let f := INR (x mod (n - 1)) / INR (n - 1) in
  nth j l 0 + (nth (S j) l 0 - nth j l 0) * f.

Section Skewer.
  Variables depth num : nat.      (* cells and particles per cell *)
  Variable D : R.                 (* box_depth *)
  Variable periodic : bool.
  Variables dT dr : list R.       (* the skewer and the shift of its cells *)
  Definition N : nat := (depth * num)%nat.
  (** [particle_dT[n::num_particles] = dT_skewer/num_particles] for every n (98-100). *)
  Definition weight (q : nat) : R := nth (q / num) dT 0 / INR num.
  (** Lines 99 and 105-108. The [np.insert] of line 104 discards its result. *)
  Definition moved (q : nat) : R := linspace 0 D N q + interpolated dr N q.
  (** Lines 111-113, one statement after the other. *)
  Definition wrap (p : R) : R :=
    if periodic then
      let p := if Rlt_dec p 0 then p + D else p in
      if Rlt_dec D p then p - D else p
    else p.
  (** [np.histogram(..., bins=np.linspace(0, box_depth, grid_depth+1), weights=...)[0]]
      (116-118): the last bin includes its upper edge. *)
  Definition edge (j : nat) : R := linspace 0 D (S depth) j.
  Definition in_bin (j : nat) (p : R) : bool :=
    (if Rle_dec (edge j) p then true else false) &&
    (if Nat.eqb (S j) depth then (if Rle_dec p (edge (S j)) then true else false)
     else (if Rlt_dec p (edge (S j)) then true else false)).
  Definition distorted : list R :=
    map (fun j => rsum (map (fun q => if in_bin j (wrap (moved q)) then weight q else 0) (seq 0 N))) (seq 0 depth).
End Skewer.

(** The shift of a cell (82-84): [z_obs = (1+z)/(1-v/c)-1], [dr = (1+z_obs)*v/H(z_obs)]. *)
Definition z_obs (c z v : R) : R := (1 + z) / (1 - v / c) - 1.
Definition shift (H : R -> R) (c z v : R) : R := (1 + z_obs c z v) * v / H (z_obs c z v).

(** * Loop over the skewers (57-73, 86-126) *)
(** The two transverse sizes in index order, for a box of the given shape. *)
Definition transverse (shape : nat * nat * nat) (los : nat) : option (nat * nat * nat * nat) :=
  match shape, los with
  | (mx, my, mz), 0%nat => Some (mx, my, my, mz)   (* depth, grid_width, sizes of i and j *)
  | (mx, my, mz), 1%nat => Some (my, mz, mx, mz)
  | (mx, my, mz), 2%nat => Some (mz, mx, mx, my)
  | _, _ => None
  end.
(** [skewer i j] is the distorted skewer. An index out of range raises ([None]); skewers
    that the loops do not reach keep the zeros of [np.zeros_like]. *)
Definition distorted_box (shape : nat * nat * nat) (los : nat) (skewer : nat -> nat -> list R) : option (nat -> nat -> list R) :=
  match shape with
  | (mx, my, mz) =>
      if Nat.eqb mx my || Nat.eqb my mz || Nat.eqb mx mz then
        match transverse shape los with
        | Some (depth, w, ni, nj) =>
            if Nat.leb w ni && Nat.leb w nj then
              Some (fun i j => if Nat.ltb i w && Nat.ltb j w then skewer i j else repeat 0 depth)
            else None
        | None => None
        end
      else None
  end.
