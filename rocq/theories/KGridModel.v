(** Model of the wave-number grids: power_spectrum.py [_get_k], [_get_nonzero_idx],
    the position of the zero mode in [mu_binning], [_get_dims]; power_spect_fast.py
    [_get_k]. Real numbers for k. *)
From Coq Require Import List Arith ZArith Reals Lia Bool.
Import ListNotations.
Local Open Scope R_scope.

(** One component, [2.*np.pi*(x-center)/box_dims[0]] (power_spectrum.py:458, 463-464, 471-473). *)
Definition k_component (center L : R) (x : nat) : R := 2 * PI * (INR x - center) / L.

(** 1-D: [x.max()/2.] with [x = np.arange(n)] (line 457); 2-D: [(x.max()-x.min())/2] (462);
    power_spect_fast.py:93, 98, 104-105 uses the same in 1, 2 and 3 dimensions. *)
Definition center_half (n : nat) : R := INR (n - 1) / 2.
(** 3-D: [nx/2 if nx%2==0 else (nx-1)/2] (lines 469-470). *)
Definition center_3d (n : nat) : R :=
  if Nat.eqb (n mod 2) 0 then INR n / 2 else (INR n - 1) / 2.

Definition get_k_1d (n : nat) (L : R) (x : nat) : R := k_component (center_half n) L x.
Definition get_k_3d (n : nat) (L : R) (x : nat) : R := k_component (center_3d n) L x.
Definition get_k_fast (n : nat) (L : R) (x : nat) : R := k_component (center_half n) L x.

(** |k| of a cell of a 3-D grid (line 475) and of the grids with the other centre. *)
Definition kmag (k1 k2 k3 : R) : R := sqrt (k1 ^ 2 + k2 ^ 2 + k3 ^ 2).
Definition get_kmag_3d (n1 n2 n3 : nat) (L1 L2 L3 : R) (x y z : nat) : R :=
  kmag (get_k_3d n1 L1 x) (get_k_3d n2 L2 y) (get_k_3d n3 L3 z).

(** [fftpack.fftshift] along one axis of length [n]: output cell i holds input cell
    (i - n//2) mod n. *)
Definition shift_source (n i : nat) : nat := (i + (n - n / 2)) mod n.

(** [(np.array(shape)/2).astype(int)] (power_spectrum.py:411). *)
Definition zero_index (n : nat) : nat := n / 2.

(** [_get_nonzero_idx] (power_spectrum.py:563-575): [y == ps_shape[1]/2] compares an
    integer with a true quotient. The result is [good_idx] of the cell. *)
Definition is_half (x n : nat) : bool := Nat.eqb (2 * x) n.
Definition get_nonzero_idx (n1 n2 n3 : nat) (los_axis : nat) (x y z : nat) : bool :=
  negb (match los_axis with
        | 0%nat => is_half y n2 && is_half z n3
        | 1%nat => is_half x n1 && is_half z n3
        | _ => is_half x n1 && is_half y n2
        end).

(** [_get_dims] (power_spectrum.py:522-534): [box_dims == None] is elementwise for a numpy
    array, and the truth value of an array of other than one element raises. *)
Inductive dims_arg :=
| DNone
| DScalar (L : R)
| DList (l : list R)
| DArray (l : list R).   (* numpy array *)
Definition get_dims (LB : R) (a : dims_arg) (ndim : nat) : option (list R) :=
  match a with
  | DNone => Some (repeat LB ndim)
  | DScalar L => Some (repeat L ndim)
  | DList l => Some l
  | DArray l => match l with [_] => Some l | _ => None end
  end.
