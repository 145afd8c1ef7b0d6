(** Model of the slice interpolation in lightcone.py over the reals. *)
From Coq Require Import List Arith Bool Reals.
Import ListNotations.
Local Open Scope nat_scope.

(** A scalar snapshot. *)
Record cube := Cube { n0 : nat; n1 : nat; n2 : nat; val : nat -> nat -> nat -> R }.

(** [_get_slice] (lightcone.py:493-515) for scalar data, all sides at least 2 (so that
    [np.squeeze] only drops the sliced axis). [None]: the empty slice past the end,
    which the assignment into the light cone then rejects. *)
Definition get_slice (d : cube) (idx los_axis : nat) : option (nat -> nat -> R) :=
  match los_axis with
  | 0 => if Nat.ltb idx (n0 d) then Some (fun a b => val d idx a b) else None
  | 1 => if Nat.ltb idx (n1 d) then Some (fun a b => val d a idx b) else None
  | 2 => if Nat.ltb idx (n2 d) then Some (fun a b => val d a b idx) else None
  | _ => None   (* assertion *)
  end.

Inductive method := Linear | Step | Sigmoid.

Local Open Scope R_scope.
(** One cell of the slice (lightcone.py:447-466): [lo], [hi] the values of the two
    snapshots in the cell. *)
Definition sigmoid_weight (zl zh z : R) : R :=
  let zp := -10 + 20 * (z - zl) / (zh - zl) in 1 / (1 + exp (- 2 * zp)).
Definition interp_cell (m : method) (zh zl z hi lo : R) : R :=
  match m with
  | Linear => ((z - zl) * hi + (zh - z) * lo) / (zh - zl)
  | Step => let transition_z := (zh - zl) / 2 in if Rlt_dec z transition_z then lo else hi
  | Sigmoid => let g := sigmoid_weight zl zh z in lo * (1 - g) + hi * g
  end.

(** [_get_interp_slice] (lightcone.py:440-470), methods linear, step, sigmoid
    ([step_cell] is in StepCellModel). The index is [comoving_pos_idx % data_low.shape[1]]. *)
Definition get_interp_slice (m : method) (dh dl : cube) (zh zl z : R) (k los_axis : nat)
  : option (nat -> nat -> R) :=
  let i := (k mod n1 dl)%nat in
  match get_slice dl i los_axis, get_slice dh i los_axis with
  | Some lo, Some hi => Some (fun a b => interp_cell m zh zl z (hi a b) (lo a b))
  | _, _ => None
  end.
