(** The whole of [get_distorted_dt] and [make_pv_box]: pv_mpm.py:8-157. *)
From Coq Require Import List Arith Reals Bool.
From Verif Require Import PvModel.
Import ListNotations.
Local Open Scope R_scope.

Definition cube := nat -> nat -> nat -> R.
(** [get_skewer] (67-72). *)
Definition skewer (los depth : nat) (f : cube) (i j : nat) : list R :=
  map (fun t => match los with 0%nat => f t i j | 1%nat => f i t j | _ => f i j t end) (seq 0 depth).
(** [np.atleast_1d(redsh)] (75) broadcast against [vpar] (83): along the last axis, whatever the line of sight. An array on a
    last axis of one cell, which broadcasting would extend, is left out. *)
Definition redshift_of (zs : list R) (k : nat) : R := match zs with [z] => z | _ => nth k zs 0 end.
Definition broadcasts (zs : list R) (mz : nat) : bool := Nat.eqb (length zs) 1 || Nat.eqb (length zs) mz.
(** Lines 57-131. [H] is [const.Hz], [LB] is [conv.LB]; [kms a] is component [a] of the velocities. [None]: an exception. *)
Definition get_distorted_dt (H : R -> R) (c LB : R) (shape : nat * nat * nat) (dT : cube) (kms : nat -> cube) (zs : list R)
    (los velocity_axis num : nat) (periodic : bool) : option (nat -> nat -> list R) :=
  let '(mx, my, mz) := shape in
  match transverse shape los with
  | None => None
  | Some (depth, w, _, _) =>
      if broadcasts zs mz && Nat.ltb velocity_axis 3 then
        let D := INR depth * (LB / INR w) in
        let dr := fun i j k => shift H c (redshift_of zs k) (kms velocity_axis i j k) in
        distorted_box shape los (fun i j => distorted depth num D periodic (skewer los depth dT i j) (skewer los depth dr i j))
      else None
  end.
(** [make_pv_box] (134-157) once the three files are read: neither [velocity_axis] nor [periodic] is passed on. *)
Definition make_pv_box (H : R -> R) (c LB : R) (shape : nat * nat * nat) (dT : cube) (kms : nat -> cube) (z : R) (los num : nat)
  : option (nat -> nat -> list R) := get_distorted_dt H c LB shape dT kms [z] los 0 num true.
