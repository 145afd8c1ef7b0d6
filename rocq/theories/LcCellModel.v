(** Light cones of scalar snapshots, cell by cell: the loop of [make_lightcone] (lightcone.py:112-152) with [_get_interp_slice] (440-470) in it. *)
From Coq Require Import List Arith ZArith QArith Qreals Reals Bool.
From Verif Require Import LcModel LcInterpModel.
Import ListNotations.
Local Open Scope nat_scope.

(** A slice of another shape cannot be assigned (line 149): an exception. *)
Fixpoint assigned {A} (l : list (option A)) : option (list A) :=
  match l with [] => Some [] | None :: _ => None | Some x :: r => option_map (cons x) (assigned r) end.
Definition interp_of (m : method) (los : nat) (dh dl : cube) (zh zl z : Q) (k : nat) : option (nat -> nat -> R) :=
  get_interp_slice m dh dl (Q2R zh) (Q2R zl) (Q2R z) k los.
(** [fz], [files]: redshifts and contents of the snapshots; [zs]: the redshifts of the slices. *)
Definition scalar_lightcone (m : method) (los : nat) (fz : list Q) (files : list cube) (zs : list Q) : option (list (nat -> nat -> R)) :=
  match lightcone_of (interp_of m los) fz files zs with None => None | Some l => assigned l end.
