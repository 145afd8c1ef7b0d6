(** Notions for the statements about power spectra. *)
From Coq Require Import List Arith Reals.
From Verif Require Import RLib.
Import ListNotations.
Local Open Scope R_scope.

(** [i] is a valid index of an array of this shape. *)
Definition valid (shape i : list nat) : Prop := Forall2 (fun n k => (k < n)%nat) shape i.

(** Sum over all cells, given the list of their indices. *)
Definition sum_over (idx : list (list nat)) (f : list nat -> R) : R := rsum (map f idx).

(** Periodic translation by [s]: cell a of the new field is cell a+s of the old one. *)
Fixpoint wrap_add (shape a s : list nat) : list nat :=
  match shape, a, s with
  | n :: sh, ad :: a', sd :: s' => ((ad + sd) mod n)%nat :: wrap_add sh a' s'
  | _, _, _ => []
  end.
Definition translate (shape s : list nat) (x : list nat -> R) : list nat -> R :=
  fun a => x (wrap_add shape a s).

(** The index of the opposite frequency. *)
Fixpoint wrap_opp (shape j : list nat) : list nat :=
  match shape, j with
  | n :: sh, jd :: j' => ((n - jd) mod n)%nat :: wrap_opp sh j'
  | _, _ => []
  end.

(** The cell of the shifted spectrum that is the point reflection of cell [i] about the
    centre n/2 (periodically). *)
Fixpoint mirror (shape i : list nat) : list nat :=
  match shape, i with
  | n :: sh, id :: i' => ((n / 2 + n / 2 + (n - id)) mod n)%nat :: mirror sh i'
  | _, _ => []
  end.
