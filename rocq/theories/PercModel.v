(** Model of [find_percolation_cluster] (percolation.py:11-43). *)
From Coq Require Import List Arith ZArith Bool.
From Verif Require Import FofModel.
Import ListNotations.
Local Open Scope nat_scope.

(** [np.unique(out_map)[0]]: the labels that occur, ascending. *)
Definition unique_labels (shape : list nat) (m : labels) : list nat :=
  let cells := all_coords shape in
  filter (fun g => existsb (fun c => Nat.eqb (m c) g) cells) (seq 0 (S (list_max (map m cells)))).

(** The cell whose value [np.roll(x, 1, axis)] puts into cell [c]. *)
Fixpoint rolled (shape : list nat) (axis : nat) (c : coord) : coord :=
  match shape, c with
  | n :: shape', x :: c' =>
      match axis with
      | 0 => ((x - 1) mod Z.of_nat n)%Z :: c'
      | S a => x :: rolled shape' a c'
      end
  | _, _ => c
  end.

(** [np.any(out_label + np.roll(out_label, 1, axis) > 1)] (lines 36-38) *)
Definition wraps (shape : list nat) (marked : coord -> bool) (axis : nat) : bool :=
  existsb (fun c => marked c && marked (rolled shape axis c)) (all_coords shape).

(** [None] if an exception is raised: an empty array has no [out_uniq[0][0]]; fewer than
    three dimensions have no axis 2. [A] is [data >= xth]. *)
Definition find_percolation_cluster (r : nat) (shape : list nat) (A : coord -> bool) : option nat :=
  match fof r shape A with
  | None => None
  | Some (m, _) =>
      match unique_labels shape m with
      | [] => None
      | [v] => Some (if Nat.eqb v 1 then length (all_coords shape) else 0)
      | _ :: v :: _ =>
          let marked := fun c => Nat.eqb (m c) v in
          if length shape <? 3 then None
          else if wraps shape marked 0 || wraps shape marked 1 || wraps shape marked 2
               then Some (length (filter marked (all_coords shape)))
               else Some 0
      end
  end.
