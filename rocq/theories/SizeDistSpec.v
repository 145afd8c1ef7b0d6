(** Notions for the statements about size distributions. *)
From Coq Require Import List Arith Reals.
Import ListNotations.
Local Open Scope R_scope.

(** Number of elements with lo <= x < hi, or lo <= x <= hi if [closed]. *)
Definition count_in (lo hi : R) (closed : bool) (l : list R) : nat :=
  length (filter (fun x => if Rle_dec lo x then
                             if closed then (if Rle_dec x hi then true else false)
                             else (if Rlt_dec x hi then true else false)
                           else false) l).
(** Population of bin [i] of the [n] bins with the given edges. *)
Definition population (edges : list R) (n i : nat) (l : list R) : nat :=
  count_in (nth i edges 0) (nth (S i) edges 0) (Nat.eqb (S i) n) l.
