(** Model of [find_idx] (helper_functions.py:514-554) over the rationals. *)
From Coq Require Import List Arith ZArith QArith Qround Bool.
From Verif Require Import QLib.
Import ListNotations.
Local Open Scope nat_scope.

(** [ar.max()], [ar.min()] of a non-empty array (an empty one raises). *)
Definition amax (x : Q) (l : list Q) : Q := fold_left (fun m y => if Qltb m y then y else m) l x.
Definition amin (x : Q) (l : list Q) : Q := fold_left (fun m y => if Qltb y m then y else m) l x.

(** [np.all(dv >= 0.)] and [np.all(dv <= 0.)]. *)
Fixpoint nondecreasing (l : list Q) : bool :=
  match l with
  | x :: ((y :: _) as r) => Qle_bool 0 (y - x) && nondecreasing r
  | _ => true
  end.
Fixpoint nonincreasing (l : list Q) : bool :=
  match l with
  | x :: ((y :: _) as r) => Qle_bool (y - x) 0 && nonincreasing r
  | _ => true
  end.

(** [np.searchsorted(ar, v)]: the number of leading elements below [v]. *)
Fixpoint searchsorted (ar : list Q) (v : Q) : nat :=
  match ar with
  | [] => 0
  | x :: r => if Qltb x v then S (searchsorted r v) else 0
  end.

(** Lines 545-549 for one value; [ar[integer_part]] with -1 is the last element;
    [None] is a NaN or infinity from a division by zero. *)
Definition frac_index (ar : list Q) (v : Q) : option Q :=
  let s := searchsorted ar v in
  let x1 := match s with 0 => last ar 0%Q | S i => nth i ar 0%Q end in
  let x2 := nth s ar 0%Q in
  if Qeq_bool (x2 - x1) 0 then None
  else Some (inject_Z (Z.of_nat s) - 1 + (v - x1) / (x2 - x1))%Q.

(** Lines 529-531: the masked assignments store into the caller's array, with the
    conversion [store] to its element type (nothing for floats, truncation for integers). *)
Definition clamp (store : Q -> Q) (lo hi v : Q) : Q :=
  let v1 := if Qltb hi v then store hi else v in
  if Qltb v1 lo then store lo else v1.

(** Result: the (mutated) values array and the indices; [None] is an exception. *)
Definition find_idx (store : Q -> Q) (ar vals : list Q) : option (list Q * list (option Q)) :=
  match ar with
  | [] => None
  | x :: r =>
      let vs := map (clamp store (amin x r) (amax x r)) vals in
      if negb (nondecreasing ar) && negb (nonincreasing ar) then None
      else
        let decreasing := nonincreasing ar in
        let a := if decreasing then rev ar else ar in
        (* [ar[integer_part+1]] (547) past the end *)
        if existsb (fun v => Nat.eqb (searchsorted a v) (length a)) vs then None else
        Some (vs, map (fun v => option_map (fun o => if decreasing then (inject_Z (Z.of_nat (length ar)) - 1 - o)%Q else o)
                                           (frac_index a v)) vs)
  end.

Definition store_float (v : Q) : Q := v.
(** Conversion of a float to an integer truncates. *)
Definition store_int (v : Q) : Q := inject_Z (if Qltb v 0 then Qceiling v else Qfloor v).
