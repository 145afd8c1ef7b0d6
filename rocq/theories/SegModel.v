(** Test-time augmentation of the segmentation (segmentation.py:98-206). The network is an argument. *)
From Coq Require Import List Arith ZArith Reals Bool.
Import ListNotations.
Local Open Scope nat_scope.

(** A cube of side [n] is a function of three indices below [n]. *)
Definition image (V : Type) := nat -> nat -> nat -> V.
Inductive axis := A0 | A1 | A2.
(** [np.flip] along one axis; [np.flipud] is axis 0, [np.fliplr] axis 1. *)
Definition flip {V} (n : nat) (a : axis) (x : image V) : image V :=
  match a with A0 => fun i j k => x (n - 1 - i) j k | A1 => fun i j k => x i (n - 1 - j) k | A2 => fun i j k => x i j (n - 1 - k) end.
(** [np.transpose] with the two axes other than [a] exchanged. *)
Definition swap_others {V} (a : axis) (x : image V) : image V :=
  match a with A0 => fun i j k => x i k j | A1 => fun i j k => x k j i | A2 => fun i j k => x j i k end.
(** [ax_tup] with [rotax] removed (segmentation.py:151-152). *)
Definition first_axis (a : axis) : axis := match a with A0 => A1 | _ => A0 end.
Definition second_axis (a : axis) : axis := match a with A2 => A1 | _ => A2 end.
(** [np.rot90(x, k, axes=ax_tup)], as numpy defines it. *)
Definition rot90 {V} (n : nat) (k : Z) (a : axis) (x : image V) : image V :=
  match (k mod 4)%Z with
  | 0%Z => x
  | 1%Z => swap_others a (flip n (second_axis a) x)
  | 2%Z => flip n (second_axis a) (flip n (first_axis a) x)
  | _ => flip n (second_axis a) (swap_others a x)
  end.

(** [func] (line 140). *)
Inductive func := Keep | FlipLr | FlipUd | UdOfLr | LrOfUd.
Definition apply_func {V} (n : nat) (f : func) (x : image V) : image V :=
  match f with
  | Keep => x
  | FlipLr => flip n A1 x
  | FlipUd => flip n A0 x
  | UdOfLr => flip n A0 (flip n A1 x)
  | LrOfUd => flip n A1 (flip n A0 x)
  end.
Definition operation := (func * axis * Z)%type.
(** Line 189. *)
Definition transform {V} (n : nat) (op : operation) (x : image V) : image V := let '(f, a, k) := op in rot90 n k a (apply_func n f x).
(** Line 201: flips, then rotates back. *)
Definition undo {V} (n : nat) (op : operation) (x : image V) : image V := let '(f, a, k) := op in apply_func n f (rot90 n (- k) a x).

(** [IndependentOperations] (137-170). Lines 147-156. *)
Definition all_operations : list operation :=
  flat_map (fun f => flat_map (fun a => map (fun k => (f, a, k)) [0; 1; 2; 3]%Z) [A0; A1; A2]) [Keep; FlipLr; FlipUd; UdOfLr; LrOfUd].
Definition flatten3 {V} (x : image V) : list V := flat_map (fun i => flat_map (fun j => map (x i j) (seq 0 3)) (seq 0 3)) (seq 0 3).
Definition signature (op : operation) : list nat := flatten3 (transform 3 op (fun i j k => 9 * i + 3 * j + k)).
(** Lines 124-135, 158-165: the first operation for each distinct row. [np.unique] also sorts the rows, which
    changes the order of the maps only. *)
Fixpoint first_of_each (seen : list (list nat)) (ops : list operation) : list operation :=
  match ops with
  | [] => []
  | op :: rest => if existsb (fun s => if list_eq_dec Nat.eq_dec s (signature op) then true else false) seen then first_of_each seen rest
                  else op :: first_of_each (signature op :: seen) rest
  end.
Definition independent_operations : list operation := first_of_each [] all_operations.
(** The constructor (99-110). *)
Definition manip (tta : Z) : list operation := if (tta =? 2)%Z then independent_operations else [(Keep, A0, 0%Z)].

(** [prediction] (172-206) for cubes. [net] maps an image of the given shape to one of the same shape. *)
Definition network (V : Type) := nat -> nat -> (nat -> nat -> V) -> nat -> nat -> V.
(** Lines 192-195. *)
Definition along {V} (net : network V) (n : nat) (a : axis) (x : image V) : image V :=
  match a with
  | A0 => fun i j k => net n n (fun p q => x i p q) j k
  | A1 => fun i j k => net n n (fun p q => x p j q) i k
  | A2 => fun i j k => net n n (fun p q => x p q k) i j
  end.
(** [X_tta] after the loop at line 197. *)
Definition predictions {V} (net : network V) (tta : Z) (n : nat) (x : image V) : list (image V) :=
  flat_map (fun a => map (fun op => undo n op (along net n a (transform n op x))) (manip tta)) [A0; A1; A2].
Local Open Scope R_scope.
Definition total (l : list R) : R := fold_right Rplus 0 l.
Definition mean (l : list R) : R := total l / INR (length l).
(** [np.round]: half to even. *)
Definition np_round (x : R) : Z :=
  let f := Int_part x in
  if Rlt_dec (x - IZR f) (1 / 2) then f else if Rlt_dec (1 / 2) (x - IZR f) then (f + 1)%Z else if Z.even f then f else (f + 1)%Z.
(** Lines 203-204, one cell. *)
Definition segmentation (net : network R) (tta : Z) (n : nat) (x : image R) (i j k : nat) : Z :=
  np_round (mean (map (fun y => y i j k) (predictions net tta n x))).
Definition uncertainty (net : network R) (tta : Z) (n : nat) (x : image R) (i j k : nat) : R :=
  let l := map (fun y => y i j k) (predictions net tta n x) in sqrt (mean (map (fun v => (v - mean l) ^ 2) l)).

(** [prediction] of an array of any shape with the single operation 'opt0' (tta <> 2): the loop at line
    192 runs over the first axis; [None] is an IndexError. [X_tta] starts as zeros. *)
Definition predictions_any_shape (net : network R) (n0 n1 n2 : nat) (x : image R) : option (list (image R)) :=
  if (Nat.ltb n1 n0 || Nat.ltb n2 n0)%bool then None else
  Some [fun i j k => net n1 n2 (fun p q => x i p q) j k;
        fun i j k => if Nat.ltb j n0 then net n0 n2 (fun p q => x p j q) i k else 0;
        fun i j k => if Nat.ltb k n0 then net n0 n1 (fun p q => x p q k) i j else 0].
