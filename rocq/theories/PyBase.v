(** Small pieces of Python / numpy semantics shared by the models. *)
From Coq Require Import List Arith ZArith QArith Qround Lia Bool.
Import ListNotations.
Local Open Scope nat_scope.

(** [range(a, b, s)] for naturals and a positive step [s] (Python builtin). *)
Definition py_range (a b s : nat) : list nat :=
  map (fun j => a + j * s) (seq 0 ((b - a + s - 1) / s)).

(** [l[i:j]] for naturals (Python slicing; out-of-range bounds are clipped). *)
Definition py_slice {A} (l : list A) (i j : nat) : list A :=
  firstn (j - i) (skipn i l).

(** Round half to even of a rational, as numpy's [round] and Python's float formatting do. *)
Definition round_half_even (q : Q) : Z :=
  let f := Qfloor q in
  match Qcompare (q - inject_Z f) (1#2) with
  | Lt => f
  | Gt => (f + 1)%Z
  | Eq => if Z.even f then f else (f + 1)%Z
  end.
