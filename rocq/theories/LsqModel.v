(** What [FitFunction] hands to the optimizer and how it scores a fold: fitting_methods.py:26-82. *)
From Coq Require Import List Arith Reals Bool.
From Verif Require Import RLib FitModel.
Import ListNotations.
Local Open Scope R_scope.

(** [self.func(X, theta)]: any function from an array of points and a parameter vector to one value per point. *)
Definition model (A : Type) : Type := list A -> list R -> list R.
(** [((self.func(x_train, theta)-y_train)**2).sum()] (26-27). *)
Definition residual_func {A} (func : model A) (theta : list R) (X : list A) (y : list R) : R :=
  rsum (map (fun p => (fst p - snd p) ^ 2) (combine (func X theta) y)).
(** [_optimize] (29-32): [minimize] is scipy's optimizer, a function of the objective and the initial vector; nan and infinity are
    [None]. *)
Definition optimize {A} (minimize : (list R -> R) -> list R -> list num) (func : model A) (initial : list R) (X : list A) (y : list R) : list num :=
  minimize (fun theta => residual_func func theta X y) initial.
(** sklearn's [r2_score(y_test, y_pred)]: nan below two samples; a constant [y_test] scores 1 if it is met exactly and 0 otherwise. *)
Definition r2_score (y_true y_pred : list R) : num :=
  if (length y_true <? 2)%nat then None else
  let m := rsum y_true / INR (length y_true) in
  let numerator := rsum (map (fun p => (fst p - snd p) ^ 2) (combine y_true y_pred)) in
  let denominator := rsum (map (fun v => (v - m) ^ 2) y_true) in
  if Req_EM_T denominator 0 then (if Req_EM_T numerator 0 then Some 1 else Some 0) else Some (1 - numerator / denominator).
(** [score] (83-86) with the parameters just stored; only called with finite ones. *)
Definition score {A} (func : model A) (X : list A) (y : list R) (theta : list num) : num := r2_score y (func X (map value theta)).
(** [X[train_index]]. *)
Definition pick {A} (l : list A) (is : list nat) : list A := flat_map (fun i => match nth_error l i with Some v => [v] | None => [] end) is.
(** One turn of the loop (49-63): the optimizer on the training part, the score on the test part. *)
Definition fold_of {A} minimize (func : model A) initial (X : list A) (y : list R) (split : list nat * list nat) : fold :=
  (optimize minimize func initial (pick X (fst split)) (pick y (fst split)), score func (pick X (snd split)) (pick y (snd split))).
(** The call [fit(X, y, cv=c)] in terms of FitModel.v; [splits n] is what [ShuffleSplit(n_splits=n).split(X)] yields. *)
Definition call_of {A} minimize (func : model A) initial (X : list A) (y : list R) (c : option nat) (splits : nat -> list (list nat * list nat)) : call :=
  Call c (optimize minimize func initial X y) (fun n => map (fold_of minimize func initial X y) (splits n)).
(** The number of test samples of [ShuffleSplit] with its default test size 0.1: [ceil(0.1*n)] (rounding of 0.1 aside). *)
Definition test_size (n : nat) : nat := ((n + 9) / 10)%nat.
(** [predict] (73-76). *)
Definition predict {A} (func : model A) (o : obj) (X : list A) : list R := func X (map value (theta_of (fitted o))).
