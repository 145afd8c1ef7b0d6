(** Least-squares fits with named parameters: fitting_methods.py. *)
From Coq Require Import List Arith Reals Bool.
Import ListNotations.
Local Open Scope R_scope.

(** Floating-point values: [None] stands for nan or an infinity. Parameter names are numbers. *)
Definition num := option R.
Definition dict := list (nat * num).
(** Assignment to a Python dictionary: an existing key keeps its place, a new one goes to the end. *)
Fixpoint put (k : nat) (v : num) (d : dict) : dict :=
  match d with [] => [(k, v)] | (k', v') :: r => if Nat.eqb k k' then (k, v) :: r else (k', v') :: put k v r end.
(** [for bt,kk in zip(best_theta, fit_params.keys()): fitted_params_[kk] = bt] (40-41, 57-59). *)
Definition put_all (keys : list nat) (theta : list num) (d : dict) : dict := fold_left (fun d kv => put (fst kv) (snd kv) d) (combine keys theta) d.
(** [predict] (73-76): the vector passed to the function. *)
Definition theta_of (d : dict) : list num := map snd d.
(** [np.all(np.isfinite(best_theta))] *)
Definition finite (theta : list num) : bool := forallb (fun v => match v with Some _ => true | None => false end) theta.
(** A fold of the cross validation: what the optimizer returns on the training part, and the score of a parameter vector on the test
    part (nan allowed). *)
Definition fold : Type := list num * (list num -> num).
Record cvstate := CV { dct : dict; rows : list (list num); scrs : list num }.
(** Lines 49-63. *)
Definition cv_step (keys : list nat) (s : cvstate) (f : fold) : cvstate :=
  if finite (fst f) then let d := put_all keys (fst f) (dct s) in CV d (rows s ++ [fst f]) (scrs s ++ [snd f (theta_of d)]) else s.
Definition positive (v : num) : bool := match v with Some x => if Rlt_dec 0 x then true else false | None => false end.
(** Mean and standard deviation of the entries of one column selected by the scores; nan of nothing. *)
Definition value (v : num) : R := match v with Some x => x | None => 0 end.
Definition column (i : nat) (rs : list (list num)) : list R := map (fun r => value (nth i r None)) rs.
Definition select {A} (l : list A) (scores : list num) : list A := map fst (filter (fun p => positive (snd p)) (combine l scores)).
Definition total (l : list R) : R := fold_right Rplus 0 l.
Definition mean (l : list R) : num := match l with [] => None | _ => Some (total l / INR (length l)) end.
Definition std (l : list R) : num := match mean l with None => None | Some m => Some (sqrt (total (map (fun x => (x - m) ^ 2) l) / INR (length l))) end.
(** Lines 66-70. *)
Definition cv_finish (keys : list nat) (s : cvstate) : dict * list num :=
  let ms := map (fun i => mean (select (column i (rows s)) (scrs s))) (seq 0 (length keys)) in
  let ss := map (fun i => std (select (column i (rows s)) (scrs s))) (seq 0 (length keys)) in
  (put_all keys ms (dct s), ss).

(** The object (12-24); [fit_params] is a dictionary, of which the names and their order matter here. *)
Record obj := Obj { params : list nat; cv : option nat; fitted : dict; stds : option (list num); cv_scores : option (list num) }.
Definition new (ps : list nat) (c : option nat) : obj := Obj ps c [] None None.
(** A call [fit(X, y, cv=c)] (35-71): [plain] is what the optimizer returns on all data, [folds] the folds the shuffle would make for a
    given number of splits. *)
Record call := Call { arg_cv : option nat; plain : list num; folds : nat -> list fold }.
Definition fit (o : obj) (c : call) : obj :=
  let cv' := match arg_cv c with Some n => Some n | None => cv o end in
  match cv' with
  | None => Obj (params o) cv' (put_all (params o) (plain c) (fitted o)) (stds o) (cv_scores o)
  | Some n => let s := fold_left (cv_step (params o)) (folds c n) (CV (fitted o) [] []) in
              let '(d, ss) := cv_finish (params o) s in Obj (params o) cv' d (Some ss) (Some (scrs s))
  end.
(** Reassigning the attribute between fits. *)
Definition set_params (ps : list nat) (o : obj) : obj := Obj ps (cv o) (fitted o) (stds o) (cv_scores o).
