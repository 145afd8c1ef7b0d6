(** Notions for the statements about statistics. *)
From Coq Require Import List Arith Reals.
From Verif Require Import RLib StatsModel.
Import ListNotations.
Local Open Scope R_scope.

(** Sum of squared deviations from the mean. *)
Definition sq_dev (l : list R) : R := rsum (map (fun x => (x - mean l) ^ 2) l).

(** The triple of the dataset describes the sample: its mean, its size, and a variance
    with Bessel's correction (for a sample of one element any number will do). *)
Definition describes (s : list R) (d : dataset) : Prop :=
  s <> [] /\ dmean d = mean s /\ dsize d = INR (length s) /\
  (length s = 1%nat \/ dvar d = sq_dev s / (INR (length s) - 1)).
(** The same with the population variance (numpy's default). *)
Definition describes_population (s : list R) (d : dataset) : Prop :=
  s <> [] /\ dmean d = mean s /\ dsize d = INR (length s) /\ dvar d = sq_dev s / INR (length s).
