(** The older daily map [get_uv_daily_observation_numba] (numba_functions.py:39-70). *)
From Coq Require Import List Arith ZArith QArith Bool.
From Verif Require Import PyBase UvGridModel.
Import ListNotations.
Local Open Scope nat_scope.

Definition to_q (m : list (list nat)) : list (list Q) := map (map (fun k => inject_Z (Z.of_nat k))) m.
(** Lines 55-70: the map of the baselines as they are ([base]), plus those of the time slices
    [i+1] for [i] in [prange(tot_num_obs-1)], over [tot_num_obs]. [rot t] is the list of
    baselines rotated to slice [t]. [None]: no observation, a division by zero (NaN map). *)
Definition uv_daily_numba (n : nat) (theta : Q) (total : nat) (base : list baseline) (rot : nat -> list baseline) : option (list (list Q)) :=
  let step acc i :=
    match acc, get_uv_coverage n theta (rot (i + 1)) with
    | Some m, Some g => Some (add_map m (to_q g))
    | _, _ => None
    end in
  match get_uv_coverage n theta base, fold_left step (seq 0 (total - 1)) (Some (table2 n (fun _ _ => 0%Q))) with
  | Some m0, Some m =>
      if Nat.eqb total 0 then None
      else Some (map (map (fun x => x / inject_Z (Z.of_nat total))%Q) (add_map m (to_q m0)))
  | _, _ => None
  end.
