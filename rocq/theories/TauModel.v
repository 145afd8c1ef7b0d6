(** Model of [tau] and [tau_map] (tau.py). *)
From Coq Require Import List Arith Reals.
Import ListNotations.
Local Open Scope R_scope.

Section Tau.
  Variables Om lam coeff : R.   (* Omega0, lam and [coeff] (lines 45-48) *)
  (** The depth of a fully ionised universe (line 55). *)
  Definition full_depth (z : R) : R := coeff * (sqrt (Om * (1 + z) ^ 3 + lam) - 1).
  Definition kernel (z : R) : R := (1 + z) ^ 2 / sqrt (Om * (1 + z) ^ 3 + lam).
  (** One step of the loop (lines 58-61). *)
  Definition trapezoid (zp xp z x : R) : R :=
    15 / 10 * coeff * Om * (xp * kernel zp + x * kernel z) * (z - zp) / 2.
  Fixpoint steps (acc zp xp : R) (rest : list (R * R)) : list R :=
    match rest with
    | [] => []
    | (z, x) :: r => let t := acc + trapezoid zp xp z x in t :: steps t z x r
    end.
  (** [np.arange(1,num_points+1)/num_points*redshifts[0]] (line 50). *)
  Definition low_z (num : nat) (z0 : R) : list R := map (fun k => INR (S k) / INR num * z0) (seq 0 num).
  (** [tau] after the sort of line 43, for a non-empty list of (redshift, fraction). In the
      first step [ionfractions[i-1-num_points]] is the last fraction, and for
      [num_points = 0] also [tau_z[i-1]] is the last redshift and [tau0[i-1]] a zero. *)
  Definition tau_sorted (num : nat) (p : R * R) (ps : list (R * R)) : list R * list R :=
    let lz := low_z num (fst p) in
    let head := map full_depth lz in
    let lastp := last ps p in
    let acc := match num with O => 0 | S m => nth m head 0 end in
    let zp := match num with O => fst lastp | S m => nth m lz 0 end in
    (head ++ steps acc zp (snd lastp) (p :: ps), lz ++ map fst (p :: ps)).
  (** [tau_map] for one line of sight (lines 118-138): no sort, and [linspace]. *)
  Definition low_z_map (num : nat) (z0 : R) : list R :=
    map (fun k => z0 / INR num + INR k * ((z0 - z0 / INR num) / INR (num - 1))) (seq 0 num).
  Definition tau_map_line (num : nat) (p : R * R) (ps : list (R * R)) : list R * list R :=
    let lz := low_z_map num (fst p) in
    let head := map full_depth lz in
    let lastp := last ps p in
    let acc := match num with O => 0 | S m => nth m head 0 end in
    let zp := match num with O => fst lastp | S m => nth m lz 0 end in
    (head ++ steps acc zp (snd lastp) (p :: ps), lz ++ map fst (p :: ps)).
End Tau.
