(** More of C04/C05: the older daily map. *)
From Coq Require Import List Arith ZArith QArith Bool Lia.
From Verif Require Import PyBase UvGridModel UvGridSpec UvGridProofs UvGridProps UvOldModel.
Import ListNotations.
Local Open Scope nat_scope.

Lemma to_q_table n f : to_q (table2 n f) = table2 n (fun i j => inject_Z (Z.of_nat (f i j))).
Proof. unfold to_q, table2. rewrite map_map. apply map_ext. intros i. now rewrite map_map. Qed.

Lemma old_fold n theta (rot : nat -> list baseline) ts f :
  fold_left (fun acc i => match acc, get_uv_coverage n theta (rot (i + 1)) with Some m, Some g => Some (add_map m (to_q g)) | _, _ => None end) ts (Some (table2 n f))
  = Some (table2 n (fun i j => fold_left (fun a t => a + inject_Z (Z.of_nat (hits3 n (theta / 2) (rot (t + 1)%nat) (Z.of_nat i) (Z.of_nat j))))%Q ts (f i j))).
Proof.
  revert f. induction ts as [|t ts IH]; intros f; [reflexivity|].
  cbn [fold_left]. rewrite coverage_eq, to_q_table, add_map_table, IH. reflexivity.
Qed.

(** Each cell of the older daily map is the mean over as many maps as there are observations:
    that of the baselines as they are given, not rotated at all, and those of the slices
    1 .. T-1. The last slice is not in it. *)
Theorem C05_uv_old_daily_pixel : forall n theta T base rot, 0 < T -> exists m,
  uv_daily_numba n theta T base rot = Some m /\
  forall i j, i < n -> j < n -> exists q, entry m i j = Some q /\
    (q == (inject_Z (Z.of_nat (hits3 n (theta / 2) base (Z.of_nat i) (Z.of_nat j)))
           + sum_slices (T - 1) (fun t => inject_Z (Z.of_nat (hits3 n (theta / 2) (rot t) (Z.of_nat i) (Z.of_nat j)))))
          / inject_Z (Z.of_nat T))%Q.
Proof.
  intros n theta T base rot HT. unfold uv_daily_numba. rewrite coverage_eq, old_fold.
  replace (Nat.eqb T 0) with false by (symmetry; apply Nat.eqb_neq; lia).
  rewrite to_q_table, add_map_table.
  match goal with |- context [table2 n ?h] => set (g := h) end.
  exists (table2 n (fun i j => g i j / inject_Z (Z.of_nat T))%Q). split.
  - f_equal. unfold table2. rewrite map_map. apply map_ext. intros i. now rewrite map_map.
  - intros i j Hi Hj. exists (g i j / inject_Z (Z.of_nat T))%Q. split; [now rewrite entry_table2|].
    apply Qdiv_comp; [|reflexivity]. unfold g. rewrite fold_left_Qplus. unfold sum_slices.
    rewrite <- seq_shift, map_map.
    rewrite (map_ext (fun t => inject_Z (Z.of_nat (hits3 n (theta / 2) (rot (t + 1)%nat) (Z.of_nat i) (Z.of_nat j))))
                     (fun x => inject_Z (Z.of_nat (hits3 n (theta / 2) (rot (S x)) (Z.of_nat i) (Z.of_nat j)))))
      by (intros t; now rewrite Nat.add_1_r).
    ring.
Qed.
Print Assumptions C05_uv_old_daily_pixel.
Example C05_uv_old_daily_pixel_sat : exists (T : nat), 0 < T.
Proof. exists 10. lia. Qed.

(** So the last slice has no effect on the map, and with a single observation no rotated
    baseline has. *)
Theorem C05_uv_old_daily_last : forall n theta T base rot rot',
  (forall t, 1 <= t < T -> rot t = rot' t) ->
  uv_daily_numba n theta T base rot = uv_daily_numba n theta T base rot'.
Proof.
  intros n theta T base rot rot' H. unfold uv_daily_numba. rewrite !old_fold.
  assert (E : forall ts f i j, (forall t, In t ts -> rot (t + 1) = rot' (t + 1)) ->
    fold_left (fun a t => a + inject_Z (Z.of_nat (hits3 n (theta / 2) (rot (t + 1)%nat) (Z.of_nat i) (Z.of_nat j))))%Q ts (f i j)
    = fold_left (fun a t => a + inject_Z (Z.of_nat (hits3 n (theta / 2) (rot' (t + 1)%nat) (Z.of_nat i) (Z.of_nat j))))%Q ts (f i j)).
  { intros ts f i j Ht. generalize (f i j). induction ts as [|t ts IH]; intros a; [reflexivity|]. cbn [fold_left].
    rewrite (Ht t) by now left. apply IH. intros t' Hi. apply Ht. now right. }
  destruct (get_uv_coverage n theta base); [|reflexivity].
  destruct (Nat.eqb T 0); [reflexivity|]. do 3 f_equal.
  apply table2_ext. intros i j _ _. apply (E _ (fun _ _ => 0%Q)). intros t Ht. apply in_seq in Ht. apply H. lia.
Qed.
Print Assumptions C05_uv_old_daily_last.
Example C05_uv_old_daily_last_sat : exists (T : nat) (rot : nat -> list baseline) (rot' : nat -> list baseline), (forall t, 1 <= t < T -> rot t = rot' t).
Proof. exists 3, (fun t => if Nat.leb t 2 then ex_bs else []), (fun t => ex_bs). intros t H. destruct t as [|[|[|t]]]; try lia; reflexivity. Qed.

Example C05_uv_old_sat : exists m, uv_daily_numba 4 2 3 ex_bs (fun t => if Nat.leb t 2 then ex_bs else []) = Some m
  /\ uv_daily_numba 4 2 3 ex_bs (fun t => ex_bs) = Some m /\ exists q, entry m 0 0 = Some q /\ (q == 1)%Q.
Proof. eexists. split; [vm_compute; reflexivity|]. split; [vm_compute; reflexivity|]. eexists. split; [reflexivity|]. reflexivity. Qed.
