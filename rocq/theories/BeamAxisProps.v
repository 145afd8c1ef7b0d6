(** C76: the primary beam along any frequency axis. *)
From Coq Require Import List Arith Reals Lra Lia Bool.
From Verif Require Import BeamPModel BeamPProps.
Import ListNotations.
Local Open Scope R_scope.

(** * Specification *)
(** The position of a cell along axis [a], and in the plane across it. *)
Definition along (a i j k : nat) : nat := match a with 0%nat => i | 1%nat => j | _ => k end.
Definition across (a i j k : nat) : nat * nat := match a with 0%nat => (j, k) | 1%nat => (i, k) | _ => (i, j) end.
(** The redshift of a slice: one redshift stands for all slices. *)
Definition redshift_of (zs : list R) (s : nat) : option R := match zs with [z] => Some z | _ => nth_error zs s end.

Lemma circular_sym : forall j1 b n box l f p q, circular_beam j1 b n box l = Some f -> f p q = f q p.
Proof.
  intros j1 b n box l f p q H. unfold circular_beam in H. destruct (Nat.eqb n 0); [discriminate|]. destruct (Req_EM_T _ 0); [discriminate|]. injection H as <-. cbv beta.
  unfold rr. rewrite (Rplus_comm (coord n box p ^ 2)). reflexivity.
Qed.

(** Whichever axis is named as the frequency axis: every slice across it is multiplied by the beam of its own redshift, with the beam's
    two axes along the two others, and a slice without a redshift becomes zero. *)
Theorem C76_slices_axis : forall j1 null b n0 n1 n2 box a zs l x y, (a <= 2)%nat ->
  primary_beam_3d j1 null b (n0, n1, n2) box a zs l x = Some y ->
  forall i j k, (along a i j k < along a n0 n1 n2)%nat ->
  match redshift_of zs (along a i j k) with
  | Some z => exists f, circular_beam j1 b n0 box (match l with Some l => l | None => null z end) = Some f /\
                        y i j k = x i j k * f (fst (across a i j k)) (snd (across a i j k))
  | None => y i j k = 0
  end.
Proof.
  intros j1 null b n0 n1 n2 box a zs l x y Ha H i j k Hs. unfold primary_beam_3d in H.
  destruct (swap_shape a (n0, n1, n2)) as [[m0 m1] m2] eqn:SW.
  assert (M2 : m2 = along a n0 n1 n2). { destruct a as [|[|[|a]]]; cbn in SW |- *; congruence. }
  set (zz := match zs with [z] => repeat z m2 | _ => zs end) in H.
  assert (RZ : nth_error zz (along a i j k) = redshift_of zs (along a i j k)).
  { unfold zz, redshift_of. destruct zs as [|z [|z' r]]; [reflexivity| |reflexivity]. rewrite <- M2 in Hs. clear - Hs. revert Hs. generalize (along a i j k). induction m2 as [|m IH]; intros s Hs; [lia|]. destruct s; [reflexivity|]. cbn. apply IH. lia. }
  rewrite <- RZ. clear RZ. clearbody zz.
  destruct (Nat.ltb n2 (length zz)); [discriminate|]. destruct (negb _ && negb _)%bool; [discriminate|]. destruct (shape_eqb (m0, m1, m2) (n0, n1, n2)) eqn:SE; [|discriminate]. cbn [negb] in H.
  unfold shape_eqb in SE. apply andb_prop in SE. destruct SE as [SE _]. apply andb_prop in SE. destruct SE as [SE _]. apply Nat.eqb_eq in SE. subst m0.
  match type of H with context [all_beams ?f zz] => set (F := f) in H end. destruct (all_beams F zz) as [bs|] eqn:AB; [|discriminate]. injection H as <-.
  destruct (all_beams_some F zz bs AB) as [L P]. destruct (nth_error zz (along a i j k)) as [z|] eqn:E.
  - destruct (P _ z E) as (f & Ef & Nf). exists f. split; [exact Ef|]. pose proof (circular_sym _ _ _ _ _ _ (fst (across a i j k)) (snd (across a i j k)) Ef) as Sy. pose proof (nth_error_nth bs _ (fun _ _ => 0) Nf) as NN.
    destruct a as [|[|[|a]]]; [| | |lia]; cbn [along across fst snd swap_cube] in *; rewrite NN; [rewrite Sy; reflexivity|reflexivity|reflexivity].
  - apply nth_error_None in E. destruct a as [|[|[|a]]]; [| | |lia]; cbn [along swap_cube] in *; rewrite nth_overflow by lia; ring.
Qed.
Print Assumptions C76_slices_axis.
Example C76_slices_axis_sat : forall j1 null x, exists y, primary_beam_3d j1 null Gaussian (3, 3, 3)%nat 90 0 [8; 9] (Some 20) x = Some y.
Proof.
  intros j1 null x. unfold primary_beam_3d. cbn [swap_shape length Nat.ltb Nat.leb Nat.eqb negb andb shape_eqb all_beams].
  destruct (circular_beam j1 Gaussian 3 90 20) as [f|] eqn:E; [eexists; reflexivity|]. exfalso.
  apply C76_defined in E; [|lia|lra|lra|discriminate]. destruct E as [E _]. discriminate.
Qed.
