(** More of C38: whole boxes. *)
From Coq Require Import List Arith Reals Bool Lia Lra Psatz.
From Verif Require Import RLib PvModel PvProps PvBoxModel.
Import ListNotations.
Local Open Scope R_scope.

(** On a cube every line of sight is distorted on its own: its cells are moved by the shift that belongs to the chosen
    component of their velocity. *)
Theorem C38_cube : forall H c LB n dT kms zs los a num periodic, (0 < n)%nat -> (los < 3)%nat -> (a < 3)%nat -> (length zs = 1 \/ length zs = n)%nat ->
  exists out, get_distorted_dt H c LB (n, n, n) dT kms zs los a num periodic = Some out /\
  forall i j, (i < n)%nat -> (j < n)%nat ->
    out i j = distorted n num LB periodic (skewer los n dT i j) (skewer los n (fun x y t => shift H c (redshift_of zs t) (kms a x y t)) i j).
Proof.
  intros H c LB n dT kms zs los a num periodic Hn Hl Ha Hz. unfold get_distorted_dt.
  assert (B : broadcasts zs n = true) by (unfold broadcasts; destruct Hz as [E|E]; rewrite E, Nat.eqb_refl; [reflexivity|apply orb_true_r]).
  assert (T : transverse (n, n, n) los = Some (n, n, n, n)) by (destruct los as [|[|[|]]]; [reflexivity..|lia]).
  rewrite T, B. replace (Nat.ltb a 3) with true by (symmetry; now apply Nat.ltb_lt). cbn [andb]. unfold distorted_box. rewrite Nat.eqb_refl. cbn [orb].
  rewrite T, Nat.leb_refl. cbn [andb]. eexists. split; [reflexivity|]. intros i j Hi Hj. cbv beta.
  replace (Nat.ltb i n) with true by (symmetry; now apply Nat.ltb_lt). replace (Nat.ltb j n) with true by (symmetry; now apply Nat.ltb_lt). cbn [andb].
  replace (INR n * (LB / INR n)) with LB; [reflexivity|]. assert (0 < INR n) by now apply lt_0_INR. field. lra.
Qed.
Print Assumptions C38_cube.

(** The total signal of a periodic cube is kept as long as no shift exceeds the box. *)
Theorem C38_cube_conserves : forall H c LB n dT kms zs los a num out, (2 <= n)%nat -> (0 < num)%nat -> 0 < LB -> (los < 3)%nat -> (a < 3)%nat -> (length zs = 1 \/ length zs = n)%nat ->
  (forall i j k, (i < n)%nat -> (j < n)%nat -> (k < n)%nat -> - LB <= shift H c (redshift_of zs k) (kms a i j k) <= LB) ->
  get_distorted_dt H c LB (n, n, n) dT kms zs los a num true = Some out ->
  forall i j, (i < n)%nat -> (j < n)%nat -> length (out i j) = n /\ rsum (out i j) = rsum (skewer los n dT i j).
Proof.
  intros H c LB n dT kms zs los a num out Hn Hnum HL Hl Ha Hz B E i j Hi Hj.
  destruct (C38_cube H c LB n dT kms zs los a num true ltac:(lia) Hl Ha Hz) as [o [E1 V]]. rewrite E in E1. assert (o = out) by congruence. subst o.
  rewrite (V i j Hi Hj). split; [unfold distorted; now rewrite map_length, seq_length|].
  assert (LS : forall f, length (skewer los n f i j) = n) by (intro f; unfold skewer; now rewrite map_length, seq_length).
  apply C38_periodic_conserves; auto. intros x Ix. unfold skewer in Ix. apply in_map_iff in Ix as [t [Et It]]. apply in_seq in It. subst x.
  destruct los as [|[|]]; apply B; lia.
Qed.
Print Assumptions C38_cube_conserves.
Example C38_cube_conserves_sat : exists (H : R -> R) (c : R) (LB : R) (n : nat) (dT : cube) (kms : nat -> nat -> nat -> nat -> R) (zs : list R) (los : nat) (a : nat) (num : nat) (out : nat -> nat -> list R), (2 <= n)%nat /\ (0 < num)%nat /\ 0 < LB /\ (los < 3)%nat /\ (a < 3)%nat /\ ((length zs = 1 \/ length zs = n)%nat) /\ ((forall i j k, (i < n)%nat -> (j < n)%nat -> (k < n)%nat -> - LB <= shift H c (redshift_of zs k) (kms a i j k) <= LB)) /\ get_distorted_dt H c LB (n, n, n) dT kms zs los a num true = Some out /\ exists i j, (i < n)%nat /\ (j < n)%nat.
Proof. destruct (get_distorted_dt (fun _ => 70) (3 * 10 ^ 5) 100 (4, 4, 4)%nat (fun i j k => INR (i + j)) (fun _ _ _ _ => 0) [8] 2 2 10 true) as [out|] eqn:E.
2: { exfalso. unfold get_distorted_dt in E. cbn [transverse broadcasts length Nat.eqb orb negb andb] in E. repeat match type of E with context [if ?b then _ else _] => let v := eval vm_compute in b in change b with v in E; cbv iota in E end. discriminate. }
exists (fun _ => 70), (3 * 10 ^ 5), 100, 4%nat, (fun i j k => INR (i + j)), (fun _ _ _ _ => 0), [8], 2%nat, 2%nat, 10%nat, out.
repeat split; try lia; try lra; try exact E. left; reflexivity. all: try (unfold shift; lra). exists 0%nat, 1%nat. lia. Qed.

(** Redshifts given as an array belong to the cells of the last axis: along the other two lines of sight all cells of a line
    share one redshift, that of the position across the line. *)
Theorem C38_redshift_axis_refuted : forall H c LB n dT kms zs a num periodic, (2 <= n)%nat -> (a < 3)%nat -> length zs = n ->
  (exists out, get_distorted_dt H c LB (n, n, n) dT kms zs 2 a num periodic = Some out /\ forall i j, (i < n)%nat -> (j < n)%nat ->
     out i j = distorted n num LB periodic (skewer 2 n dT i j) (map (fun t => shift H c (nth t zs 0) (kms a i j t)) (seq 0 n))) /\
  (exists out, get_distorted_dt H c LB (n, n, n) dT kms zs 0 a num periodic = Some out /\ forall i j, (i < n)%nat -> (j < n)%nat ->
     out i j = distorted n num LB periodic (skewer 0 n dT i j) (map (fun t => shift H c (nth j zs 0) (kms a t i j)) (seq 0 n))) /\
  (exists out, get_distorted_dt H c LB (n, n, n) dT kms zs 1 a num periodic = Some out /\ forall i j, (i < n)%nat -> (j < n)%nat ->
     out i j = distorted n num LB periodic (skewer 1 n dT i j) (map (fun t => shift H c (nth j zs 0) (kms a i t j)) (seq 0 n))).
Proof.
  intros H c LB n dT kms zs a num periodic Hn Ha Hz.
  assert (RZ : forall k, redshift_of zs k = nth k zs 0) by (intro k; destruct zs as [|x [|y l]]; cbn [length] in Hz; [reflexivity|lia|reflexivity]).
  assert (G : forall los, (los < 3)%nat -> exists out, get_distorted_dt H c LB (n, n, n) dT kms zs los a num periodic = Some out /\ forall i j, (i < n)%nat -> (j < n)%nat ->
     out i j = distorted n num LB periodic (skewer los n dT i j) (skewer los n (fun x y t => shift H c (redshift_of zs t) (kms a x y t)) i j)) by (intros los Hl; apply C38_cube; auto; lia).
  repeat split; [destruct (G 2%nat ltac:(lia)) as [o [E V]]|destruct (G 0%nat ltac:(lia)) as [o [E V]]|destruct (G 1%nat ltac:(lia)) as [o [E V]]];
    exists o; (split; [exact E|]); intros i j Hi Hj; rewrite (V i j Hi Hj); f_equal; unfold skewer; apply map_ext; intro t; rewrite RZ; reflexivity.
Qed.
Print Assumptions C38_redshift_axis_refuted.
Example C38_redshift_axis_refuted_sat : exists (n : nat) (zs : list R) (a : nat), (2 <= n)%nat /\ (a < 3)%nat /\ length zs = n.
Proof. exists 3%nat, [8; 9; 10], 1%nat. repeat split; first [lra | lia | reflexivity | discriminate | congruence | auto]. Qed.

(** [make_pv_box] always takes the first component of the velocity. Along the first axis that is the velocity along the line of
    sight; along the other two, motion along the line of sight has no effect at all, and motion across it distorts the box. *)
Theorem C38_velocity_axis_refuted : forall H c LB n dT kms z los num, (2 <= n)%nat -> (0 < num)%nat -> 0 < LB -> (los < 3)%nat ->
  (forall i j k, kms 0%nat i j k = 0) ->
  exists out, make_pv_box H c LB (n, n, n) dT kms z los num = Some out /\ forall i j, (i < n)%nat -> (j < n)%nat -> out i j = skewer los n dT i j.
Proof.
  intros H c LB n dT kms z los num Hn Hnum HL Hl K. unfold make_pv_box.
  destruct (C38_cube H c LB n dT kms [z] los 0 num true ltac:(lia) Hl ltac:(lia) ltac:(now left)) as [out [E V]].
  exists out. split; [exact E|]. intros i j Hi Hj. rewrite (V i j Hi Hj).
  replace (skewer los n (fun x y t => shift H c (redshift_of [z] t) (kms 0%nat x y t)) i j) with (repeat 0 n).
  - apply C38_no_velocity; auto. unfold skewer. now rewrite map_length, seq_length.
  - unfold skewer. symmetry. assert (G : forall l : list nat, map (fun t : nat => match los with 0%nat => shift H c (redshift_of [z] j) (kms 0%nat t i j) | 1%nat => shift H c (redshift_of [z] j) (kms 0%nat i t j) | _ => shift H c (redshift_of [z] t) (kms 0%nat i j t) end) l = repeat 0 (length l)).
    { induction l as [|t l IH]; [reflexivity|]. cbn [map length repeat]. rewrite IH. f_equal. destruct los as [|[|]]; rewrite K; unfold shift, Rdiv; ring. }
    specialize (G (seq 0 n)). rewrite seq_length in G. exact G.
Qed.
Print Assumptions C38_velocity_axis_refuted.
Example C38_velocity_axis_refuted_sat : exists (LB : R) (n : nat) (kms : nat -> nat -> nat -> nat -> R) (los : nat) (num : nat), (2 <= n)%nat /\ (0 < num)%nat /\ 0 < LB /\ (los < 3)%nat /\ (forall i j k, kms 0%nat i j k = 0).
Proof. exists 100, 4%nat, (fun a _ _ _ => INR a), 1%nat, 10%nat. repeat split; try lia; try lra. Qed.

Theorem C38_pv_box_component : forall H c LB shape dT kms kms' z los num, (forall i j k, kms 0%nat i j k = kms' 0%nat i j k) ->
  match make_pv_box H c LB shape dT kms z los num, make_pv_box H c LB shape dT kms' z los num with
  | Some out, Some out' => forall i j, out i j = out' i j
  | None, None => True
  | _, _ => False
  end.
Proof.
  intros H c LB [[mx my] mz] dT kms kms' z los num K. unfold make_pv_box, get_distorted_dt.
  destruct (transverse (mx, my, mz) los) as [[[[depth w] ni] nj]|] eqn:T; [|exact I]. cbn [broadcasts length Nat.eqb orb andb Nat.ltb Nat.leb].
  unfold distorted_box. destruct (Nat.eqb mx my || Nat.eqb my mz || Nat.eqb mx mz); [|exact I]. rewrite T.
  destruct (Nat.leb w ni && Nat.leb w nj); [|exact I]. intros i j. destruct (Nat.ltb i w && Nat.ltb j w); [|reflexivity].
  f_equal. unfold skewer. apply map_ext. intro t. destruct los as [|[|]]; rewrite K; reflexivity.
Qed.
Print Assumptions C38_pv_box_component.
Example C38_pv_box_component_sat : exists (kms : nat -> nat -> nat -> nat -> R) (kms' : nat -> nat -> nat -> nat -> R), (forall i j k, kms 0%nat i j k = kms' 0%nat i j k).
Proof. exists (fun a _ _ _ => INR a), (fun _ _ _ _ => 0). reflexivity. Qed.

Example C38_cube_sat : exists out, make_pv_box (fun _ => 70) (3 * 10 ^ 5) 100 (2, 2, 2)%nat (fun i j k => INR (i + j + k)) (fun a _ _ _ => if Nat.eqb a 1 then 300 else 0) 9 1 10 = Some out /\ out 1%nat 1%nat = [2; 3].
Proof.
  destruct (C38_velocity_axis_refuted (fun _ => 70) (3 * 10 ^ 5) 100 2 (fun i j k => INR (i + j + k)) (fun a _ _ _ => if Nat.eqb a 1 then 300 else 0) 9 1 10 ltac:(lia) ltac:(lia) ltac:(lra) ltac:(lia) ltac:(reflexivity)) as [out [E V]].
  exists out. split; [exact E|]. rewrite (V 1%nat 1%nat) by lia. cbn. apply f_equal2; [ring|apply f_equal2; [ring|reflexivity]].
Qed.

(** A box of [w] by [w] lines of [d] cells, as a light cone: cells have the size LB/w of the transverse ones, so that
    a line is d*LB/w long, and particles are wrapped at that length. *)
Definition box_shape (los d w : nat) : nat * nat * nat := match los with 0%nat => (d, w, w) | 1%nat => (w, d, w) | _ => (w, w, d) end.
Definition last_size (los d w : nat) : nat := match los with 2%nat => d | _ => w end.
Theorem C38_light_cone : forall H c LB d w dT kms zs los a num periodic, (0 < w)%nat -> (los < 3)%nat -> (a < 3)%nat -> (length zs = 1 \/ length zs = last_size los d w)%nat ->
  exists out, get_distorted_dt H c LB (box_shape los d w) dT kms zs los a num periodic = Some out /\
  forall i j, (i < w)%nat -> (j < w)%nat ->
    out i j = distorted d num (INR d * LB / INR w) periodic (skewer los d dT i j) (skewer los d (fun x y t => shift H c (redshift_of zs t) (kms a x y t)) i j).
Proof.
  intros H c LB d w dT kms zs los a num periodic Hw Hl Ha Hz.
  assert (T : transverse (box_shape los d w) los = Some (d, w, w, w)) by (destruct los as [|[|[|]]]; [reflexivity..|lia]).
  assert (B : broadcasts zs (last_size los d w) = true) by (unfold broadcasts; destruct Hz as [E|E]; rewrite E, Nat.eqb_refl; [reflexivity|apply orb_true_r]).
  assert (E : get_distorted_dt H c LB (box_shape los d w) dT kms zs los a num periodic =
    distorted_box (box_shape los d w) los (fun i j => distorted d num (INR d * (LB / INR w)) periodic (skewer los d dT i j) (skewer los d (fun x y t => shift H c (redshift_of zs t) (kms a x y t)) i j))).
  { unfold get_distorted_dt. destruct los as [|[|[|]]]; cbn [box_shape last_size transverse] in *; try lia; rewrite B; replace (Nat.ltb a 3) with true by (symmetry; now apply Nat.ltb_lt); reflexivity. }
  assert (Q : distorted_box (box_shape los d w) los (fun i j => distorted d num (INR d * (LB / INR w)) periodic (skewer los d dT i j) (skewer los d (fun x y t => shift H c (redshift_of zs t) (kms a x y t)) i j)) =
    Some (fun i j => if Nat.ltb i w && Nat.ltb j w then distorted d num (INR d * (LB / INR w)) periodic (skewer los d dT i j) (skewer los d (fun x y t => shift H c (redshift_of zs t) (kms a x y t)) i j) else repeat 0 d)).
  { unfold distorted_box. rewrite T, Nat.leb_refl. destruct los as [|[|[|]]]; cbn [box_shape]; try lia; rewrite Nat.eqb_refl, ?orb_true_r; reflexivity. }
  rewrite E, Q. eexists. split; [reflexivity|]. intros i j Hi Hj. cbv beta.
  replace (Nat.ltb i w) with true by (symmetry; now apply Nat.ltb_lt). replace (Nat.ltb j w) with true by (symmetry; now apply Nat.ltb_lt). cbn [andb].
  replace (INR d * (LB / INR w)) with (INR d * LB / INR w) by (unfold Rdiv; ring). reflexivity.
Qed.
Print Assumptions C38_light_cone.
Theorem C38_light_cone_conserves : forall H c LB d w dT kms zs los a num out, (2 <= d)%nat -> (0 < w)%nat -> (0 < num)%nat -> 0 < LB -> (los < 3)%nat -> (a < 3)%nat -> (length zs = 1 \/ length zs = last_size los d w)%nat ->
  (forall x y t, - (INR d * LB / INR w) <= shift H c (redshift_of zs t) (kms a x y t) <= INR d * LB / INR w) ->
  get_distorted_dt H c LB (box_shape los d w) dT kms zs los a num true = Some out ->
  forall i j, (i < w)%nat -> (j < w)%nat -> length (out i j) = d /\ rsum (out i j) = rsum (skewer los d dT i j).
Proof.
  intros H c LB d w dT kms zs los a num out Hd Hw Hnum HL Hl Ha Hz B E i j Hi Hj.
  destruct (C38_light_cone H c LB d w dT kms zs los a num true Hw Hl Ha Hz) as [o [E1 V]]. rewrite E in E1. assert (o = out) by congruence. subst o.
  rewrite (V i j Hi Hj). split; [unfold distorted; now rewrite map_length, seq_length|].
  assert (LS : forall f, length (skewer los d f i j) = d) by (intro f; unfold skewer; now rewrite map_length, seq_length).
  assert (0 < INR d) by (apply lt_0_INR; lia). assert (0 < INR w) by (apply lt_0_INR; lia).
  apply C38_periodic_conserves; auto.
  - apply Rdiv_lt_0_compat; [now apply Rmult_lt_0_compat|assumption].
  - intros x Ix. unfold skewer in Ix. apply in_map_iff in Ix as [t [Et It]]. subst x. destruct los as [|[|]]; apply B.
Qed.
Print Assumptions C38_light_cone_conserves.
Example C38_light_cone_sat : exists H c LB d w kms zs los a, (2 <= d)%nat /\ (0 < w)%nat /\ d <> w /\ 0 < LB /\ (los < 3)%nat /\ (a < 3)%nat /\ (length zs = 1 \/ length zs = last_size los d w)%nat /\
  (forall x y t : nat, - (INR d * LB / INR w) <= shift H c (redshift_of zs t) (kms a x y t) <= INR d * LB / INR w).
Proof.
  exists (fun _ => 70), (3 * 10 ^ 5), 100, 6%nat, 4%nat, (fun _ _ _ _ => 0), [8; 8.1; 8.2; 8.3; 8.4; 8.5], 2%nat, 1%nat.
  repeat split; try lia; try lra; try (right; reflexivity); unfold shift; cbn; lra.
Qed.
