(** C45: sub-boxes of the position-dependent power spectrum. *)
From Coq Require Import List Arith ZArith QArith Qround Bool Lia Lqa Psatz.
From Verif Require Import PyBase PyBaseProofs QLib LosModel BubbleModel BubbleProps SubboxModel.
Import ListNotations.
Local Open Scope nat_scope.

Lemma inj_pos : forall z, (0 < z)%Z -> (0 < inject_Z z)%Q.
Proof. intros z H. change 0%Q with (inject_Z 0). rewrite <- Zlt_Qlt. exact H. Qed.
Lemma edge_exact : forall n ncuts, 0 < ncuts -> (n mod Z.of_nat ncuts = 0)%Z -> (edge n ncuts == inject_Z (n / Z.of_nat ncuts))%Q.
Proof.
  intros n m H D. unfold edge. rewrite (Z_div_exact_full_2 n (Z.of_nat m)) at 1 by (lia || exact D). rewrite inject_Z_mult. pose proof (inj_pos (Z.of_nat m) ltac:(lia)). field. lra.
Qed.
Lemma truncate_int : forall q z, (q == inject_Z z)%Q -> LosModel.truncate q = z.
Proof.
  intros q z E. unfold LosModel.truncate. destruct (Qle_bool 0 q); rewrite ?(Qfloor_comp _ _ E), ?(Qceiling_comp _ _ E), ?Qfloor_Z, ?Qceiling_Z; reflexivity.
Qed.
Lemma in_slice_exact : forall l z i x, (l == inject_Z z)%Q -> in_slice (middle l i) l x = ((Z.of_nat i * z <=? x) && (x <? (Z.of_nat i + 1) * z))%Z.
Proof.
  intros l z i x E. unfold in_slice, middle. rewrite (truncate_int _ (Z.of_nat i * z)), (truncate_int _ ((Z.of_nat i + 1) * z)); [reflexivity| |]; rewrite E, !inject_Z_mult, ?inject_Z_plus; change (inject_Z 1) with 1%Q; field.
Qed.

(** Box [b] is the block of cells whose coordinates lie between b*L and (b+1)*L on each axis, with
    L = size/ncuts. *)
Definition in_box (n : shape3) (ncuts : nat) (b x : index) : Prop :=
  forall i, i < 3 -> let l := (axis i n / Z.of_nat ncuts)%Z in (axis i b * l <= axis i x < (axis i b + 1) * l)%Z.
Definition divisible (n : shape3) (ncuts : nat) : Prop := 0 < ncuts /\ forall i, i < 3 -> (axis i n mod Z.of_nat ncuts = 0)%Z.
Definition box_number (ncuts : nat) (b : index) : nat := (Z.to_nat (axis 0 b) * ncuts + Z.to_nat (axis 1 b)) * ncuts + Z.to_nat (axis 2 b).

Lemma nth_flat_map : forall {A B} (f : A -> list B) (d : B) (dA : A) m l i j, (forall x, In x l -> length (f x) = m) -> i < length l -> j < m -> nth (i * m + j) (flat_map f l) d = nth j (f (nth i l dA)) d.
Proof.
  intros A B f d dA m. induction l as [|a l IH]; intros i j H Hi Hj; [cbn in Hi; lia|]. cbn [flat_map]. destruct i as [|i].
  - cbn [Nat.mul Nat.add nth]. apply app_nth1. rewrite (H a (or_introl eq_refl)). exact Hj.
  - rewrite app_nth2; rewrite (H a (or_introl eq_refl)); [|lia]. replace (S i * m + j - m) with (i * m + j) by lia. cbn [nth]. apply IH; [intros; apply H; right; assumption|cbn in Hi; lia|exact Hj].
Qed.
Lemma centres_length : forall n ncuts, length (centres n ncuts) = ncuts ^ 3.
Proof.
  intros n m. unfold centres. destruct (edges n m) as [[l0 l1] l2]. rewrite (flat_map_const_length _ _ (m * m)); [rewrite seq_length; cbn; lia|]. intros i _. rewrite (flat_map_const_length _ _ m); [rewrite seq_length; reflexivity|]. intros j _. rewrite map_length, seq_length. reflexivity.
Qed.
Lemma centres_nth : forall n ncuts b d, within (Z.of_nat ncuts, Z.of_nat ncuts, Z.of_nat ncuts) b ->
  let '(l0, l1, l2) := edges n ncuts in
  nth (box_number ncuts b) (centres n ncuts) d = (middle l0 (Z.to_nat (axis 0 b)), middle l1 (Z.to_nat (axis 1 b)), middle l2 (Z.to_nat (axis 2 b))).
Proof.
  intros n m [[b0 b1] b2] d W. apply within3 in W. unfold centres. destruct (edges n m) as [[l0 l1] l2]. unfold box_number. cbn [axis].
  replace ((Z.to_nat b0 * m + Z.to_nat b1) * m + Z.to_nat b2) with (Z.to_nat b0 * (m * m) + (Z.to_nat b1 * m + Z.to_nat b2)) by lia.
  rewrite (nth_flat_map _ d 0 (m * m)); [| |rewrite seq_length; lia|nia].
  2:{ intros i _. rewrite (flat_map_const_length _ _ m); [rewrite seq_length; reflexivity|]. intros j _. rewrite map_length, seq_length. reflexivity. }
  rewrite seq_nth by lia. cbn [Nat.add]. rewrite (nth_flat_map _ d 0 m); [|intros; rewrite map_length, seq_length; reflexivity|rewrite seq_length; lia|lia].
  rewrite seq_nth by lia. cbn [Nat.add]. set (f := fun k => (middle l0 (Z.to_nat b0), middle l1 (Z.to_nat b1), middle l2 k)). rewrite (nth_indep _ d (f 0)) by (rewrite map_length, seq_length; lia). rewrite map_nth, seq_nth by lia. reflexivity.
Qed.
Lemma window_value : forall n ncuts i j k x, divisible n ncuts ->
  let '(l0, l1, l2) := edges n ncuts in
  window (middle l0 i, middle l1 j, middle l2 k) (edges n ncuts) x =
  if ((Z.of_nat i * (axis 0 n / Z.of_nat ncuts) <=? axis 0 x) && (axis 0 x <? (Z.of_nat i + 1) * (axis 0 n / Z.of_nat ncuts)))%Z
  && ((Z.of_nat j * (axis 1 n / Z.of_nat ncuts) <=? axis 1 x) && (axis 1 x <? (Z.of_nat j + 1) * (axis 1 n / Z.of_nat ncuts)))%Z
  && ((Z.of_nat k * (axis 2 n / Z.of_nat ncuts) <=? axis 2 x) && (axis 2 x <? (Z.of_nat k + 1) * (axis 2 n / Z.of_nat ncuts)))%Z then 1%Q else 0%Q.
Proof.
  intros [[n0 n1] n2] m i j k [[x0 x1] x2] [P D]. apply (proj1 (forall3 _)) in D. cbn [axis] in D. destruct D as [D0 [D1 D2]]. cbn [edges window axis].
  rewrite (in_slice_exact _ _ i x0 (edge_exact n0 m P D0)), (in_slice_exact _ _ j x1 (edge_exact n1 m P D1)), (in_slice_exact _ _ k x2 (edge_exact n2 m P D2)). reflexivity.
Qed.

(** The windows are the indicator functions of ncuts^3 equal blocks... *)
Theorem C45_windows : forall n ncuts b d, divisible n ncuts -> within (Z.of_nat ncuts, Z.of_nat ncuts, Z.of_nat ncuts) b ->
  length (centres n ncuts) = ncuts ^ 3 /\ box_number ncuts b < ncuts ^ 3 /\
  forall x, let w := window (nth (box_number ncuts b) (centres n ncuts) d) (edges n ncuts) x in
    (in_box n ncuts b x /\ w = 1%Q) \/ (~ in_box n ncuts b x /\ w = 0%Q).
Proof.
  intros n m b d D W. split; [apply centres_length|]. split.
  - destruct b as [[b0 b1] b2]. apply within3 in W. unfold box_number. cbn [axis Nat.pow]. nia.
  - intro x. pose proof (centres_nth n m b d W) as C. pose proof (window_value n m (Z.to_nat (axis 0 b)) (Z.to_nat (axis 1 b)) (Z.to_nat (axis 2 b)) x D) as V. unfold in_box.
    destruct (edges n m) as [[l0 l1] l2]. rewrite C, V. pose proof (proj1 (forall3 _) W) as W3. cbn [axis] in W3. rewrite !Z2Nat.id by lia. rewrite forall3.
    set (q0 := (axis 0 n / Z.of_nat m)%Z). set (q1 := (axis 1 n / Z.of_nat m)%Z). set (q2 := (axis 2 n / Z.of_nat m)%Z).
    match goal with |- context [if ?c then _ else _] => destruct c eqn:E end; rewrite ?andb_true_iff, ?andb_false_iff, ?Z.leb_le, ?Z.ltb_lt, ?Z.leb_gt, ?Z.ltb_ge in E; [left|right]; (split; [lia|reflexivity]).
Qed.
Print Assumptions C45_windows.
Lemma block_of : forall x n m, 0 < m -> (n mod Z.of_nat m = 0)%Z -> (0 <= x < n)%Z ->
  let l := (n / Z.of_nat m)%Z in (0 <= x / l < Z.of_nat m)%Z /\ forall i, (i * l <= x < (i + 1) * l <-> i = x / l)%Z.
Proof.
  intros x n m H D B l. assert (E : (n = Z.of_nat m * l)%Z) by (apply Z_div_exact_full_2; [lia|exact D]). assert (Hl : (0 < l)%Z) by nia.
  pose proof (Z.div_mod x l ltac:(lia)). pose proof (Z.mod_pos_bound x l Hl). split; [split; [apply Z.div_pos; lia|apply Z.div_lt_upper_bound; lia]|]. intro i. split; [intro I; apply Z.div_unique with (x - i * l)%Z; lia|intro I; subst i; nia].
Qed.
(** ... and every cell lies in exactly one of them. *)
Theorem C45_partition : forall n ncuts x, divisible n ncuts -> within n x ->
  exists b, within (Z.of_nat ncuts, Z.of_nat ncuts, Z.of_nat ncuts) b /\ in_box n ncuts b x /\ forall b', in_box n ncuts b' x -> b' = b.
Proof.
  intros [[n0 n1] n2] m [[x0 x1] x2] [P D] W. apply (proj1 (forall3 _)) in D. cbn [axis] in D. destruct D as [D0 [D1 D2]]. apply within3 in W. destruct W as [W0 [W1 W2]].
  destruct (block_of x0 n0 m P D0 W0) as [A0 B0], (block_of x1 n1 m P D1 W1) as [A1 B1], (block_of x2 n2 m P D2 W2) as [A2 B2].
  exists (x0 / (n0 / Z.of_nat m), x1 / (n1 / Z.of_nat m), x2 / (n2 / Z.of_nat m))%Z. split; [apply within3; auto|]. split.
  - intros [|[|[|i]]] Hi; cbn [axis]; [apply B0|apply B1|apply B2|lia]; reflexivity.
  - intros [[b0 b1] b2] H. apply (proj1 (forall3 _)) in H. cbn [axis] in H. destruct H as [H0 [H1 H2]]. apply B0 in H0. apply B1 in H1. apply B2 in H2. subst. reflexivity.
Qed.
Print Assumptions C45_partition.
Example C45_partition_sat : divisible (4, 2, 6)%Z 2 /\ within (4, 2, 6)%Z (3, 0, 5)%Z /\ in_box (4, 2, 6)%Z 2 (1, 0, 1)%Z (3, 0, 5)%Z.
Proof. split; [split; [lia|intros [|[|[|i]]] Hi; cbn; (reflexivity || lia)]|]. split; [apply within3; lia|]. intros [|[|[|i]]] Hi; cbn; lia. Qed.

(** * Means of the sub-boxes *)
Lemma qsum_flat_map : forall {A B} (f : B -> Q) (g : A -> list B) l, (qsum (map f (flat_map g l)) == qsum (map (fun a => qsum (map f (g a))) l))%Q.
Proof. intros A B f g l. induction l as [|a l IH]; [reflexivity|]. cbn [flat_map map]. rewrite map_app, qsum_app, IH. reflexivity. Qed.
Lemma one_of : forall m v, (0 <= v < Z.of_nat m)%Z -> (qsum (map (fun i => if (Z.of_nat i =? v)%Z then 1%Q else 0%Q) (seq 0 m)) == 1)%Q.
Proof.
  induction m as [|m IH]; intros v H; [lia|]. rewrite seq_S, map_app, qsum_app. cbn [map Nat.add]. destruct (Z.eqb_spec (Z.of_nat m) v) as [E|E].
  - rewrite (qsum_ext _ (fun _ => 0%Q)); [rewrite qsum_const; cbn [qsum fold_right]; lra|]. intros i Hi. apply in_seq in Hi. destruct (Z.eqb_spec (Z.of_nat i) v); [lia|reflexivity].
  - rewrite IH by lia. cbn [qsum fold_right]. lra.
Qed.
Lemma windows_sum : forall n ncuts x, divisible n ncuts -> within n x ->
  (qsum (map (fun rL => window rL (edges n ncuts) x) (centres n ncuts)) == 1)%Q.
Proof.
  intros n m x D W. pose proof (fun i j k => window_value n m i j k x D) as V. unfold centres. destruct (edges n m) as [[l0 l1] l2].
  destruct n as [[n0 n1] n2], x as [[x0 x1] x2]. destruct D as [P D]. apply (proj1 (forall3 _)) in D. cbn [axis] in D, V. destruct D as [D0 [D1 D2]]. apply within3 in W. destruct W as [W0 [W1 W2]].
  destruct (block_of x0 n0 m P D0 W0) as [A0 B0], (block_of x1 n1 m P D1 W1) as [A1 B1], (block_of x2 n2 m P D2 W2) as [A2 B2].
  assert (BB : forall i x q v, ((forall i, (i * q <= x < (i + 1) * q <-> i = v)) -> (i * q <=? x) && (x <? (i + 1) * q) = (i =? v))%Z).
  { intros i x q v H. specialize (H i). destruct (Z.eqb_spec i v) as [E|E]; [apply H in E; rewrite (proj2 (Z.leb_le _ _)), (proj2 (Z.ltb_lt _ _)) by lia; reflexivity|].
    apply andb_false_iff. rewrite Z.leb_gt, Z.ltb_ge. destruct (Z_le_gt_dec (i * q) x); [|left; lia]. destruct (Z_lt_ge_dec x ((i + 1) * q)); [|right; lia]. exfalso. apply E, H. lia. }
  rewrite qsum_flat_map. rewrite <- (one_of m _ A0). apply qsum_ext. intros i _. rewrite qsum_flat_map.
  transitivity ((if (Z.of_nat i =? x0 / (n0 / Z.of_nat m))%Z then 1 else 0) * qsum (map (fun j => if (Z.of_nat j =? x1 / (n1 / Z.of_nat m))%Z then 1%Q else 0%Q) (seq 0 m)))%Q.
  - rewrite <- qsum_scale. apply qsum_ext. intros j _. rewrite map_map.
    transitivity ((if (Z.of_nat i =? x0 / (n0 / Z.of_nat m))%Z then 1 else 0) * ((if (Z.of_nat j =? x1 / (n1 / Z.of_nat m))%Z then 1 else 0) * qsum (map (fun k => if (Z.of_nat k =? x2 / (n2 / Z.of_nat m))%Z then 1%Q else 0%Q) (seq 0 m))))%Q.
    + rewrite <- !qsum_scale. apply qsum_ext. intros k _. rewrite V. rewrite (BB _ _ _ _ B0), (BB _ _ _ _ B1), (BB _ _ _ _ B2).
      destruct (Z.of_nat i =? _)%Z, (Z.of_nat j =? _)%Z, (Z.of_nat k =? _)%Z; reflexivity.
    + rewrite (one_of m _ A2). destruct (Z.of_nat i =? _)%Z, (Z.of_nat j =? _)%Z; reflexivity.
  - rewrite (one_of m _ A1). destruct (Z.of_nat i =? _)%Z; reflexivity.
Qed.
Lemma volume_boxes : forall n ncuts, divisible n ncuts -> (volume (edges n ncuts) * inject_Z (Z.of_nat (ncuts ^ 3)) == inject_Z (size n))%Q.
Proof.
  intros [[n0 n1] n2] m [P _]. cbn [edges volume size Nat.pow]. unfold edge. rewrite !Nat2Z.inj_mul, !inject_Z_mult. change (inject_Z (Z.of_nat 1)) with 1%Q. pose proof (inj_pos (Z.of_nat m) ltac:(lia)). field. lra.
Qed.
(** The mean of the sub-box means is the mean of the cube. *)
Theorem C45_mean : forall n ncuts cube, positive_shape n -> divisible n ncuts ->
  (over_boxes ncuts (map (box_mean n (edges n ncuts) cube) (centres n ncuts)) == mean n cube)%Q.
Proof.
  intros n m cube P D. pose proof (volume_boxes n m D) as VB. pose proof (inj_pos _ (size_pos n P)) as SP. assert (MP : (0 < inject_Z (Z.of_nat (m ^ 3)))%Q) by (apply inj_pos; pose proof (Nat.pow_nonzero m 3); destruct D; lia).
  unfold over_boxes, box_mean, mean. set (V := volume (edges n m)) in *. set (N := inject_Z (Z.of_nat (m ^ 3))) in *.
  assert (V0 : ~ (V == 0)%Q) by (intro E; rewrite E in VB; lra).
  rewrite (qsum_ext _ (fun rL => (/ V) * qsum (map (times cube (window rL (edges n m))) (all_indices n)))%Q) by (intros; unfold Qdiv; ring).
  rewrite qsum_scale, qsum_swap. rewrite (qsum_ext _ cube).
  - rewrite <- VB. field. split; [lra|exact V0].
  - intros x Hx. apply in_all_indices in Hx. unfold times. rewrite qsum_scale. rewrite (windows_sum n m x D Hx). ring.
Qed.
Print Assumptions C45_mean.
Example C45_mean_sat : exists (n : shape3) (ncuts : nat), positive_shape n /\ divisible n ncuts.
Proof. exists (4, 2, 6)%Z, 2. split; [apply positive3; lia|exact (proj1 C45_partition_sat)]. Qed.

(** * The integrated bispectrum *)
(** An answer iff the shapes agree and every axis is divisible. *)
Theorem C45_raises : forall ps n n' c1 c2 ncuts nrm, (exists out, integrated ps n n' c1 c2 ncuts nrm = Some out) <-> n = n' /\ divisible n ncuts.
Proof.
  intros ps [[a b] c] [[d e] f] c1 c2 m nrm. unfold integrated, divisible. rewrite forall3. cbn [same_shape divides axis].
  destruct (((a =? d) && (b =? e) && (c =? f))%Z && _) eqn:E; cbn [negb].
  - rewrite !andb_true_iff, negb_true_iff, Nat.eqb_neq, !Z.eqb_eq in E. split; [intros _|intros _; eexists; reflexivity]. destruct E as [[[-> ->] ->] [E1 [[E2 E3] E4]]]. repeat split; [lia|assumption|assumption|assumption].
  - split; [intros [o H]; discriminate|]. intros [EQ [H [D0 [D1 D2]]]]. injection EQ as -> -> ->. exfalso. rewrite !Z.eqb_refl in E. rewrite D0, D1, D2 in E. rewrite (proj2 (Nat.eqb_neq m 0)) in E by lia. discriminate.
Qed.
Print Assumptions C45_raises.
Lemma box_mean_const : forall n ncuts b d v c, positive_shape n -> divisible n ncuts -> within (Z.of_nat ncuts, Z.of_nat ncuts, Z.of_nat ncuts) b ->
  (forall x, within n x -> (c x == v)%Q) -> (box_mean n (edges n ncuts) c (nth (box_number ncuts b) (centres n ncuts) d) == v)%Q.
Proof.
  intros n m b d v c P D W H. pose proof (volume_boxes n m D) as VB. pose proof (inj_pos _ (size_pos n P)) as SP.
  assert (V0 : ~ (volume (edges n m) == 0)%Q) by (intro E; rewrite E in VB; lra).
  unfold box_mean. set (rL := nth (box_number m b) (centres n m) d).
  rewrite (qsum_ext _ (fun x => v * window rL (edges n m) x)%Q) by (intros x Hx; apply in_all_indices in Hx; unfold times; rewrite (H x Hx); reflexivity).
  rewrite qsum_scale.
  assert (CN : (qsum (map (window rL (edges n m)) (all_indices n)) == volume (edges n m))%Q); [|rewrite CN; field; exact V0].
  pose proof (centres_nth n m b d W) as C. fold rL in C. destruct n as [[n0 n1] n2]. destruct b as [[b0 b1] b2]. cbn [edges] in *. cbn [axis] in C. rewrite C. destruct D as [Hm D]. apply (proj1 (forall3 _)) in D. cbn [axis] in D. destruct D as [D0 [D1 D2]]. apply within3 in W.
  apply positive3 in P.
  assert (CNT : forall n b, (n mod Z.of_nat m = 0)%Z -> (0 < n)%Z -> (0 <= b < Z.of_nat m)%Z -> (qsum (map (fun x => if in_slice (middle (edge n m) (Z.to_nat b)) (edge n m) x then 1%Q else 0%Q) (upto n)) == edge n m)%Q).
  { intros k c0 Dk Pk Bc. pose proof (edge_exact k m Hm Dk) as Ee. rewrite Ee. set (l := (k / Z.of_nat m)%Z) in *. assert (Ek : (k = Z.of_nat m * l)%Z) by (apply Z_div_exact_full_2; [lia|exact Dk]).
    assert (Pl : (0 < l)%Z) by nia. rewrite (qsum_ext _ (fun x => if ((c0 * l <=? x) && (x <? (c0 + 1) * l))%Z then 1%Q else 0%Q)) by (intros x _; rewrite (in_slice_exact _ l _ x Ee), Z2Nat.id by lia; reflexivity).
    assert (G : forall N : nat, (qsum (map (fun x => if ((c0 * l <=? x) && (x <? (c0 + 1) * l))%Z then 1%Q else 0%Q) (map Z.of_nat (seq 0 N))) == inject_Z (Z.max 0 (Z.min (Z.of_nat N - c0 * l) l)))%Q).
    { induction N as [|N IH]; [cbn [seq map qsum fold_right]; replace (Z.max 0 (Z.min (Z.of_nat 0 - c0 * l) l)) with 0%Z by nia; reflexivity|].
      rewrite seq_S, !map_app, qsum_app, IH. cbn [map Nat.add qsum fold_right]. replace (Z.of_nat (S N)) with (Z.of_nat N + 1)%Z by lia.
      destruct (Z.leb_spec (c0 * l) (Z.of_nat N)), (Z.ltb_spec (Z.of_nat N) ((c0 + 1) * l)); cbn [andb].
      - replace (Z.max 0 (Z.min (Z.of_nat N + 1 - c0 * l) l)) with (Z.max 0 (Z.min (Z.of_nat N - c0 * l) l) + 1)%Z by lia. rewrite inject_Z_plus. change (inject_Z 1) with 1%Q. ring.
      - replace (Z.max 0 (Z.min (Z.of_nat N + 1 - c0 * l) l)) with (Z.max 0 (Z.min (Z.of_nat N - c0 * l) l)) by lia. ring.
      - replace (Z.max 0 (Z.min (Z.of_nat N + 1 - c0 * l) l)) with (Z.max 0 (Z.min (Z.of_nat N - c0 * l) l)) by lia. ring.
      - exfalso. nia. }
    unfold upto. rewrite G. replace (Z.max 0 (Z.min (Z.of_nat (Z.to_nat k) - c0 * l) l)) with l by nia. reflexivity. }
  unfold all_indices. rewrite qsum_flat_map. cbn [volume].
  transitivity (edge n1 m * edge n2 m * qsum (map (fun x => if in_slice (middle (edge n0 m) (Z.to_nat b0)) (edge n0 m) x then 1%Q else 0%Q) (upto n0)))%Q; [|rewrite (CNT n0 b0 D0 ltac:(lia) ltac:(lia)); ring]. rewrite <- qsum_scale. apply qsum_ext. intros x0 _.
  rewrite qsum_flat_map. transitivity ((if in_slice (middle (edge n0 m) (Z.to_nat b0)) (edge n0 m) x0 then 1 else 0) * edge n2 m * qsum (map (fun x => if in_slice (middle (edge n1 m) (Z.to_nat b1)) (edge n1 m) x then 1%Q else 0%Q) (upto n1)))%Q; [|rewrite (CNT n1 b1 D1 ltac:(lia) ltac:(lia)); ring].
  rewrite <- qsum_scale. apply qsum_ext. intros x1 _. rewrite map_map. transitivity ((if in_slice (middle (edge n0 m) (Z.to_nat b0)) (edge n0 m) x0 then 1 else 0) * (if in_slice (middle (edge n1 m) (Z.to_nat b1)) (edge n1 m) x1 then 1 else 0) * qsum (map (fun x => if in_slice (middle (edge n2 m) (Z.to_nat b2)) (edge n2 m) x then 1%Q else 0%Q) (upto n2)))%Q; [|rewrite (CNT n2 b2 D2 ltac:(lia) ltac:(lia)); ring].
  rewrite <- qsum_scale. apply qsum_ext. intros x2 _. cbn [window].
  destruct (in_slice _ _ x0), (in_slice _ _ x1), (in_slice _ _ x2); reflexivity.
Qed.
Lemma centres_in : forall n ncuts rL, In rL (centres n ncuts) -> exists b, within (Z.of_nat ncuts, Z.of_nat ncuts, Z.of_nat ncuts) b /\ rL = nth (box_number ncuts b) (centres n ncuts) (0, 0, 0)%Q.
Proof.
  intros n m rL H. pose proof (fun b => centres_nth n m b (0, 0, 0)%Q) as C. unfold centres in H. destruct (edges n m) as [[l0 l1] l2].
  apply in_flat_map in H. destruct H as [i [Hi H]]. apply in_flat_map in H. destruct H as [j [Hj H]]. apply in_map_iff in H. destruct H as [k [E Hk]]. apply in_seq in Hi, Hj, Hk.
  exists (Z.of_nat i, Z.of_nat j, Z.of_nat k). assert (W : within (Z.of_nat m, Z.of_nat m, Z.of_nat m) (Z.of_nat i, Z.of_nat j, Z.of_nat k)) by (apply within3; lia). split; [exact W|]. rewrite (C _ W). cbn [axis]. rewrite !Nat2Z.id. symmetry. exact E.
Qed.
(** If the second field is the constant [v], the integrated bispectrum is [v] times the mean
    spectrum of the sub-boxes and the response is 1/v (in bins with power). *)
Theorem C45_constant : forall ps n c1 c2 ncuts v, positive_shape n -> divisible n ncuts -> (forall x, within n x -> (c2 x == v)%Q) ->
  exists B Rn, integrated ps n n c1 c2 ncuts false = Some B /\ integrated ps n n c1 c2 ncuts true = Some Rn /\ forall bin,
  let P := over_boxes ncuts (map (fun rL => ps (times c1 (window rL (edges n ncuts))) bin) (centres n ncuts)) in
  (B bin == v * P)%Q /\ (~ (v == 0)%Q -> ~ (P == 0)%Q -> (Rn bin == / v)%Q).
Proof.
  intros ps n c1 c2 m v P D H.
  assert (BM : forall rL, In rL (centres n m) -> (box_mean n (edges n m) c2 rL == v)%Q) by (intros rL I; destruct (centres_in n m rL I) as [b [W ->]]; apply box_mean_const; assumption).
  destruct (proj2 (C45_raises ps n n c1 c2 m false) (conj eq_refl D)) as [B EB]. destruct (proj2 (C45_raises ps n n c1 c2 m true) (conj eq_refl D)) as [Rn ER]. exists B, Rn. split; [exact EB|]. split; [exact ER|]. intros bin Pb.
  unfold integrated in EB, ER. destruct (negb _); [discriminate|]. injection EB as <-. injection ER as <-.
  assert (MP : (0 < inject_Z (Z.of_nat (m ^ 3)))%Q) by (apply inj_pos; pose proof (Nat.pow_nonzero m 3); destruct D; lia).
  assert (EB : (over_boxes m (map (fun rL => ps (times c1 (window rL (edges n m))) bin * box_mean n (edges n m) c2 rL)%Q (centres n m)) == v * Pb)%Q).
  { unfold Pb, over_boxes. rewrite (qsum_ext _ (fun rL => v * ps (times c1 (window rL (edges n m))) bin)%Q) by (intros rL I; rewrite (BM rL I); ring). rewrite qsum_scale. field. lra. }
  assert (ES : (over_boxes m (map (fun rL => box_mean n (edges n m) c2 rL * box_mean n (edges n m) c2 rL)%Q (centres n m)) == v * v)%Q).
  { unfold over_boxes. rewrite (qsum_ext _ (fun _ => v * v)%Q) by (intros rL I; rewrite (BM rL I); reflexivity). rewrite qsum_const, centres_length. field. lra. }
  split; [exact EB|]. intros V0 P0. rewrite EB, ES. fold Pb. field. split; assumption.
Qed.
Print Assumptions C45_constant.
(** Scaling the second field by [s] scales the integrated bispectrum by [s] and the response by 1/s. *)
Theorem C45_scaling : forall ps n c1 c2 ncuts s nrm, divisible n ncuts ->
  exists A B, integrated ps n n c1 c2 ncuts nrm = Some A /\ integrated ps n n c1 (fun x => (s * c2 x)%Q) ncuts nrm = Some B /\ forall bin,
  if nrm then ~ (s == 0)%Q -> (B bin == A bin / s)%Q else (B bin == s * A bin)%Q.
Proof.
  intros ps n c1 c2 m s nrm D.
  destruct (proj2 (C45_raises ps n n c1 c2 m nrm) (conj eq_refl D)) as [A EA]. destruct (proj2 (C45_raises ps n n c1 (fun x => (s * c2 x)%Q) m nrm) (conj eq_refl D)) as [B EB]. exists A, B. split; [exact EA|]. split; [exact EB|]. intro bin.
  unfold integrated in EA, EB. destruct (negb _); [discriminate|]. injection EA as <-. injection EB as <-.
  assert (BM : forall rL, (box_mean n (edges n m) (fun x => s * c2 x) rL == s * box_mean n (edges n m) c2 rL)%Q).
  { intro rL. unfold box_mean. rewrite (qsum_ext _ (fun x => s * times c2 (window rL (edges n m)) x)%Q) by (intros; unfold times; ring). rewrite qsum_scale. unfold Qdiv. ring. }
  assert (E1 : (over_boxes m (map (fun rL => ps (times c1 (window rL (edges n m))) bin * box_mean n (edges n m) (fun x => s * c2 x) rL) (centres n m)) == s * over_boxes m (map (fun rL => ps (times c1 (window rL (edges n m))) bin * box_mean n (edges n m) c2 rL) (centres n m)))%Q).
  { unfold over_boxes. rewrite (qsum_ext _ (fun rL => s * (ps (times c1 (window rL (edges n m))) bin * box_mean n (edges n m) c2 rL))%Q) by (intros; rewrite BM; ring). rewrite qsum_scale. unfold Qdiv. ring. }
  assert (E2 : (over_boxes m (map (fun rL => box_mean n (edges n m) (fun x => s * c2 x) rL * box_mean n (edges n m) (fun x => s * c2 x) rL) (centres n m)) == s * s * over_boxes m (map (fun rL => box_mean n (edges n m) c2 rL * box_mean n (edges n m) c2 rL) (centres n m)))%Q).
  { unfold over_boxes. rewrite (qsum_ext _ (fun rL => s * s * (box_mean n (edges n m) c2 rL * box_mean n (edges n m) c2 rL))%Q) by (intros; rewrite BM; ring). rewrite qsum_scale. unfold Qdiv. ring. }
  destruct nrm; [|exact E1]. intro S0. rewrite E1, E2. set (a := over_boxes _ _). set (b := over_boxes _ (map (fun rL => ps _ _) _)). set (c := over_boxes _ (map (fun rL => (box_mean _ _ _ _ * _)%Q) _)).
  unfold Qdiv. rewrite !Qinv_mult_distr. transitivity ((s * / s) * (a * / b * (/ s * / c)))%Q; [ring|]. rewrite Qmult_inv_r by exact S0. ring.
Qed.
Print Assumptions C45_scaling.
Example C45_scaling_sat : exists (n : shape3) (ncuts : nat), divisible n ncuts.
Proof. exists (4, 2, 6)%Z, 2. exact (proj1 C45_partition_sat). Qed.
(** The response divides by the mean square of the sub-box means, not by their variance:
    mean square = variance + squared mean. *)
Theorem C45_sigma : forall n ncuts c, positive_shape n -> divisible n ncuts ->
  let d := box_mean n (edges n ncuts) c in let m := mean n c in
  (over_boxes ncuts (map (fun rL => d rL * d rL) (centres n ncuts)) == over_boxes ncuts (map (fun rL => (d rL - m) * (d rL - m)) (centres n ncuts)) + m * m)%Q.
Proof.
  intros n k c P D d m. pose proof (C45_mean n k c P D) as M. fold d in M. fold m in M. assert (MP : (0 < inject_Z (Z.of_nat (k ^ 3)))%Q) by (apply inj_pos; pose proof (Nat.pow_nonzero k 3); destruct D; lia).
  unfold over_boxes in *. set (N := inject_Z (Z.of_nat (k ^ 3))) in *.
  assert (SD : (qsum (map d (centres n k)) == m * N)%Q) by (rewrite <- M; field; lra).
  rewrite (qsum_ext (fun rL => ((d rL - m) * (d rL - m))%Q) (fun rL => d rL * d rL + ((- (2 * m)) * d rL + m * m))%Q) by (intros; ring).
  rewrite qsum_plus, qsum_plus, qsum_scale, qsum_const, SD, centres_length. fold N. field. lra.
Qed.
Print Assumptions C45_sigma.
Example C45_sigma_sat : exists (n : shape3) (ncuts : nat), positive_shape n /\ divisible n ncuts.
Proof. exists (4, 2, 6)%Z, 2. split; [apply positive3; lia|exact (proj1 C45_partition_sat)]. Qed.
Example C45_constant_sat : positive_shape (2, 2, 2)%Z /\ divisible (2, 2, 2)%Z 2 /\ exists B, integrated (fun f _ => f (0, 0, 0)%Z) (2, 2, 2)%Z (2, 2, 2)%Z (fun _ => 8%Q) (fun _ => 3%Q) 2 false = Some B /\ (B 0%nat == 3)%Q.
Proof. split; [apply positive3; lia|]. split; [split; [lia|intros [|[|[|i]]] Hi; cbn; (reflexivity || lia)]|]. eexists. split; [reflexivity|]. vm_compute. reflexivity. Qed.

(** [integrated_bispectrum] of one cube accepts exactly the divisible shapes; normalised it is the response of the cube to itself. If the spectrum is quadratic in
    the field, multiplying the cube with a number multiplies the integrated bispectrum with its cube and divides the response by it. *)
Theorem C45_auto : forall ps n cube ncuts nrm, ((exists out, integrated_auto ps n cube ncuts nrm = Some out) <-> divisible n ncuts) /\
  integrated_auto ps n cube ncuts true = response ps n cube None ncuts /\
  (forall s, divisible n ncuts -> (forall f g bin, (forall x, (g x == s * f x)%Q) -> (ps g bin == s * s * ps f bin)%Q) ->
    exists A B, integrated_auto ps n cube ncuts nrm = Some A /\ integrated_auto ps n (fun x => (s * cube x)%Q) ncuts nrm = Some B /\ forall bin,
    if nrm then ~ (s == 0)%Q -> (B bin == A bin / s)%Q else (B bin == s * s * s * A bin)%Q).
Proof.
  intros ps n cube m nrm. unfold integrated_auto. split; [rewrite C45_raises; tauto|]. split; [reflexivity|]. intros s D H.
  destruct (C45_scaling ps n cube cube m s nrm D) as (A & B & EA & EB & AB). exists A.
  destruct (proj2 (C45_raises ps n n (fun x => (s * cube x)%Q) (fun x => (s * cube x)%Q) m nrm) (conj eq_refl D)) as [B' EB']. exists B'. split; [exact EA|]. split; [exact EB'|]. intro bin. specialize (AB bin).
  unfold integrated in EB, EB'. destruct (negb _); [discriminate|]. injection EB as <-. injection EB' as <-.
  assert (PK : forall rL, (ps (times (fun x => s * cube x) (window rL (edges n m))) bin == s * s * ps (times cube (window rL (edges n m))) bin)%Q) by (intro rL; apply H; intro x; unfold times; ring).
  set (d := fun rL => box_mean n (edges n m) (fun x => (s * cube x)%Q) rL) in *.
  assert (E1 : (over_boxes m (map (fun rL => ps (times (fun x => s * cube x) (window rL (edges n m))) bin * d rL) (centres n m)) == s * s * over_boxes m (map (fun rL => ps (times cube (window rL (edges n m))) bin * d rL) (centres n m)))%Q).
  { unfold over_boxes. rewrite (qsum_ext _ (fun rL => s * s * (ps (times cube (window rL (edges n m))) bin * d rL))%Q) by (intros; rewrite PK; ring). rewrite qsum_scale. unfold Qdiv. ring. }
  assert (E2 : (over_boxes m (map (fun rL => ps (times (fun x => s * cube x) (window rL (edges n m))) bin) (centres n m)) == s * s * over_boxes m (map (fun rL => ps (times cube (window rL (edges n m))) bin) (centres n m)))%Q).
  { unfold over_boxes. rewrite (qsum_ext _ (fun rL => s * s * ps (times cube (window rL (edges n m))) bin)%Q) by (intros; apply PK). rewrite qsum_scale. unfold Qdiv. ring. }
  destruct nrm.
  - intro S0. specialize (AB S0). rewrite <- AB. rewrite E1, E2. set (a := over_boxes m (map (fun rL => _ * d rL)%Q (centres n m))). set (b := over_boxes m (map (fun rL => ps _ bin) (centres n m))). set (c := over_boxes _ (map (fun rL => (d rL * d rL)%Q) _)).
    unfold Qdiv. rewrite !Qinv_mult_distr. transitivity ((s * / s) * (s * / s) * (a * / b * / c))%Q; [ring|]. rewrite Qmult_inv_r by exact S0. ring.
  - rewrite E1. cbv beta in AB. fold d in AB. rewrite AB. ring.
Qed.
Print Assumptions C45_auto.
Example C45_auto_sat : let ps := fun (f : field) (bin : nat) => (f (0, 0, 0)%Z * f (0, 0, 0)%Z)%Q in divisible (2, 2, 2)%Z 2 /\ forall s f g bin, (forall x, (g x == s * f x)%Q) -> (ps g bin == s * s * ps f bin)%Q.
Proof. intro ps. split; [exact (proj1 (proj2 C45_constant_sat))|]. intros s f g bin H. unfold ps. rewrite H. ring. Qed.

(** * Sliding windows *)
(** The windows of [integrated_bispectrum_cross_slide] start [step] cells apart; the last one ends within
    (number - 1)/2 cells of the end of the axis; equal sizes raise. *)
Theorem C45_slide : forall size sub overlap cs, (0 < sub <= size)%Z -> (overlap < 1)%Q -> slide_centres size sub overlap = Some cs ->
  exists step : Z, (forall i, i < length cs -> (nth i cs 0 - inject_Z sub / 2 == inject_Z (step * Z.of_nat i))%Q) /\
  (Z.abs (2 * (sub + (Z.of_nat (length cs) - 1) * step - size)) <= Z.of_nat (length cs) - 1)%Z.
Proof.
  intros size sub ov cs S0 O1 H. unfold slide_centres in H.
  set (s := inject_Z sub) in *. set (l := inject_Z size) in *. assert (Ps : (0 < s)%Q) by (apply inj_pos; lia). assert (LS : (s <= l)%Q) by (unfold s, l; rewrite <- Zle_Qle; lia).
  set (st := (s - ov * s)%Q) in *. assert (Pst : (0 < st)%Q) by (unfold st; nra).
  destruct (Qeq_bool st 0) eqn:E0; [discriminate|].
  set (sn := round_half_even ((l - s) / st + 1)) in *. destruct (Z.eqb_spec sn 1) as [E1|E1]; [discriminate|].
  set (sl := round_half_even (s - (l - s) / inject_Z (sn - 1))) in *. injection H as <-. exists (sub - sl)%Z.
  assert (SN : (2 <= sn)%Z).
  { assert (X : (0 <= (l - s) / st)%Q) by (apply Qle_shift_div_l; [exact Pst|lra]). destruct (round_half_even_near ((l - s) / st + 1)) as [A B]. fold sn in A, B.
    assert (inject_Z 0 < inject_Z sn)%Q by (change (inject_Z 0) with 0%Q; lra). rewrite <- Zlt_Qlt in H. lia. }
  split.
  - intros i Hi. rewrite map_length, seq_length in Hi. set (f := fun i => (s * (1 # 2) + inject_Z ((sub - sl) * Z.of_nat i))%Q). rewrite (nth_indep _ 0%Q (f 0)) by (rewrite map_length, seq_length; exact Hi). rewrite map_nth, seq_nth by exact Hi. unfold f. cbn [Nat.add]. field.
  - rewrite map_length, seq_length, Z2Nat.id by lia. destruct (round_half_even_near (s - (l - s) / inject_Z (sn - 1))) as [A B]. fold sl in A, B.
    assert (PN : (0 < inject_Z (sn - 1))%Q) by (apply inj_pos; lia). set (N := inject_Z (sn - 1)) in *. set (q := ((l - s) / N)%Q) in *. assert (Eq : (q * N == l - s)%Q) by (unfold q; field; lra).
    assert (G : (- N <= 2 * (s + N * (s - inject_Z sl) - l) <= N)%Q) by nra.
    assert (I1 : (2 * (s + N * (s - inject_Z sl) - l) == inject_Z (2 * (sub + (sn - 1) * (sub - sl) - size)))%Q).
    { unfold N, s, l. rewrite !inject_Z_mult. unfold Z.sub at 2 4. rewrite !inject_Z_plus, !inject_Z_opp, !inject_Z_mult. rewrite inject_Z_plus, inject_Z_opp. change (inject_Z 2) with 2%Q. ring. }
    rewrite I1 in G. unfold N in G. rewrite <- inject_Z_opp in G. rewrite <- !Zle_Qle in G. lia.
Qed.
Print Assumptions C45_slide.
Example C45_slide_sat : exists (size : Z) (sub : Z) (overlap : Q) (cs : list Q), (0 < sub <= size)%Z /\ (overlap < 1)%Q /\ slide_centres size sub overlap = Some cs.
Proof. eexists 10%Z, 4%Z, (1#2)%Q, _. split; [lia|]. split; [reflexivity|]. vm_compute. reflexivity. Qed.
(** Refuted: "the sliding windows cover the axis". *)
Theorem C45_slide_refuted : exists size sub overlap cs, (0 < sub <= size)%Z /\ slide_centres size sub overlap = Some cs /\
  exists x, (0 <= x < size)%Z /\ forall c, In c cs -> in_slice c (inject_Z sub) x = false.
Proof.
  exists 11%Z, 4%Z, (1 # 2)%Q. eexists. split; [lia|]. split; [vm_compute; reflexivity|]. exists 10%Z. split; [lia|]. intros c H. cbn [In] in H. destruct H as [H|[H|[H|[H|[]]]]]; subst c; vm_compute; reflexivity.
Qed.
Print Assumptions C45_slide_refuted.
Example C45_windows_sat : exists (n : shape3) (ncuts : nat) (b : index), divisible n ncuts /\ within (Z.of_nat ncuts, Z.of_nat ncuts, Z.of_nat ncuts) b.
Proof. exists (4, 2, 6)%Z, 2, (1, 0, 1)%Z. split; [exact (proj1 C45_partition_sat)|apply within3; cbn; lia]. Qed.
