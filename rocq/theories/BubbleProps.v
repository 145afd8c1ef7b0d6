(** C46: painting bubbles. *)
From Coq Require Import List Arith ZArith QArith Bool Lia Lqa Psatz.
From Verif Require Import QLib BubbleModel.
Import ListNotations.
Local Open Scope nat_scope.

(** * Specification *)
Definition axis (i : nat) (x : index) : Z := let '(a, b, c) := x in match i with 0 => a | 1 => b | _ => c end.
Definition within (n : shape3) (x : index) : Prop := forall i, i < 3 -> (0 <= axis i x < axis i n)%Z.
Definition positive_shape (n : shape3) : Prop := forall i, i < 3 -> (0 < axis i n)%Z.
Definition distance2 (x y : index) : Z := ((axis 0 x - axis 0 y) ^ 2 + (axis 1 x - axis 1 y) ^ 2 + (axis 2 x - axis 2 y) ^ 2)%Z.
(** [x] lies in the periodic ball around [p]: it is [p] plus an offset no longer than [r], wrapped. *)
Definition in_ball (n : shape3) (r : Z) (p x : index) : Prop :=
  exists d, (distance2 d (0, 0, 0)%Z <= r ^ 2)%Z /\ forall i, i < 3 -> axis i x = ((axis i p + axis i d) mod axis i n)%Z.
(** [x] is cell [q] of a kernel of shape [k] put down with its middle (k//2) on [p]. *)
Definition kernel_cell (n k : shape3) (p x q : index) : Prop :=
  within k q /\ forall i, i < 3 -> axis i x = ((axis i p + axis i q - axis i k / 2) mod axis i n)%Z.
(** [c] is the 0/1 cube of the cells that are ionised in [start] or lie in a ball around one of [ps]. *)
Definition union_of (n : shape3) (r : Z) (start : field) (ps : list index) (c : field) : Prop :=
  forall x, within n x -> ((c x == 0)%Q \/ (c x == 1)%Q) /\ ((c x == 1)%Q <-> (start x == 1)%Q \/ exists p, In p ps /\ in_ball n r p x).
Definition binary (n : shape3) (c : field) : Prop := forall x, within n x -> (c x == 0)%Q \/ (c x == 1)%Q.

(** * Helpers *)
Lemma within3 : forall a b c x y z, within (a, b, c) (x, y, z) <-> (0 <= x < a /\ 0 <= y < b /\ 0 <= z < c)%Z.
Proof.
  intros. split.
  - intro H. pose proof (H 0 ltac:(lia)). pose proof (H 1 ltac:(lia)). pose proof (H 2 ltac:(lia)). cbn in *. lia.
  - intros [A [B C]] [|[|[|i]]] Hi; cbn; lia.
Qed.
Lemma positive3 : forall a b c, positive_shape (a, b, c) <-> (0 < a /\ 0 < b /\ 0 < c)%Z.
Proof.
  intros. split.
  - intro H. pose proof (H 0 ltac:(lia)). pose proof (H 1 ltac:(lia)). pose proof (H 2 ltac:(lia)). cbn in *. lia.
  - intros [A [B C]] [|[|[|i]]] Hi; cbn; lia.
Qed.
Lemma forall3 : forall P : nat -> Prop, (forall i, i < 3 -> P i) <-> P 0 /\ P 1 /\ P 2.
Proof. intro P. split; [intro H; repeat split; apply H; lia|intros [A [B C]] [|[|[|i]]] Hi; auto; lia]. Qed.
Lemma inside_within : forall n x, inside n x = true <-> within n x.
Proof. intros [[a b] c] [[x y] z]. rewrite within3. unfold inside. rewrite !andb_true_iff, !Z.leb_le, !Z.ltb_lt. lia. Qed.
Lemma in_upto : forall n x, In x (upto n) <-> (0 <= x < n)%Z.
Proof.
  intros n x. unfold upto. rewrite in_map_iff. split.
  - intros [k [E H]]. apply in_seq in H. lia.
  - intro H. exists (Z.to_nat x). split; [lia|apply in_seq; lia].
Qed.
Lemma in_all_indices : forall n x, In x (all_indices n) <-> within n x.
Proof.
  intros [[a b] c] [[x y] z]. rewrite within3. unfold all_indices. rewrite in_flat_map. split.
  - intros [i [Hi H]]. apply in_flat_map in H. destruct H as [j [Hj H]]. apply in_map_iff in H. destruct H as [k [E Hk]]. injection E as -> -> ->. rewrite in_upto in *. lia.
  - intros [A [B C]]. exists x. rewrite in_upto. split; [lia|]. apply in_flat_map. exists y. rewrite in_upto. split; [lia|]. apply in_map_iff. exists z. rewrite in_upto. split; [reflexivity|lia].
Qed.
Lemma length_upto : forall n, length (upto n) = Z.to_nat n.
Proof. intro. unfold upto. rewrite map_length, seq_length. reflexivity. Qed.
Lemma flat_map_const_length : forall {A B} (f : A -> list B) l m, (forall x, In x l -> length (f x) = m) -> length (flat_map f l) = length l * m.
Proof. induction l as [|a l IH]; intros m H; [reflexivity|]. cbn [flat_map length]. rewrite app_length, (H a (or_introl eq_refl)), (IH m); [lia|]. intros; apply H; right; assumption. Qed.
Lemma length_all_indices : forall n, positive_shape n -> Z.of_nat (length (all_indices n)) = size n.
Proof.
  intros [[a b] c] P. apply positive3 in P. unfold all_indices, size. rewrite (flat_map_const_length _ _ (Z.to_nat b * Z.to_nat c)).
  - rewrite length_upto. lia.
  - intros i _. rewrite (flat_map_const_length _ _ (Z.to_nat c)); [rewrite length_upto; lia|]. intros j _. rewrite map_length, length_upto. reflexivity.
Qed.
Lemma size_pos : forall n, positive_shape n -> (0 < size n)%Z.
Proof. intros [[a b] c] P. apply positive3 in P. unfold size. nia. Qed.
Lemma mod_back : forall x s n, (0 <= x < n)%Z -> (((x - s) mod n + s) mod n = x)%Z.
Proof. intros x s n H. rewrite Z.add_mod_idemp_l by lia. replace (x - s + s)%Z with x by lia. apply Z.mod_small. exact H. Qed.
Lemma mean_ext : forall n c c', (forall x, within n x -> (c x == c' x)%Q) -> (mean n c == mean n c')%Q.
Proof. intros n c c' H. unfold mean. rewrite (qsum_ext c c'); [reflexivity|]. intros x Hx. apply H, in_all_indices. exact Hx. Qed.

(** * [paint_kernel] *)
Definition offset (n k : shape3) (p x : index) : index :=
  ((axis 0 x - axis 0 p + axis 0 k / 2) mod axis 0 n, (axis 1 x - axis 1 p + axis 1 k / 2) mod axis 1 n, (axis 2 x - axis 2 p + axis 2 k / 2) mod axis 2 n)%Z.
Lemma paint_one_value : forall n k kernel cube p x, within n x ->
  (paint_one n k kernel cube p x == 2 * cube x + (if inside k (offset n k p x) then kernel (offset n k p x) else 0))%Q.
Proof.
  intros [[n0 n1] n2] [[k0 k1] k2] kernel cube [[p0 p1] p2] [[x0 x1] x2] W. apply within3 in W. unfold paint_one, offset, axis. cbn [roll neg add radius_of].
  replace (x0 - (p0 + - (k0 / 2)))%Z with (x0 - p0 + k0 / 2)%Z by lia. replace (x1 - (p1 + - (k1 / 2)))%Z with (x1 - p1 + k1 / 2)%Z by lia. replace (x2 - (p2 + - (k2 / 2)))%Z with (x2 - p2 + k2 / 2)%Z by lia.
  assert (E : forall x p h n, (0 <= x < n)%Z -> (((x - p + h) mod n - (- p + h)) mod n = x)%Z).
  { intros x p h n H. replace ((x - p + h) mod n - (- p + h))%Z with ((x - (p - h)) mod n + (p - h))%Z by (replace (x - p + h)%Z with (x - (p - h))%Z by lia; lia). apply mod_back. exact H. }
  rewrite !E by lia. destruct (inside (k0, k1, k2) _); ring.
Qed.
Lemma offset_spec : forall n k p x q, positive_shape n -> within n x -> (forall i, i < 3 -> (axis i k <= axis i n)%Z) ->
  (kernel_cell n k p x q <-> within k q /\ offset n k p x = q).
Proof.
  intros [[n0 n1] n2] [[k0 k1] k2] [[p0 p1] p2] [[x0 x1] x2] [[q0 q1] q2] P W F. apply positive3 in P. apply within3 in W. apply (proj1 (forall3 _)) in F. cbn [axis] in F.
  unfold kernel_cell. rewrite within3. unfold offset. rewrite forall3. cbn [axis].
  assert (E : forall x p q h n, (0 <= x < n)%Z -> (0 <= q < n)%Z -> (x = (p + q - h) mod n <-> (x - p + h) mod n = q)%Z).
  { intros x p q h n Hx Hq. split; intro H.
    - rewrite H. replace ((p + q - h) mod n - p + h)%Z with ((p + q - h) mod n + (h - p))%Z by lia. rewrite Z.add_mod_idemp_l by lia. replace (p + q - h + (h - p))%Z with q by lia. apply Z.mod_small. exact Hq.
    - rewrite <- H. replace (p + (x - p + h) mod n - h)%Z with ((x - p + h) mod n + (p - h))%Z by lia. rewrite Z.add_mod_idemp_l by lia. replace (x - p + h + (p - h))%Z with x by lia. symmetry. apply Z.mod_small. exact Hx. }
  split; intros [Q H]; (split; [exact Q|]).
  - destruct H as [H0 [H1 H2]]. apply E in H0; [|lia|lia]. apply E in H1; [|lia|lia]. apply E in H2; [|lia|lia]. congruence.
  - injection H as H0 H1 H2. repeat split; apply E; try lia; assumption.
Qed.

(** Every pass DOUBLES the cube and adds the kernel, wrapped periodically, with its middle on
    [p]. It succeeds iff the kernel is nowhere larger than the cube. *)
Theorem C46_paint_kernel : forall n k kernel cube p, positive_shape n ->
  ((exists c, paint_kernel n k kernel cube [p] = Some c) <-> forall i, i < 3 -> (axis i k <= axis i n)%Z) /\
  forall c x, paint_kernel n k kernel cube [p] = Some c -> within n x ->
    (forall q, kernel_cell n k p x q -> (c x == 2 * cube x + kernel q)%Q) /\
    ((~ exists q, kernel_cell n k p x q) -> (c x == 2 * cube x)%Q).
Proof.
  intros n k kernel cube p P.
  assert (F : kernel_fits n k = true <-> forall i, i < 3 -> (axis i k <= axis i n)%Z).
  { destruct n as [[n0 n1] n2], k as [[k0 k1] k2]. unfold kernel_fits. rewrite !andb_true_iff, !Z.leb_le, forall3. cbn [axis]. tauto. }
  unfold paint_kernel. destruct (kernel_fits n k) eqn:E.
  - assert (F' := proj1 F eq_refl). split; [split; [auto|eauto]|]. intros c x H W. injection H as <-. cbn [fold_left]. split.
    + intros q K. apply offset_spec in K; try assumption. destruct K as [Kq Ko]. rewrite paint_one_value by exact W. rewrite Ko. apply inside_within in Kq. rewrite Kq. reflexivity.
    + intro N. rewrite paint_one_value by exact W. destruct (inside k (offset n k p x)) eqn:I; [|ring]. exfalso. apply N. exists (offset n k p x). apply offset_spec; try assumption. split; [apply inside_within; exact I|reflexivity].
  - split; [split; [intros [c H]; discriminate|intro H; apply F in H; discriminate]|intros; discriminate].
Qed.
Print Assumptions C46_paint_kernel.
Example C46_paint_kernel_sat : exists c, paint_kernel (3, 3, 3)%Z (1, 1, 1)%Z (fun _ => 5%Q) (fun _ => 1%Q) [(1, 1, 1)%Z] = Some c /\
  (c (1, 1, 1)%Z == 7)%Q /\ (c (0, 1, 1)%Z == 2)%Q.
Proof. eexists. split; [reflexivity|]. split; reflexivity. Qed.
(** Refuted: "paint_kernel adds the kernel to the cube". *)
Theorem C46_paint_adds_refuted : exists n k kernel cube p c x, positive_shape n /\ within n x /\
  paint_kernel n k kernel cube [p] = Some c /\ (~ exists q, kernel_cell n k p x q) /\ ~ (c x == cube x)%Q.
Proof.
  exists (3, 3, 3)%Z, (1, 1, 1)%Z, (fun _ => 5%Q), (fun _ => 1%Q), (1, 1, 1)%Z. eexists. exists (0, 1, 1)%Z. split; [apply positive3; lia|]. split; [apply within3; lia|]. split; [reflexivity|].
  split; [|vm_compute; discriminate]. intros [[[a b] c] [W H]]. apply within3 in W. specialize (H 0 ltac:(lia)). cbn [axis] in H. replace a with 0%Z in H by lia. vm_compute in H. discriminate.
Qed.
Print Assumptions C46_paint_adds_refuted.

(** * One batch of bubbles *)
Lemma sq_le : forall a b c r, (0 <= r)%Z -> (a ^ 2 + b ^ 2 + c ^ 2 <= r ^ 2)%Z -> (- r <= a <= r /\ - r <= b <= r /\ - r <= c <= r)%Z.
Proof. intros a b c r R H. nia. Qed.
Definition fits_ball (n : shape3) (r : Z) : Prop := forall i, i < 3 -> (2 * r + 1 <= axis i n)%Z.
Lemma paint_ball_value : forall n r cube p x, positive_shape n -> (0 <= r)%Z -> fits_ball n r -> within n x ->
  ((in_ball n r p x /\ (paint_one n (ball_shape r) (ball r) cube p x == 2 * cube x + 1)%Q) \/
   (~ in_ball n r p x /\ (paint_one n (ball_shape r) (ball r) cube p x == 2 * cube x)%Q)).
Proof.
  intros n r cube p x P R F W.
  assert (IB : in_ball n r p x <-> inside (ball_shape r) (offset n (ball_shape r) p x) = true /\ (ball r (offset n (ball_shape r) p x) == 1)%Q).
  { assert (KS : forall q, kernel_cell n (ball_shape r) p x q <-> within (ball_shape r) q /\ offset n (ball_shape r) p x = q).
    { intro q. apply offset_spec; try assumption. intros i Hi. specialize (F i Hi). unfold ball_shape. destruct i as [|[|[|i]]]; cbn [axis]; lia. }
    assert (H2 : ((2 * r + 1) / 2 = r)%Z) by (symmetry; apply Z.div_unique with 1%Z; lia).
    split.
    - intros [[[d0 d1] d2] [D E]]. unfold distance2 in D. cbn [axis] in D. rewrite !Z.sub_0_r in D. pose proof (sq_le d0 d1 d2 r R D) as B.
      assert (K : kernel_cell n (ball_shape r) p x (d0 + r, d1 + r, d2 + r)%Z).
      { split; [unfold ball_shape; apply within3; lia|]. intros i Hi. rewrite (E i Hi). unfold ball_shape. f_equal. destruct i as [|[|[|i]]]; cbn [axis]; lia. }
      apply KS in K. destruct K as [K1 K2]. rewrite K2. split; [apply inside_within; exact K1|]. unfold ball. replace (d0 + r - r)%Z with d0 by lia. replace (d1 + r - r)%Z with d1 by lia. replace (d2 + r - r)%Z with d2 by lia.
      rewrite (proj2 (Z.leb_le _ _) D). reflexivity.
    - intros [I Bq]. apply inside_within in I. destruct (proj2 (KS _) (conj I eq_refl)) as [_ K]. destruct (offset n (ball_shape r) p x) as [[q0 q1] q2].
      exists (q0 - r, q1 - r, q2 - r)%Z. split.
      + unfold distance2. cbn [axis]. rewrite !Z.sub_0_r. unfold ball in Bq. destruct (Z.leb_spec ((q0 - r) ^ 2 + (q1 - r) ^ 2 + (q2 - r) ^ 2) (r ^ 2)) as [D|D]; [exact D|]. exfalso. lra.
      + intros i Hi. rewrite (K i Hi). unfold ball_shape. f_equal. destruct i as [|[|[|i]]]; cbn [axis]; lia. }
  rewrite (paint_one_value n (ball_shape r) (ball r) cube p x W). destruct (inside (ball_shape r) (offset n (ball_shape r) p x)) eqn:I.
  - unfold ball in IB |- *. destruct (offset n (ball_shape r) p x) as [[q0 q1] q2]. destruct (_ <=? r ^ 2)%Z eqn:D.
    + left. split; [apply IB; split; reflexivity|reflexivity].
    + right. split; [intro H; apply IB in H; destruct H as [_ H]; lra|ring].
  - right. split; [intro H; apply IB in H; destruct H; discriminate|ring].
Qed.
Lemma paint_batch : forall n r ps cube, positive_shape n -> (0 <= r)%Z -> fits_ball n r ->
  (forall x, within n x -> (cube x == 0 \/ 1 <= cube x)%Q) ->
  forall x, within n x -> let v := fold_left (paint_one n (ball_shape r) (ball r)) ps cube x in
  (v == 0 \/ 1 <= v)%Q /\ ((1 <= v)%Q <-> (1 <= cube x)%Q \/ exists p, In p ps /\ in_ball n r p x).
Proof.
  induction ps as [|p ps IH]; intros cube P R F B x W; cbn [fold_left].
  - split; [apply B; exact W|]. split; [auto|]. intros [H|[p [[] _]]]. exact H.
  - set (c1 := paint_one n (ball_shape r) (ball r) cube p).
    assert (B1 : forall y, within n y -> (c1 y == 0 \/ 1 <= c1 y)%Q). { intros y Wy. destruct (paint_ball_value n r cube p y P R F Wy) as [[_ E]|[_ E]]; fold c1 in E; specialize (B y Wy); rewrite E; destruct B as [B|B]; [right|right|left|right]; lra. }
    destruct (IH c1 P R F B1 x W) as [V1 V2]. split; [exact V1|]. rewrite V2.
    destruct (paint_ball_value n r cube p x P R F W) as [[I E]|[I E]]; fold c1 in E; specialize (B x W).
    + split; [intros _; right; exists p; split; [left; reflexivity|exact I]|]. intros _. left. rewrite E. destruct B; lra.
    + assert (C1 : (1 <= c1 x)%Q <-> (1 <= cube x)%Q) by (rewrite E; destruct B; lra). rewrite C1. split.
      * intros [H|[q [Iq H]]]; [left; exact H|right; exists q; split; [right; exact Iq|exact H]].
      * intros [H|[q [[Iq|Iq] H]]]; [left; exact H|subst; contradiction|right; exists q; split; assumption].
Qed.
(** After a batch and the threshold: previous region plus the balls, also for batches of several
    bubbles. *)
Theorem C46_batch : forall n r ps cube, positive_shape n -> (0 <= r)%Z -> fits_ball n r -> binary n cube ->
  exists painted, paint_kernel n (ball_shape r) (ball r) cube ps = Some painted /\ union_of n r cube ps (threshold painted).
Proof.
  intros n r ps cube P R F B. exists (fold_left (paint_one n (ball_shape r) (ball r)) ps cube). split.
  - unfold paint_kernel. destruct ps as [|p ps]; [reflexivity|]. replace (kernel_fits n (ball_shape r)) with true; [reflexivity|]. symmetry.
    destruct n as [[n0 n1] n2]. apply (proj1 (forall3 _)) in F. cbn [axis] in F. unfold kernel_fits, ball_shape. rewrite !andb_true_iff, !Z.leb_le. lia.
  - intros x W. destruct (paint_batch n r ps cube P R F) with (x := x) as [V1 V2]; [intros y Wy; destruct (B y Wy) as [H|H]; [left|right]; lra|exact W|].
    set (v := fold_left (paint_one n (ball_shape r) (ball r)) ps cube x) in *. unfold threshold. fold v.
    assert (C1 : (1 <= cube x)%Q <-> (cube x == 1)%Q) by (destruct (B x W) as [H|H]; split; intro; lra). rewrite C1 in V2.
    destruct (Qle_bool (1 # 2) v) eqn:E.
    + apply Qle_bool_iff in E. split; [right; reflexivity|]. split; [intros _; apply V2; destruct V1; lra|reflexivity].
    + apply Qle_bool_false in E. split; [left; reflexivity|]. split; [intro H; lra|]. intro H. apply V2 in H. lra.
Qed.
Print Assumptions C46_batch.
Example C46_batch_sat : exists (n : shape3) (r : Z) (cube : field), positive_shape n /\ (0 <= r)%Z /\ fits_ball n r /\ binary n cube.
Proof. exists (3, 3, 3)%Z, 1%Z, (fun _ => 0%Q). split; [apply positive3; lia|]. split; [lia|]. split; [intros [|[|[|i]]] Hi; cbn; lia|]. intros x W. left. reflexivity. Qed.

Lemma union_trans : forall n r a ps b qs c, binary n a -> union_of n r a ps b -> union_of n r b qs c -> union_of n r a (ps ++ qs) c.
Proof.
  intros n r a ps b qs c Ba U V x W. destruct (U x W) as [U1 U2], (V x W) as [V1 V2]. split; [exact V1|]. rewrite V2, U2. split.
  - intros [[H|[p [I H]]]|[p [I H]]]; [left; exact H|right; exists p; split; [apply in_or_app; left; exact I|exact H]|right; exists p; split; [apply in_or_app; right; exact I|exact H]].
  - intros [H|[p [I H]]]; [left; left; exact H|]. apply in_app_or in I. destruct I as [I|I]; [left; right; exists p; auto|right; exists p; auto].
Qed.
Lemma union_nil : forall n r a, binary n a -> union_of n r a [] a.
Proof. intros n r a B x W. split; [apply B; exact W|]. split; [auto|intros [H|[p [[] _]]]; exact H]. Qed.
Lemma union_binary : forall n r a ps c, union_of n r a ps c -> binary n c.
Proof. intros n r a ps c U x W. exact (proj1 (U x W)). Qed.
Lemma union_unique : forall n r a ps c c', union_of n r a ps c -> union_of n r a ps c' -> forall x, within n x -> (c x == c' x)%Q.
Proof.
  intros n r a ps c c' U V x W. destruct (U x W) as [[U1|U1] U2], (V x W) as [[V1|V1] V2]; rewrite U1, V1; try reflexivity; exfalso.
  - pose proof (proj2 U2 (proj1 V2 V1)). lra.
  - pose proof (proj2 V2 (proj1 U2 U1)). lra.
Qed.
Lemma clamp_binary : forall n c, binary n c -> forall x, within n x -> (clamp c x == c x)%Q.
Proof.
  intros n c B x W. unfold clamp. destruct (Qltb 1 (c x)) eqn:E; [apply Qltb_true in E; destruct (B x W); lra|]. destruct (Qltb (c x) 0) eqn:E'; [apply Qltb_true in E'; destruct (B x W); lra|reflexivity].
Qed.
Lemma union_ext : forall n r a ps c c', union_of n r a ps c -> (forall x, within n x -> (c' x == c x)%Q) -> union_of n r a ps c'.
Proof. intros n r a ps c c' U E x W. specialize (U x W). rewrite (E x W). exact U. Qed.

(** * The whole run *)
Definition free_rule (n : shape3) (dist : distribution) (edt2 : field -> field) (r : Z) (c : field) (p : index) : Prop :=
  match dist with Poisson => (c p == 0)%Q | NonOverlapping => (inject_Z (r ^ 2) < edt2 c p)%Q end.
Lemma free_cells_rule : forall n dist edt2 r c p, In p (free_cells n dist edt2 r c) <-> within n p /\ free_rule n dist edt2 r c p.
Proof.
  intros n dist edt2 r c p. unfold free_cells, free_rule. destruct dist; rewrite filter_In, in_all_indices; [rewrite Qeq_bool_iff|rewrite Qltb_true]; reflexivity.
Qed.
(** A history: [batches] are the lists of centres, one per iteration performed; [cubes k] is the cube
    before iteration [k]. *)
Record history (n : shape3) (x_ion : Q) (r : Z) (dist : distribution) (batch : nat) (edt2 : field -> field) (max_iter : nat) (start out : field) (batches : list (list index)) : Prop := {
  h_count : length batches <= max_iter;
  h_batch : forall b, In b batches -> length b = batch;
  h_union : union_of n r start (concat batches) out;
  h_centres : forall k p, k < length batches -> In p (nth k batches []) -> within n p /\
    exists c, union_of n r start (concat (firstn k batches)) c /\ free_rule n dist edt2 r c p;
  h_below : forall k c, 0 < k < length batches -> union_of n r start (concat (firstn k batches)) c -> (mean n c < x_ion)%Q;
  h_stop : (batches <> [] /\ (x_ion <= mean n out)%Q) \/ length batches = max_iter \/
    (dist = NonOverlapping /\ exists c, union_of n r start (concat batches) c /\ forall p, within n p -> ~ free_rule n dist edt2 r c p)
}.
Lemma iterate_history : forall n x_ion r dist batch edt2 draw, positive_shape n -> (0 <= r)%Z -> fits_ball n r ->
  (forall it i m, 0 < m -> draw it i m < m) ->
  forall fuel it cube caller out caller', binary n cube ->
  iterate n x_ion r dist batch edt2 draw fuel it cube caller = Ended out caller' ->
  exists batches, history n x_ion r dist batch edt2 fuel cube out batches.
Proof.
  intros n x_ion r dist batch edt2 draw P R F D. induction fuel as [|fuel IH]; intros it cube caller out caller' B H; cbn [iterate] in H.
  - injection H as H _. exists []. subst out. split; cbn [length concat firstn]; [lia|intros ? []| |intros; lia|intros; lia|right; left; reflexivity].
    eapply union_ext; [apply union_nil; exact B|apply clamp_binary with (n := n); exact B].
  - pose proof (free_cells_rule n dist edt2 r cube) as FR. destruct (free_cells n dist edt2 r cube) as [|f0 fr] eqn:FC.
    + destruct dist; [discriminate|]. injection H as H _. exists []. subst out. split; cbn [length concat firstn]; [lia|intros ? []| |intros; lia|intros; lia|].
      * eapply union_ext; [apply union_nil; exact B|apply clamp_binary with (n := n); exact B].
      * right. right. split; [reflexivity|]. exists cube. split; [apply union_nil; exact B|]. intros p W C. destruct (proj2 (FR p) (conj W C)).
    + rewrite <- FC in FR, H. set (ps := positions batch draw it (free_cells n dist edt2 r cube)) in *.
      destruct (C46_batch n r ps cube P R F B) as [painted [E U]]. rewrite E in H.
      assert (PS : forall p, In p ps -> within n p /\ free_rule n dist edt2 r cube p).
      { intros p Hp. apply FR. unfold ps, positions in Hp. apply in_map_iff in Hp. destruct Hp as [i [<- _]]. apply nth_In. apply D. rewrite FC. cbn. lia. }
      assert (LP : length ps = batch) by (unfold ps, positions; rewrite map_length, seq_length; reflexivity).
      destruct (Qle_bool x_ion (mean n (threshold painted))) eqn:S1.
      * apply Qle_bool_iff in S1. injection H as H _. subst out. exists [ps].
        assert (CE : forall x, within n x -> (clamp (threshold painted) x == threshold painted x)%Q) by (apply clamp_binary, (union_binary n r cube ps); exact U).
        split; cbn [length concat].
        -- lia.
        -- intros b [Hb|[]]. subst b. exact LP.
        -- rewrite app_nil_r. eapply union_ext; [exact U|exact CE].
        -- intros k p Hk Hp. assert (k = 0) by lia. subst k. cbn [nth firstn concat] in *. split; [apply PS; exact Hp|]. exists cube. split; [apply union_nil; exact B|apply PS; exact Hp].
        -- intros; lia.
        -- left. split; [discriminate|]. rewrite (mean_ext n _ _ CE). exact S1.
      * apply Qle_bool_false in S1. destruct (IH _ _ _ _ _ (union_binary _ _ _ _ _ U) H) as [bs HB]. destruct HB as [h1 h2 h3 h4 h5 h6]. exists (ps :: bs). split; cbn [length concat].
        -- lia.
        -- intros b [Hb|Hb]; [subst b; exact LP|apply h2; exact Hb].
        -- eapply union_trans; eassumption.
        -- intros [|k] p Hk Hp; cbn [nth firstn concat] in *.
           ++ split; [apply PS; exact Hp|]. exists cube. split; [apply union_nil; exact B|apply PS; exact Hp].
           ++ destruct (h4 k p ltac:(lia) Hp) as [W [c [Uc Fc]]]. split; [exact W|]. exists c. split; [eapply union_trans; eassumption|exact Fc].
        -- intros [|k] c Hk Uc; [lia|]. cbn [firstn concat] in Uc. destruct k as [|k].
           ++ cbn [firstn concat] in Uc. rewrite app_nil_r in Uc. rewrite (mean_ext n c (threshold painted)); [exact S1|]. intros x W. eapply union_unique; eassumption.
           ++ apply (h5 (S k)); [lia|]. (* the cube before, as a union over the first threshold cube *)
              intros x W. destruct (Uc x W) as [Uc1 Uc2]. split; [exact Uc1|]. rewrite Uc2. rewrite (proj2 (U x W)). split.
              ** intros [G|[p [I G]]]; [left; left; exact G|]. apply in_app_or in I. destruct I as [I|I]; [left; right; exists p; auto|right; exists p; auto].
              ** intros [[G|[p [I G]]]|[p [I G]]]; [left; exact G|right; exists p; split; [apply in_or_app; left; exact I|exact G]|right; exists p; split; [apply in_or_app; right; exact I|exact G]].
        -- destruct h6 as [[_ h6]|[h6|[h6 [c [Uc N]]]]].
           ++ left. split; [discriminate|exact h6].
           ++ right. left. lia.
           ++ right. right. split; [exact h6|]. exists c. split; [eapply union_trans; eassumption|exact N].
Qed.

(** The result is the 0/1 cube of the start region and the periodic balls around the drawn centres;
    each centre was free when drawn; the run stops at the first batch that reaches [x_ion], after
    [max_iter] batches, or (non-overlapping) when no cell is free. *)
Theorem C46_bubble_model : forall n x_ion r dist batch edt2 draw volume n_cells max_iter cube out caller,
  positive_shape n -> (0 <= r)%Z -> fits_ball n r -> (forall it i m, 0 < m -> draw it i m < m) -> binary n cube ->
  bubble_model n x_ion r dist batch edt2 draw volume n_cells max_iter cube = Ended out caller ->
  let room := ((x_ion - mean n cube) * inject_Z (n_cells ^ 3))%Q in
  (out = cube /\ caller = cube /\ (room <= volume \/ room <= volume * inject_Z (Z.of_nat batch))%Q) \/
  ((volume < room)%Q /\ (volume * inject_Z (Z.of_nat batch) < room)%Q /\ exists batches, history n x_ion r dist batch edt2 max_iter cube out batches).
Proof.
  intros n x_ion r dist batch edt2 draw volume n_cells max_iter cube out caller P R F D B H room. unfold bubble_model in H. fold room in H.
  destruct (Qle_bool room volume) eqn:E1; [apply Qle_bool_iff in E1; injection H as <- <-; left; auto|].
  destruct (Qle_bool room (volume * inject_Z (Z.of_nat batch))) eqn:E2; [apply Qle_bool_iff in E2; injection H as <- <-; left; auto|].
  apply Qle_bool_false in E1, E2. right. split; [exact E1|]. split; [exact E2|]. eapply iterate_history; eassumption.
Qed.
Print Assumptions C46_bubble_model.
Definition empty_cube : field := fun _ => 0%Q.
Example C46_bubble_model_sat : positive_shape (3, 3, 3)%Z /\ fits_ball (3, 3, 3)%Z 1 /\
  match bubble_model (3, 3, 3)%Z (1 # 2) 1 Poisson 1 (fun c => c) (fun _ _ _ => 0) (21 # 5) 3 2 empty_cube with
  | Raised => False
  | Ended out _ => Qeq_bool (out (2, 0, 0)%Z) 1 && Qeq_bool (out (1, 1, 1)%Z) 1 && Qeq_bool (out (2, 2, 2)%Z) 0 = true
  end.
Proof.
  split; [apply positive3; lia|]. split; [intros [|[|[|i]]] Hi; cbn; lia|].
  assert (G : match bubble_model (3, 3, 3)%Z (1 # 2) 1 Poisson 1 (fun c => c) (fun _ _ _ => 0) (21 # 5) 3 2 empty_cube with
    | Raised => false | Ended out _ => Qeq_bool (out (2, 0, 0)%Z) 1 && Qeq_bool (out (1, 1, 1)%Z) 1 && Qeq_bool (out (2, 2, 2)%Z) 0 end = true) by (vm_compute; reflexivity).
  destruct (bubble_model _ _ _ _ _ _ _ _ _ _ _); [discriminate G|exact G].
Qed.

(** The start region only grows. *)
Corollary C46_contains_start : forall n x_ion r dist batch edt2 draw volume n_cells max_iter cube out caller x,
  positive_shape n -> (0 <= r)%Z -> fits_ball n r -> (forall it i m, 0 < m -> draw it i m < m) -> binary n cube ->
  bubble_model n x_ion r dist batch edt2 draw volume n_cells max_iter cube = Ended out caller -> within n x -> (cube x == 1)%Q -> (out x == 1)%Q.
Proof.
  intros n x_ion r dist batch edt2 draw volume n_cells max_iter cube out caller x P R F D B H W E.
  destruct (C46_bubble_model _ _ _ _ _ _ _ _ _ _ _ _ _ P R F D B H) as [[Eo _]|[_ [_ [bs HB]]]]; [subst out; exact E|]. apply (proj2 (h_union _ _ _ _ _ _ _ _ _ _ HB x W)). left. exact E.
Qed.
Print Assumptions C46_contains_start.

(** * Errors *)
Lemma mean_all_ones : forall n c, positive_shape n -> (forall x, within n x -> (c x == 1)%Q) -> (mean n c == 1)%Q.
Proof.
  intros n c P H. unfold mean. rewrite (qsum_ext c (fun _ => 1%Q)) by (intros x Hx; apply H, in_all_indices, Hx). rewrite qsum_const, length_all_indices by exact P.
  pose proof (size_pos n P) as S1. field. intro E. assert ((0 < inject_Z (size n))%Q) by (change 0%Q with (inject_Z 0); rewrite <- Zlt_Qlt; exact S1). lra.
Qed.
(** No error for target fractions up to one when the bubble fits into the cube. *)
Theorem C46_no_error : forall n x_ion r dist batch edt2 draw volume n_cells max_iter cube,
  positive_shape n -> (0 <= r)%Z -> fits_ball n r -> (forall it i m, 0 < m -> draw it i m < m) -> binary n cube ->
  (x_ion <= 1)%Q -> (0 <= volume)%Q -> (0 <= n_cells)%Z ->
  bubble_model n x_ion r dist batch edt2 draw volume n_cells max_iter cube <> Raised.
Proof.
  intros n x_ion r dist batch edt2 draw volume n_cells max_iter cube P R F D B X V NC H. unfold bubble_model in H.
  destruct (Qle_bool _ volume) eqn:E1; [discriminate|]. destruct (Qle_bool _ (volume * _)) eqn:E2; [discriminate|]. apply Qle_bool_false in E1. clear E2.
  assert (M : (mean n cube < x_ion)%Q).
  { apply Qnot_le_lt. intro C. assert (0 <= inject_Z (n_cells ^ 3))%Q by (change 0%Q with (inject_Z 0); rewrite <- Zle_Qle; apply Z.pow_nonneg; exact NC). set (z := inject_Z (n_cells ^ 3)) in *. nra. }
  clear E1 V. revert H M B. generalize (@None field). generalize 0. revert cube. induction max_iter as [|fuel IH]; intros cube it caller H M B; cbn [iterate] in H; [discriminate|].
  pose proof (free_cells_rule n dist edt2 r cube) as FR. destruct (free_cells n dist edt2 r cube) as [|f0 fr] eqn:FC.
  - destruct dist; [|discriminate]. assert ((mean n cube == 1)%Q); [|lra]. apply mean_all_ones; [exact P|]. intros x W. destruct (B x W) as [Z|Z]; [|exact Z]. destruct (proj2 (FR x) (conj W Z)).
  - rewrite <- FC in H. destruct (C46_batch n r (positions batch draw it (free_cells n dist edt2 r cube)) cube P R F B) as [painted [E U]]. rewrite E in H.
    destruct (Qle_bool x_ion (mean n (threshold painted))) eqn:S1; [discriminate|]. apply Qle_bool_false in S1. eapply IH; [exact H|exact S1|eapply union_binary; exact U].
Qed.
Print Assumptions C46_no_error.
Example C46_no_error_sat : exists n x_ion r (draw : nat -> nat -> nat -> nat) volume n_cells cube, positive_shape n /\ (0 <= r)%Z /\ fits_ball n r /\ (forall it i m, 0 < m -> draw it i m < m) /\ binary n cube /\ (x_ion <= 1)%Q /\ (0 <= volume)%Q /\ (0 <= n_cells)%Z.
Proof. exists (3, 3, 3)%Z, (1#2)%Q, 1%Z, (fun _ _ _ => 0), (21#5)%Q, 3%Z, (fun _ => 0%Q). split; [apply positive3; lia|]. split; [lia|]. split; [intros [|[|[|i]]] Hi; cbn; lia|]. split; [intros; lia|]. split; [intros x W; left; reflexivity|]. repeat split; unfold Qle; cbn; lia. Qed.
(** A bubble wider than the cube is not always rejected by the volume test, and then raises. *)
Theorem C46_wide_bubble : forall n x_ion r dist batch edt2 draw volume n_cells max_iter cube,
  (exists i, i < 3 /\ (axis i n < 2 * r + 1)%Z) -> 0 < max_iter -> 0 < batch -> (exists p, within n p /\ free_rule n dist edt2 r cube p) ->
  let room := ((x_ion - mean n cube) * inject_Z (n_cells ^ 3))%Q in
  (volume < room)%Q -> (volume * inject_Z (Z.of_nat batch) < room)%Q ->
  bubble_model n x_ion r dist batch edt2 draw volume n_cells max_iter cube = Raised.
Proof.
  intros n x_ion r dist batch edt2 draw volume n_cells max_iter cube [i [Hi W]] Hm Hb [p Hp] room R1 R2. unfold bubble_model. fold room.
  rewrite (proj2 (Qle_bool_false room volume) R1), (proj2 (Qle_bool_false room _) R2). destruct max_iter as [|fuel]; [lia|]. cbn [iterate].
  apply free_cells_rule in Hp. destruct (free_cells n dist edt2 r cube) as [|f0 fr] eqn:FC; [destruct Hp|]. rewrite <- FC. unfold paint_kernel.
  assert (KF : kernel_fits n (ball_shape r) = false). { destruct n as [[n0 n1] n2]. unfold kernel_fits, ball_shape. apply not_true_is_false. rewrite !andb_true_iff, !Z.leb_le. destruct i as [|[|[|i]]]; cbn [axis] in W; lia. }
  rewrite KF. unfold positions. destruct batch as [|b]; [lia|]. reflexivity.
Qed.
Print Assumptions C46_wide_bubble.
(** 4 pi/3 6^3 = 904.8 is less than 10^3, but the ball of radius six has 13 cells across. *)
Example C46_wide_bubble_sat : let n := (10, 10, 10)%Z in
  (exists i, i < 3 /\ (axis i n < 2 * 6 + 1)%Z) /\ (exists p, within n p /\ free_rule n Poisson (fun c => c) 6 empty_cube p) /\
  (9048 # 10 < (1 - mean n empty_cube) * inject_Z (10 ^ 3))%Q.
Proof. split; [exists 0; cbn; lia|]. split; [exists (0, 0, 0)%Z; split; [apply within3; lia|reflexivity]|]. vm_compute. reflexivity. Qed.

(** * The caller's array *)
Lemma caller_kept : forall n x_ion r dist batch edt2 draw fuel it c a out caller,
  iterate n x_ion r dist batch edt2 draw fuel it c (Some a) = Ended out caller -> caller = a.
Proof.
  intros n x_ion r dist batch edt2 draw. induction fuel as [|fuel IH]; intros it c a out caller H; cbn [iterate] in H; [injection H as _ <-; reflexivity|].
  destruct (free_cells n dist edt2 r c) as [|f fr]; [destruct dist; [discriminate|injection H as _ <-; reflexivity]|].
  destruct (paint_kernel _ _ _ c _); [|discriminate]. destruct (Qle_bool _ _); [injection H as _ <-; reflexivity|]. eapply IH; exact H.
Qed.
(** It is not left alone: once a bubble is painted it holds twice the old values plus the first ball. *)
Theorem C46_caller_array : forall n x_ion r dist edt2 draw volume n_cells max_iter cube out caller,
  positive_shape n -> (0 <= r)%Z -> fits_ball n r -> (forall it i m, 0 < m -> draw it i m < m) -> binary n cube ->
  bubble_model n x_ion r dist 1 edt2 draw volume n_cells max_iter cube = Ended out caller ->
  (forall x, within n x -> (caller x == cube x)%Q) \/
  exists p, within n p /\ forall x, within n x ->
    (in_ball n r p x /\ (caller x == 2 * cube x + 1)%Q) \/ (~ in_ball n r p x /\ (caller x == 2 * cube x)%Q).
Proof.
  intros n x_ion r dist edt2 draw volume n_cells max_iter cube out caller P R F D B H. unfold bubble_model in H.
  destruct (Qle_bool _ volume); [injection H as _ <-; left; reflexivity|]. destruct (Qle_bool _ (volume * _)); [injection H as _ <-; left; reflexivity|].
  destruct max_iter as [|fuel]; cbn [iterate] in H; [injection H as _ <-; left; apply clamp_binary; exact B|].
  pose proof (free_cells_rule n dist edt2 r cube) as FR. destruct (free_cells n dist edt2 r cube) as [|f0 fr] eqn:FC.
  - destruct dist; [discriminate|]. injection H as _ <-. left. apply clamp_binary; exact B.
  - rewrite <- FC in FR, H. right. unfold positions in H. cbn [seq map] in H. set (p := nth (draw 0 0 _) _ _) in H. exists p.
    assert (Ip : In p (free_cells n dist edt2 r cube)) by (apply nth_In, D; rewrite FC; cbn; lia). split; [apply FR; exact Ip|].
    destruct (paint_kernel n (ball_shape r) (ball r) cube [p]) as [painted|] eqn:E; [|discriminate].
    assert (EP : painted = paint_one n (ball_shape r) (ball r) cube p) by (unfold paint_kernel in E; destruct (kernel_fits n (ball_shape r)); [injection E as <-; reflexivity|discriminate]).
    assert (C : caller = painted).
    { destruct (Qle_bool x_ion (mean n (threshold painted))); [injection H as _ <-; reflexivity|].
      apply caller_kept in H. exact H. }
    subst caller painted. intros x W. apply paint_ball_value; assumption.
Qed.
Print Assumptions C46_caller_array.
Example C46_caller_array_sat : exists (n : shape3) (x_ion : Q) (r : Z) (dist : distribution) (edt2 : field -> field) (draw : nat -> nat -> nat -> nat) (volume : Q) (n_cells : Z) (max_iter : nat) (cube : field) (out : field) (caller : field), positive_shape n /\ (0 <= r)%Z /\ fits_ball n r /\ ((forall it i m, 0 < m -> draw it i m < m)) /\ binary n cube /\ bubble_model n x_ion r dist 1 edt2 draw volume n_cells max_iter cube = Ended out caller.
Proof. destruct C46_bubble_model_sat as (A & B & C). destruct (bubble_model _ _ _ _ _ _ _ _ _ _ _) as [|out caller] eqn:E in C; [destruct C|].
exists (3, 3, 3)%Z, (1#2)%Q, 1%Z, Poisson, (fun c => c), (fun _ _ _ => 0), (21#5)%Q, 3%Z, 2, empty_cube, out, caller.
split; [exact A|]. split; [lia|]. split; [exact B|]. split; [intros; lia|]. split; [intros x W; left; reflexivity|]. exact E. Qed.

(** * Non-overlapping bubbles *)
(** The distance transform never exceeds the (not wrapped) distance to an ionised cell. *)
Definition distance_transform (n : shape3) (edt2 : field -> field) : Prop :=
  forall c x y, within n x -> within n y -> (c y == 1)%Q -> (edt2 c x <= inject_Z (distance2 x y))%Q.
(** Every centre is further than [r], measured without wrapping, from everything painted before its
    batch; so a ball that does not cross the faces of the cube overlaps nothing painted before. *)
Theorem C46_non_overlapping : forall n x_ion r batch edt2 max_iter cube out batches k p y,
  distance_transform n edt2 -> history n x_ion r NonOverlapping batch edt2 max_iter cube out batches ->
  k < length batches -> In p (nth k batches []) -> within n y ->
  ((cube y == 1)%Q \/ exists q, In q (concat (firstn k batches)) /\ in_ball n r q y) ->
  (r ^ 2 < distance2 p y)%Z /\ ((0 <= r)%Z -> (forall i, i < 3 -> (r <= axis i p < axis i n - r)%Z) -> ~ in_ball n r p y).
Proof.
  intros n x_ion r batch edt2 max_iter cube out batches k p y DT H Hk Hp W Q. destruct (h_centres _ _ _ _ _ _ _ _ _ _ H k p Hk Hp) as [Wp [c [U FRu]]]. cbn [free_rule] in FRu.
  assert (Cy : (c y == 1)%Q) by (apply (proj2 (U y W)); exact Q). pose proof (DT c p y Wp W Cy) as D1.
  assert (D2 : (r ^ 2 < distance2 p y)%Z) by (rewrite Zlt_Qlt; lra). split; [exact D2|]. intros R0 IN [[[d0 d1] d2] [D E]].
  unfold distance2 in D. cbn [axis] in D. rewrite !Z.sub_0_r in D. pose proof (sq_le d0 d1 d2 r R0 D) as B.
  apply (proj1 (forall3 _)) in E. apply (proj1 (forall3 _)) in IN. cbn [axis] in E. destruct E as [E0 [E1 E2]]. destruct n as [[n0 n1] n2], p as [[p0 p1] p2], y as [[y0 y1] y2]. unfold distance2 in D2. cbn [axis] in *.
  rewrite Z.mod_small in E0, E1, E2 by lia. subst y0 y1 y2. replace (p0 - (p0 + d0))%Z with (- d0)%Z in D2 by lia. replace (p1 - (p1 + d1))%Z with (- d1)%Z in D2 by lia. replace (p2 - (p2 + d2))%Z with (- d2)%Z in D2 by lia. nia.
Qed.
Print Assumptions C46_non_overlapping.
(** The exact distance transform of a cube with at least one ionised cell. *)
Definition edt2_exact (n : shape3) (c : field) (x : index) : Q :=
  fold_right (fun y m => let d := inject_Z (distance2 x y) in if Qeq_bool (c y) 1 then (if Qle_bool d m then d else m) else m)
    (inject_Z (size n * size n)) (all_indices n).
Lemma edt2_exact_ok : forall n, distance_transform n (edt2_exact n).
Proof.
  intros n c x y Wx Wy E. unfold edt2_exact. apply in_all_indices in Wy. revert Wy. generalize (all_indices n). induction l as [|z l IH]; intro I; [destruct I|]; destruct I as [I|I]; cbn [fold_right]; cbv zeta.
  - subst z. rewrite (proj2 (Qeq_bool_iff _ _) E). destruct (Qle_bool _ _) eqn:Q; [lra|apply Qle_bool_false in Q; lra].
  - specialize (IH I). destruct (Qeq_bool (c z) 1); [|exact IH]. destruct (Qle_bool (inject_Z (distance2 x z)) _) eqn:Q; [apply Qle_bool_iff in Q; lra|exact IH].
Qed.
(** Refuted: "non-overlapping bubbles do not overlap": across the faces they do. The one bubble of
    this run is around [p] and covers the ionised cell [y] of the start cube. *)
Theorem C46_non_overlapping_refuted : exists n edt2 draw cube out caller p y, distance_transform n edt2 /\ (forall it i m : nat, 0 < m -> draw it i m < m) /\ binary n cube /\
  bubble_model n (1 # 4) 1 NonOverlapping 1 edt2 draw (21 # 5) 4 1 cube = Ended out caller /\
  (forall x, within n x -> (in_ball n 1 p x /\ (caller x == 2 * cube x + 1)%Q) \/ (~ in_ball n 1 p x /\ (caller x == 2 * cube x)%Q)) /\
  within n y /\ (cube y == 1)%Q /\ in_ball n 1 p y.
Proof.
  set (cube := fun x : index => if Z.eqb (distance2 x (0, 0, 0)%Z) 0 then 1%Q else 0%Q).
  set (n := (4, 4, 4)%Z). set (draw := fun (_ _ m : nat) => m - 16).
  assert (Dr : forall it i m : nat, 0 < m -> draw it i m < m) by (intros; unfold draw; lia).
  assert (Bi : binary n cube) by (intros x _; unfold cube; destruct (Z.eqb _ 0); [right|left]; reflexivity).
  assert (Pn : positive_shape n) by (apply positive3; lia). assert (Fn : fits_ball n 1) by (intros [|[|[|i]]] Hi; cbn; lia).
  assert (W0 : within n (0, 0, 0)%Z) by (apply within3; lia).
  destruct (bubble_model n (1 # 4) 1 NonOverlapping 1 (edt2_exact n) draw (21 # 5) 4 1 cube) as [|out caller] eqn:E.
  - exfalso. revert E. apply C46_no_error; try assumption; try lia; vm_compute; discriminate.
  - assert (C0 : (caller (0, 0, 0)%Z == 3)%Q).
    { assert (G : match bubble_model n (1 # 4) 1 NonOverlapping 1 (edt2_exact n) draw (21 # 5) 4 1 cube with Ended _ c => Qeq_bool (c (0, 0, 0)%Z) 3 | Raised => false end = true) by (vm_compute; reflexivity).
      rewrite E in G. apply Qeq_bool_iff. exact G. }
    assert (Cc : (cube (0, 0, 0)%Z == 1)%Q) by reflexivity.
    destruct (C46_caller_array n (1 # 4) 1 NonOverlapping (edt2_exact n) draw (21 # 5) 4 1 cube out caller Pn ltac:(lia) Fn Dr Bi E) as [H|[p [Wp H]]]; [specialize (H _ W0); lra|].
    exists n, (edt2_exact n), draw, cube, out, caller, p, (0, 0, 0)%Z. split; [apply edt2_exact_ok|]. split; [exact Dr|]. split; [exact Bi|]. split; [exact E|]. split; [exact H|]. split; [exact W0|]. split; [exact Cc|].
    destruct (H _ W0) as [[I _]|[_ C]]; [exact I|lra].
Qed.
Print Assumptions C46_non_overlapping_refuted.
(** Cells with fractional values: one bubble anywhere turns every cell from a quarter on into an
    ionised one. *)
Theorem C46_fractional_start : forall n r p cube painted x, positive_shape n -> (0 <= r)%Z -> fits_ball n r -> within n x ->
  paint_kernel n (ball_shape r) (ball r) cube [p] = Some painted -> ~ in_ball n r p x ->
  ((threshold painted x == 1)%Q <-> (1 # 4 <= cube x)%Q).
Proof.
  intros n r p cube painted x P R F W E NB. assert (EP : painted = paint_one n (ball_shape r) (ball r) cube p) by (unfold paint_kernel in E; destruct (kernel_fits n (ball_shape r)); [injection E as <-; reflexivity|discriminate]).
  subst painted. destruct (paint_ball_value n r cube p x P R F W) as [[I _]|[_ V]]; [contradiction|]. unfold threshold. destruct (Qle_bool (1 # 2) _) eqn:Q; [apply Qle_bool_iff in Q|apply Qle_bool_false in Q]; rewrite V in Q; split; intro; lra.
Qed.
Print Assumptions C46_fractional_start.
Example C46_fractional_start_sat : exists (n : shape3) (r : Z) (p : index) (cube : field) (painted : field) (x : index), positive_shape n /\ (0 <= r)%Z /\ fits_ball n r /\ within n x /\ paint_kernel n (ball_shape r) (ball r) cube [p] = Some painted /\ ~ in_ball n r p x.
Proof. eexists (3, 3, 3)%Z, 1%Z, (1, 1, 1)%Z, (fun _ => (1#4)%Q), _, (0, 0, 0)%Z. split; [apply positive3; lia|]. split; [lia|]. split; [intros [|[|[|i]]] Hi; cbn; lia|]. split; [apply within3; lia|]. split; [reflexivity|].
  intros [[[a b] c] [D E]]. unfold distance2 in D. cbn [axis] in D. assert (A : (-1 <= a <= 1 /\ -1 <= b <= 1 /\ -1 <= c <= 1)%Z) by nia.
  pose proof (E 0%nat ltac:(lia)) as E0. pose proof (E 1%nat ltac:(lia)) as E1. pose proof (E 2%nat ltac:(lia)) as E2. cbn [axis] in E0, E1, E2.
  assert (a = -1 \/ a = 0 \/ a = 1)%Z as [->|[->| ->]] by lia; try discriminate. assert (b = -1 \/ b = 0 \/ b = 1)%Z as [->|[->| ->]] by lia; try discriminate. assert (c = -1 \/ c = 0 \/ c = 1)%Z as [->|[->| ->]] by lia; try discriminate. cbn in D. lia. Qed.
