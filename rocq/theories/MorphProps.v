(** C49: opening and granulometry. *)
From Coq Require Import List Arith ZArith QArith Bool Lia Lqa Permutation Sorting.Sorted.
From Verif Require Import QLib MorphModel.
Import ListNotations.
Local Open Scope nat_scope.

(** * Specification *)
(** [x] is a cell of the array. *)
Definition cell (shape : list Z) (x : point) : Prop := Forall2 (fun n a => 0 <= a < n)%Z shape x.
Definition plus (x s : point) : point := zip Z.add x s.
Definition minus (x s : point) : point := zip Z.sub x s.
(** The kernel as a set of displacements from its middle (k-1)//2. *)
Definition displacement (k : list Z) (B : image) (s : point) : Prop :=
  exists q, cell k q /\ B q = true /\ s = minus q (centre k).
Definition symmetric (k : list Z) (B : image) : Prop :=
  forall s, displacement k B s -> displacement k B (map Z.opp s).
Definition on (shape : list Z) (A : image) (x : point) : Prop := cell shape x /\ A x = true.

(** * Helpers *)
Lemma inb_cell : forall shape x, inb shape x = true <-> cell shape x.
Proof.
  induction shape as [|n s IH]; intros [|a x]; cbn [inb]; split; intro H; try discriminate; try (constructor); try (inversion H; fail).
  - rewrite !andb_true_iff in H. destruct H as [[H1 H2] H3]. apply Z.leb_le in H1. apply Z.ltb_lt in H2. lia.
  - rewrite !andb_true_iff in H. apply IH. apply H.
  - inversion_clear H as [|? ? ? ? H1 H2]. rewrite !andb_true_iff, Z.leb_le, Z.ltb_lt. split; [exact H1|]. apply IH. exact H2.
Qed.
Lemma in_grid : forall shape x, In x (grid shape) <-> cell shape x.
Proof.
  induction shape as [|n s IH]; intro x; cbn [grid].
  - split; [intros [H|[]]; subst; constructor|intro H; inversion H; left; reflexivity].
  - rewrite in_flat_map. split.
    + intros [i [Hi H]]. apply in_map_iff in H. destruct H as [y [<- Hy]]. apply in_seq in Hi. constructor; [lia|]. apply IH. exact Hy.
    + intro H. inversion H as [|? a ? y Ha Hy]. subst. exists (Z.to_nat a). split; [apply in_seq; lia|]. apply in_map_iff. exists y. split; [f_equal; lia|]. apply IH. exact Hy.
Qed.
Lemma cell_length : forall shape x, cell shape x -> length x = length shape.
Proof. intros shape x H. induction H; cbn; congruence. Qed.
Lemma zip_length : forall f a b, length a = length b -> length (zip f a b) = length a.
Proof. intros f. induction a as [|x a IH]; intros [|y b] H; cbn in *; try lia. rewrite IH; lia. Qed.
Lemma centre_length : forall k, length (centre k) = length k.
Proof. intro. apply map_length. Qed.
Lemma zip_assoc : forall x c q, length x = length c -> length q = length c -> zip Z.sub (zip Z.add x c) q = zip Z.sub x (zip Z.sub q c).
Proof. induction x as [|a x IH]; intros [|b c] [|d q] H1 H2; cbn in *; try lia; try reflexivity. rewrite IH by lia. f_equal. lia. Qed.
Lemma plus_minus : forall x s, length x = length s -> plus (minus x s) s = x.
Proof. unfold plus, minus. induction x as [|a x IH]; intros [|b s] H; cbn in *; try lia; [reflexivity|]. rewrite IH by lia. f_equal. lia. Qed.
Lemma minus_opp : forall x s, length x = length s -> minus x (map Z.opp s) = plus x s.
Proof. unfold plus, minus. induction x as [|a x IH]; intros [|b s] H; cbn in *; try lia; [reflexivity|]. rewrite IH by lia. f_equal. lia. Qed.
Lemma opp_opp : forall s, map Z.opp (map Z.opp s) = s.
Proof. induction s as [|a s IH]; [reflexivity|]. cbn. rewrite IH. f_equal. lia. Qed.
Lemma displacement_length : forall k B s, displacement k B s -> length s = length k.
Proof. intros k B s [q [H [_ ->]]]. apply cell_length in H. unfold minus. rewrite zip_length; rewrite ?centre_length; lia. Qed.
Lemma filter_nonempty : forall {X} (f : X -> bool) l, 0 < length (filter f l) <-> exists x, In x l /\ f x = true.
Proof.
  intros X f l. split.
  - intro H. destruct (filter f l) as [|x r] eqn:E; [cbn in H; lia|]. exists x. apply filter_In. rewrite E. left. reflexivity.
  - intros [x H]. apply filter_In in H. destruct (filter f l); [destruct H|cbn; lia].
Qed.
Lemma filter_le : forall {X} (f g : X -> bool) l, (forall x, In x l -> f x = true -> g x = true) -> length (filter f l) <= length (filter g l).
Proof.
  induction l as [|a l IH]; intro H; [cbn; lia|]. cbn [filter]. assert (IH' := IH (fun x Hx => H x (or_intror Hx))). pose proof (H a (or_introl eq_refl)) as Ha.
  destruct (f a); [rewrite Ha by reflexivity; cbn [length]; lia|]. destruct (g a); cbn [length]; lia.
Qed.
Lemma filter_all : forall {X} (f g : X -> bool) l, length (filter f l) <= length (filter (fun x => f x && g x) l) <-> forall x, In x l -> f x = true -> g x = true.
Proof.
  intros X f g l. split; [|intro H; apply filter_le; intros x Hx Fx; rewrite Fx, (H x Hx Fx); reflexivity].
  induction l as [|a l IH]; intros H x I F; [destruct I|]. destruct I as [I|I].
  - subst a. destruct (g x) eqn:G; [reflexivity|]. cbn [filter] in H. rewrite F, G in H. cbn in H. assert (length (filter (fun x => f x && g x) l) <= length (filter f l)) by (apply filter_le; intros y _ E; apply andb_true_iff in E; tauto). lia.
  - apply IH; [|exact I|exact F]. cbn [filter] in H. assert (length (filter (fun x => f x && g x) l) <= length (filter f l)) by (apply filter_le; intros y _ E; apply andb_true_iff in E; tauto). destruct (f a), (g a); cbn in H; lia.
Qed.
Lemma number_lt : forall a b, (number a - (1 # 2) < number b)%Q <-> a <= b.
Proof.
  intros a b. unfold number. split; intro H.
  - assert (inject_Z (Z.of_nat a) < inject_Z (Z.of_nat b + 1))%Q by (rewrite inject_Z_plus; change (inject_Z 1) with 1%Q; lra). rewrite <- Zlt_Qlt in H0. lia.
  - assert (inject_Z (Z.of_nat a) <= inject_Z (Z.of_nat b))%Q by (rewrite <- Zle_Qle; lia). lra.
Qed.
Lemma half_lt : forall b, (1 # 2 < number b)%Q <-> 0 < b.
Proof.
  intro b. unfold number. split; intro H.
  - assert (inject_Z 0 < inject_Z (Z.of_nat b))%Q by (change (inject_Z 0) with 0%Q; lra). rewrite <- Zlt_Qlt in H0. lia.
  - assert (inject_Z 1 <= inject_Z (Z.of_nat b))%Q by (rewrite <- Zle_Qle; lia). change (inject_Z 1) with 1%Q in H0. lra.
Qed.

(** * Dilation and erosion *)
Theorem C49_dilation : forall shape k A B x, length shape = length k -> cell shape x ->
  (dilation shape k A B x = true <-> exists s, displacement k B s /\ on shape A (minus x s)).
Proof.
  intros shape k A B x L C. unfold dilation. rewrite Qltb_true, half_lt. unfold convolve. rewrite filter_nonempty. pose proof (cell_length _ _ C) as Lx. split.
  - intros [q [Hq H]]. apply in_grid in Hq. rewrite !andb_true_iff in H. destruct H as [Bq [I Aq]]. apply inb_cell in I. pose proof (cell_length _ _ Hq).
    rewrite zip_assoc in I, Aq by (rewrite centre_length; lia). exists (minus q (centre k)). split; [exists q; auto|]. split; [exact I|exact Aq].
  - intros [s [[q [Hq [Bq ->]]] [I Aq]]]. exists q. pose proof (cell_length _ _ Hq). split; [apply in_grid; exact Hq|]. rewrite zip_assoc by (rewrite centre_length; lia). fold (minus q (centre k)) (minus x (minus q (centre k))). rewrite Bq, Aq. apply inb_cell in I. rewrite I. reflexivity.
Qed.
Print Assumptions C49_dilation.
Example C49_dilation_sat : exists (shape : list Z) (k : list Z) (x : point), length shape = length k /\ cell shape x.
Proof. exists [4; 5]%Z, [3; 3]%Z, [2; 4]%Z. split; [reflexivity|]. repeat constructor; lia. Qed.
Theorem C49_erosion : forall shape k A B x, length shape = length k -> cell shape x ->
  (erosion shape k A B x = true <-> forall s, displacement k B s -> on shape A (minus x s)).
Proof.
  intros shape k A B x L C. unfold erosion. cbv zeta. rewrite Qltb_true, number_lt. unfold count_nonzero, convolve. rewrite filter_all. pose proof (cell_length _ _ C) as Lx. split.
  - intros H s [q [Hq [Bq ->]]]. pose proof (cell_length _ _ Hq). specialize (H q (proj2 (in_grid k q) Hq) Bq). cbv zeta in H. rewrite zip_assoc in H by (rewrite centre_length; lia). apply andb_true_iff in H. destruct H as [I Aq]. apply inb_cell in I. split; assumption.
  - intros H q Hq Bq. apply in_grid in Hq. pose proof (cell_length _ _ Hq). rewrite zip_assoc by (rewrite centre_length; lia). destruct (H _ (ex_intro _ q (conj Hq (conj Bq eq_refl)))) as [I Aq]. apply andb_true_iff. split; [apply inb_cell; exact I|exact Aq].
Qed.
Print Assumptions C49_erosion.
Example C49_erosion_sat : exists (shape : list Z) (k : list Z) (x : point), length shape = length k /\ cell shape x.
Proof. exists [4; 5]%Z, [3; 3]%Z, [2; 4]%Z. split; [reflexivity|]. repeat constructor; lia. Qed.

Lemma cell_shift : forall shape R x, cell shape x <-> cell shape (map (fun a => a - R)%Z (map (fun a => a + R)%Z x)).
Proof. intros. rewrite map_map. rewrite (map_ext _ (fun a => a)) by (intro; lia). rewrite map_id. reflexivity. Qed.
(** Padding by at least the reach of the kernel makes [_erode_v1] agree. *)
Theorem C49_erosion_variants : forall shape k A B x R, length shape = length k -> cell shape x -> (0 <= R)%Z ->
  (forall s, displacement k B s -> Forall (fun a => - R <= a <= R)%Z s) -> erode_v1 shape k A B R x = erosion shape k A B x.
Proof.
  intros shape k A B x R L C R0 H. set (shape' := map (fun n => (n + 2 * R)%Z) shape).
  set (A_inv := fun y => let x := map (fun a => (a - R)%Z) y in if inb shape x then negb (A x) else true).
  set (y := map (fun a => (a + R)%Z) x).
  assert (Cy : cell shape' y). { unfold shape', y. clear - C R0. induction C; cbn [map]; [constructor|]. cbv beta in *. constructor; [lia|assumption]. }
  assert (Ls : length shape' = length k) by (unfold shape'; rewrite map_length; exact L).
  pose proof (C49_dilation shape' k A_inv B y Ls Cy) as D. pose proof (C49_erosion shape k A B x L C) as E.
  unfold erode_v1. fold shape' A_inv y.
  assert (SH : forall s, length s = length x -> map (fun a => (a - R)%Z) (minus y s) = minus x s).
  { intros s Hs. unfold y, minus. clear - Hs. revert s Hs. induction x as [|a x IH]; intros [|b s] Hs; cbn in *; try lia; [reflexivity|]. rewrite IH by lia. f_equal. lia. }
  assert (CS : forall s, displacement k B s -> cell shape' (minus y s)).
  { intros s Ds. pose proof (H s Ds) as F. pose proof (displacement_length _ _ _ Ds) as Ln. rewrite <- L, <- (cell_length _ _ C) in Ln. unfold shape', y, minus. clear - C F Ln. revert s F Ln. induction C as [|n a shape x Ha C IH]; intros [|b s] F Ln; cbn [map zip length] in *; try lia; [constructor|]. inversion_clear F. cbv beta in *. constructor; [lia|apply IH; [assumption|lia]]. }
  destruct (dilation shape' k A_inv B y) eqn:Ed; cbn [negb].
  - symmetry. apply not_true_is_false. intro Ee. destruct (proj1 D eq_refl) as [s [Ds [_ As]]]. pose proof (proj1 E Ee s Ds) as [I As']. unfold A_inv in As. cbv zeta in As. pose proof (displacement_length _ _ _ Ds) as Ln. rewrite SH in As by (rewrite Ln, <- L, (cell_length _ _ C); reflexivity). rewrite (proj2 (inb_cell _ _) I), As' in As. discriminate.
  - symmetry. apply E. intros s Ds. pose proof (displacement_length _ _ _ Ds) as Ln. assert (N : A_inv (minus y s) <> true) by (intro N; assert (false = true) by (apply D; exists s; split; [exact Ds|split; [apply CS; exact Ds|exact N]]); congruence).
    unfold A_inv in N. cbv zeta in N. rewrite SH in N by (rewrite Ln, <- L, (cell_length _ _ C); reflexivity). destruct (inb shape (minus x s)) eqn:I; [|congruence]. apply inb_cell in I. split; [exact I|]. destruct (A (minus x s)); [reflexivity|]. cbn in N. congruence.
Qed.
Print Assumptions C49_erosion_variants.
Example C49_erosion_variants_sat : exists (shape : list Z) (k : list Z) (B : image) (x : point) (R : Z), length shape = length k /\ cell shape x /\ (0 <= R)%Z /\ (forall s, displacement k B s -> Forall (fun a => - R <= a <= R)%Z s).
Proof. exists [4]%Z, [3]%Z, (fun _ => true), [2]%Z, 1%Z. split; [reflexivity|]. split; [repeat constructor; lia|]. split; [lia|]. intros s (q & C & _ & ->). inversion C as [|? x ? l A B]; subst. inversion B; subst. cbn. repeat constructor; cbn; lia. Qed.

(** * Opening by a symmetric kernel: the union of the kernel's translates that fit into the image *)
Definition fits_at (shape k : list Z) (A B : image) (p : point) : Prop :=
  cell shape p /\ forall s, displacement k B s -> on shape A (plus p s).
Theorem C49_opening : forall shape k A B x, length shape = length k -> symmetric k B -> cell shape x ->
  (opening shape k A B x = true <-> exists p s, fits_at shape k A B p /\ displacement k B s /\ x = plus p s).
Proof.
  intros shape k A B x L Sy C. unfold opening. rewrite (C49_dilation _ _ _ _ _ L C). pose proof (cell_length _ _ C) as Lx. split.
  - intros [s [Ds [I E]]]. pose proof (displacement_length _ _ _ Ds). exists (minus x s), s. split; [|split; [exact Ds|symmetry; apply plus_minus; lia]].
    split; [exact I|]. intros t Dt. pose proof (displacement_length _ _ _ Dt). rewrite (C49_erosion _ _ _ _ _ L I) in E. specialize (E _ (Sy t Dt)). rewrite minus_opp in E by (pose proof (cell_length _ _ I); lia). exact E.
  - intros [p [s [[Cp F] [Ds ->]]]]. exists s. split; [exact Ds|]. pose proof (displacement_length _ _ _ Ds). pose proof (cell_length _ _ Cp).
    assert (E : minus (plus p s) s = p). { assert (PS : length p = length s) by lia. unfold minus, plus. clear - PS. revert s PS. induction p as [|a p IH]; intros [|b s] PS; cbn in *; try lia; [reflexivity|]. rewrite IH by lia. f_equal. lia. }
    rewrite E. split; [exact Cp|]. rewrite (C49_erosion _ _ _ _ _ L Cp). intros t Dt. pose proof (displacement_length _ _ _ Dt). specialize (F _ (Sy t Dt)). rewrite <- minus_opp, opp_opp in F by (rewrite map_length; lia). exact F.
Qed.
Print Assumptions C49_opening.
Corollary C49_anti_extensive : forall shape k A B x, length shape = length k -> symmetric k B -> cell shape x ->
  opening shape k A B x = true -> A x = true.
Proof. intros shape k A B x L Sy C H. apply C49_opening in H; try assumption. destruct H as [p [s [[_ F] [Ds ->]]]]. apply F. exact Ds. Qed.
Print Assumptions C49_anti_extensive.
(** Monotone also without symmetry. *)
Theorem C49_monotone : forall shape k A A' B x, length shape = length k -> (forall y, cell shape y -> A y = true -> A' y = true) -> cell shape x ->
  opening shape k A B x = true -> opening shape k A' B x = true.
Proof.
  intros shape k A A' B x L I C. unfold opening. rewrite !(C49_dilation _ _ _ _ _ L C). intros [s [Ds [Cs E]]]. exists s. split; [exact Ds|]. split; [exact Cs|].
  pose proof (proj1 (C49_erosion _ _ _ _ _ L Cs) E) as E1. apply (C49_erosion _ _ _ _ _ L Cs). intros t Dt. destruct (E1 t Dt) as [Ct At]. split; [exact Ct|apply I; assumption].
Qed.
Print Assumptions C49_monotone.
Example C49_monotone_sat : exists (shape : list Z) (k : list Z) (A : point -> bool) (A' : point -> bool) (B : image) (x : point), length shape = length k /\ ((forall y, cell shape y -> A y = true -> A' y = true)) /\ cell shape x /\ opening shape k A B x = true.
Proof. exists [4]%Z, [1]%Z, (fun x => match x with [2%Z] => true | _ => false end), (fun _ => true), (fun _ => true), [2]%Z. split; [reflexivity|]. split; [reflexivity|]. split; [repeat constructor; lia|]. vm_compute. reflexivity. Qed.
Corollary C49_idempotent : forall shape k A B x, length shape = length k -> symmetric k B -> cell shape x ->
  opening shape k (opening shape k A B) B x = opening shape k A B x.
Proof.
  intros shape k A B x L Sy C. apply eq_true_iff_eq. split; [apply C49_anti_extensive; assumption|].
  rewrite !C49_opening by assumption. intros [p [s [[Cp F] [Ds ->]]]]. exists p, s. split; [|auto]. split; [exact Cp|]. intros t Dt. destruct (F t Dt) as [Ct At]. split; [exact Ct|]. apply C49_opening; try assumption. exists p, t. repeat split; auto; apply F; assumption.
Qed.
Print Assumptions C49_idempotent.
(** Refuted without symmetry: a two-cell kernel (even size) opens a pair of cells into cells outside it. *)
Theorem C49_asymmetric_refuted : exists shape k A B x, length shape = length k /\ cell shape x /\ opening shape k A B x = true /\ A x = false.
Proof. exists [6%Z], [2%Z], (fun x => match x with [a] => (2 <=? a)%Z && (a <=? 3)%Z | _ => false end), (fun _ => true), [4%Z]. repeat split; try reflexivity. repeat constructor; lia. Qed.
Print Assumptions C49_asymmetric_refuted.

(** * Discs and balls *)
Lemma sum_squares_nonneg : forall s, (0 <= sum_squares s)%Z.
Proof. induction s as [|a s IH]; cbn; [lia|]. unfold sum_squares in IH. nia. Qed.
Lemma disk_centre : forall dim n, centre (disk_shape dim n) = repeat n dim.
Proof. intros dim n. unfold centre, disk_shape. induction dim; cbn [repeat map]; [reflexivity|]. rewrite IHdim. f_equal. replace (2 * n + 1 - 1)%Z with (n * 2)%Z by lia. apply Z.div_mul. lia. Qed.
Lemma minus_repeat : forall dim n q, length q = dim -> minus q (repeat n dim) = map (fun a => (a - n)%Z) q.
Proof. induction dim; intros n [|a q] H; cbn in *; try lia; [reflexivity|]. unfold minus in IHdim. rewrite IHdim by lia. reflexivity. Qed.
Lemma shift_back : forall n s, map (fun a => (a - n)%Z) (map (fun a => (a + n)%Z) s) = s.
Proof. intros. rewrite map_map. rewrite (map_ext _ (fun x => x)) by (intro; lia). apply map_id. Qed.
(** The displacements of the disc of radius [n] are the vectors no longer than [n]. *)
Theorem C49_disk : forall dim n s, (0 <= n)%Z -> (displacement (disk_shape dim n) (disk n) s <-> length s = dim /\ (sum_squares s <= n * n)%Z).
Proof.
  intros dim n s N. split.
  - intros [q [Hq [Bq ->]]]. pose proof (cell_length _ _ Hq) as Lq. unfold disk_shape in Lq. rewrite repeat_length in Lq. rewrite disk_centre, minus_repeat by exact Lq. split; [rewrite map_length; exact Lq|]. unfold disk in Bq. apply Z.leb_le in Bq. exact Bq.
  - intros [L Q]. exists (map (fun a => (a + n)%Z) s). rewrite disk_centre, minus_repeat by (rewrite map_length; exact L). rewrite shift_back. split; [|split; [|reflexivity]].
    + unfold disk_shape. revert dim L. induction s as [|a s IH]; intros dim L; cbn [length] in L; subst dim; [constructor|]. cbn [repeat map]. pose proof (sum_squares_nonneg s). cbn [sum_squares fold_right] in Q. fold (sum_squares s) in Q. constructor; [nia|]. apply IH; [nia|reflexivity].
    + unfold disk. rewrite shift_back. apply Z.leb_le. exact Q.
Qed.
Print Assumptions C49_disk.
Example C49_disk_sat : exists (n : Z), (0 <= n)%Z.
Proof. exists 3%Z. repeat split; first [lra | lia | reflexivity | discriminate | congruence | auto]. Qed.
Lemma disk_symmetric : forall dim n, (0 <= n)%Z -> symmetric (disk_shape dim n) (disk n).
Proof.
  intros dim n N s. rewrite !C49_disk by exact N. intros [L Q]. split; [rewrite map_length; exact L|]. replace (sum_squares (map Z.opp s)) with (sum_squares s); [exact Q|]. clear. induction s as [|a s IH]; [reflexivity|]. cbn. unfold sum_squares in IH. rewrite IH. lia.
Qed.
(** * Granulometry *)
(** The opened area never exceeds the area of the image, and radius zero gives the image itself. *)
Theorem C49_area : forall shape data n, (0 <= n)%Z -> area shape data n <= length (filter data (grid shape)) /\ area shape data 0 = length (filter data (grid shape)).
Proof.
  intros shape data n N. assert (LD : forall n, length shape = length (disk_shape (length shape) n)) by (intro; unfold disk_shape; rewrite repeat_length; reflexivity).
  assert (A : forall n, (0 <= n)%Z -> area shape data n <= length (filter data (grid shape))).
  { intros m M. apply filter_le. intros x Hx. apply in_grid in Hx. apply C49_anti_extensive; [apply LD|apply disk_symmetric; exact M|exact Hx]. }
  split; [apply A; exact N|]. apply Nat.le_antisymm; [apply A; lia|]. unfold area. apply filter_le. intros x Hx Dx. apply in_grid in Hx. apply C49_opening; [apply LD|apply disk_symmetric; lia|exact Hx|].
  assert (Z0 : forall s, (sum_squares s <= 0 * 0)%Z -> forall y, length y = length s -> plus y s = y).
  { clear. intros s Q y. revert y. induction s as [|a s IH]; intros [|b y] H; cbn in *; try lia; [reflexivity|]. pose proof (sum_squares_nonneg s). unfold sum_squares in *. assert (a = 0%Z) by nia. subst a. unfold plus in IH. rewrite IH by (lia || nia). f_equal. lia. }
  assert (DZ : displacement (disk_shape (length shape) 0) (disk 0) (repeat 0%Z (length shape))). { apply C49_disk; [lia|]. split; [apply repeat_length|]. clear. induction (length shape); cbn; [lia|exact IHn]. }
  exists x, (repeat 0%Z (length shape)). split; [|split; [exact DZ|]].
  - split; [exact Hx|]. intros s Ds. apply C49_disk in Ds; [|lia]. destruct Ds as [Ls Qs]. rewrite Z0 by (try exact Qs; rewrite (cell_length _ _ Hx); lia). split; assumption.
  - symmetry. apply Z0; [clear; induction (length shape); cbn; [lia|exact IHn]|rewrite repeat_length; apply cell_length; exact Hx].
Qed.
Print Assumptions C49_area.
Example C49_area_sat : area [4%Z; 4%Z] (fun x => match x with [a; b] => (a <=? 2)%Z && (b <=? 2)%Z | _ => false end) 1 = 5.
Proof. reflexivity. Qed.

Lemma insert_by_perm : forall p l, Permutation (p :: l) (insert_by p l).
Proof. induction l as [|q r IH]; [reflexivity|]. cbn [insert_by]. destruct (fst p <=? fst q)%Z; [reflexivity|]. rewrite perm_swap. apply perm_skip. exact IH. Qed.
Lemma sort_by_perm : forall l, Permutation l (fold_right insert_by [] l).
Proof. induction l as [|p r IH]; [reflexivity|]. cbn [fold_right]. rewrite <- insert_by_perm. apply perm_skip. exact IH. Qed.
Lemma insert_by_sorted : forall p l, StronglySorted (fun a b => fst a <= fst b)%Z l -> StronglySorted (fun a b => fst a <= fst b)%Z (insert_by p l).
Proof.
  induction l as [|q r IH]; intro H; [repeat constructor|]. cbn [insert_by]. inversion_clear H as [|? ? HS HF]. destruct (Z.leb_spec (fst p) (fst q)) as [E|E].
  - constructor; [constructor; assumption|]. constructor; [exact E|]. eapply Forall_impl; [|exact HF]. cbn. intros; lia.
  - constructor; [apply IH; exact HS|]. rewrite <- insert_by_perm. constructor; [lia|exact HF].
Qed.
(** [granulometry_CDF]: the areas in order of increasing size, whatever the shuffle did (and
    whatever order the sizes were given in). *)
Theorem C49_cdf : forall shape data shuffle sizes, (forall l, Permutation l (shuffle l)) ->
  exists sorted, Permutation sizes sorted /\ StronglySorted Z.le sorted /\
  granulometry_CDF shape data shuffle sizes = map (area shape data) sorted.
Proof.
  intros shape data shuffle sizes P. unfold granulometry_CDF. cbv zeta. set (l := map (fun n => (n, area shape data n)) (shuffle sizes)). set (r := fold_right insert_by [] l).
  assert (PR : Permutation l r) by apply sort_by_perm. exists (map fst r). split; [|split].
  - rewrite (P sizes). assert (E : shuffle sizes = map fst l) by (unfold l; rewrite map_map; symmetry; apply map_id). rewrite E. apply Permutation_map. exact PR.
  - assert (S1 : StronglySorted (fun a b => fst a <= fst b)%Z r). { unfold r. clear. generalize l as l0. induction l0 as [|p l0 IH]; [constructor|]. apply insert_by_sorted. exact IH. }
    clear - S1. induction S1 as [|a l0 S1 IH F]; cbn; constructor; [exact IH|]. rewrite Forall_map. exact F.
  - rewrite map_map. apply map_ext_in. intros [a b] H. apply (Permutation_in _ (Permutation_sym PR)) in H. unfold l in H. apply in_map_iff in H. destruct H as [n [E _]]. injection E as <- <-. reflexivity.
Qed.
Print Assumptions C49_cdf.
Example C49_cdf_sat : granulometry_CDF [4%Z; 4%Z] (fun x => match x with [a; b] => (a <=? 2)%Z && (b <=? 2)%Z | _ => false end) (@rev Z) [1%Z; 0%Z; 2%Z] = [9; 5; 0].
Proof. reflexivity. Qed.

Lemma areas_length : forall f m n, length (areas f m n) = m.
Proof. intros f. induction m as [|m IH]; intro n; [reflexivity|]. cbn [areas]. cbv zeta. destruct (f n =? 0); [apply repeat_length|]. cbn [length]. rewrite IH. reflexivity. Qed.
(** Radii are tried until the opening is empty; the areas that follow stay zero. *)
Lemma areas_nth : forall f m n i, i < m ->
  (nth i (areas f m n) 0 = f (n + Z.of_nat i)%Z /\ forall j, j < i -> f (n + Z.of_nat j)%Z <> 0) \/ (nth i (areas f m n) 0 = 0 /\ exists j, j <= i /\ f (n + Z.of_nat j)%Z = 0).
Proof.
  intros f. induction m as [|m IH]; intros n i Hi; [lia|]. cbn [areas]. cbv zeta. destruct (Nat.eqb_spec (f n) 0) as [E|E].
  - right. split; [apply nth_repeat|]. exists 0. split; [lia|]. rewrite Z.add_0_r. exact E.
  - destruct i as [|i]; cbn [nth]; [left; rewrite Z.add_0_r; split; [reflexivity|intros; lia]|]. destruct (IH (n + 1)%Z i ltac:(lia)) as [[H1 H2]|[H1 [j [Hj H2]]]].
    + left. rewrite H1. split; [f_equal; lia|]. intros [|j] Hj; [rewrite Z.add_0_r; exact E|]. specialize (H2 j ltac:(lia)). replace (n + Z.of_nat (S j))%Z with (n + 1 + Z.of_nat j)%Z by lia. exact H2.
    + right. split; [exact H1|]. exists (S j). split; [lia|]. replace (n + Z.of_nat (S j))%Z with (n + 1 + Z.of_nat j)%Z by lia. exact H2.
Qed.
Theorem C49_granulometry : forall shape data a ps, granulometry shape data = (a, ps) ->
  let m := Z.to_nat (fold_right Z.max 0%Z shape / 2) in
  length a = m /\ forall i, i < m -> (nth i a 0 = area shape data (Z.of_nat i) /\ forall j, j < i -> area shape data (Z.of_nat j) <> 0) \/
    (nth i a 0 = 0 /\ exists j, j <= i /\ area shape data (Z.of_nat j) = 0).
Proof.
  intros shape data a ps H m. unfold granulometry in H. cbv zeta in H. fold m in H. injection H as <- _. split; [apply areas_length|]. intros i Hi. exact (areas_nth (area shape data) m 0 i Hi).
Qed.
Print Assumptions C49_granulometry.
Example C49_granulometry_sat : exists (shape : list Z) (data : image) (a : list nat) (ps : list Q), granulometry shape data = (a, ps).
Proof. eexists [4; 5]%Z, (fun _ => true), _, _. reflexivity. Qed.
(** The pattern spectrum sums to the fraction of the area lost by the largest radius tried; hence to
    one iff the last opening is empty. *)
Lemma differences_sum : forall a l, (qsum (differences (a :: l)) == number a - number (last (a :: l) 0%nat))%Q.
Proof.
  intros a l. revert a. induction l as [|b l IH]; intro a; [unfold qsum; cbn [differences fold_right last]; lra|].
  change (qsum (differences (a :: b :: l))) with (number a - number b + qsum (differences (b :: l)))%Q. specialize (IH b). change (last (a :: b :: l) 0) with (last (b :: l) 0). lra.
Qed.
Theorem C49_pattern_sum : forall l, l <> [] -> nth 0 l 0 <> 0 -> (qsum (pattern_spectrum l) == 1 - number (last l 0%nat) / number (nth 0 l 0%nat))%Q /\ length (pattern_spectrum l) = length l /\
  ((qsum (pattern_spectrum l) == 1)%Q <-> last l 0 = 0).
Proof.
  intros [|a l] N Z; [congruence|]. cbn [nth] in Z. assert (PA : (0 < number a)%Q) by (unfold number; change 0%Q with (inject_Z 0); rewrite <- Zlt_Qlt; lia).
  assert (E : (qsum (pattern_spectrum (a :: l)) == 1 - number (last (a :: l) 0%nat) / number a)%Q).
  { unfold pattern_spectrum. rewrite qsum_app. cbn [nth]. rewrite (qsum_ext _ (fun d => / number a * d)%Q) by (intros; unfold Qdiv; ring). rewrite qsum_scale, map_id, differences_sum. cbn [qsum fold_right]. field. lra. }
  split; [exact E|]. split.
  - unfold pattern_spectrum. rewrite app_length, map_length. cbn [length]. clear. revert a. induction l as [|b l IH]; intro a; [reflexivity|]. change (differences (a :: b :: l)) with ((number a - number b)%Q :: differences (b :: l)). cbn [length]. specialize (IH b). cbn [length] in IH. lia.
  - rewrite E. set (z := last (a :: l) 0). split.
    + intro H. assert (number z == 0)%Q by (assert (X : (number z / number a == 0)%Q) by lra; transitivity (number z / number a * number a)%Q; [field; lra|rewrite X; ring]). unfold number in H0. change 0%Q with (inject_Z 0) in H0. unfold Qeq, inject_Z in H0. cbn [Qnum Qden] in H0. lia.
    + intro H. rewrite H. change (number 0) with 0%Q. field. lra.
Qed.
Print Assumptions C49_pattern_sum.
Example C49_pattern_sum_sat : exists (l : list nat), l <> [] /\ nth 0 l 0 <> 0.
Proof. exists [9; 5; 0]. split; [discriminate|cbn; lia]. Qed.
(** Refuted: "the opened area falls with the radius, so the pattern spectrum is a distribution". The
    disc of radius 3 is left unchanged by the opening with radius 3, but radius 2 removes its cells
    (2, 2): a negative probability. *)
Definition disc_of_three : image := fun x => match x with [a; b] => ((a - 3) * (a - 3) + (b - 3) * (b - 3) <=? 9)%Z | _ => false end.
Theorem C49_pattern_refuted : exists shape data, length shape = 2 /\ area shape data 2 < area shape data 3 /\
  (exists a ps, granulometry shape data = (a, ps) /\ exists p, In p ps /\ (p < 0)%Q).
Proof.
  exists [8%Z; 8%Z], disc_of_three. split; [reflexivity|].
  assert (G : granulometry [8%Z; 8%Z] disc_of_three = ([29; 25; 25; 29], pattern_spectrum [29; 25; 25; 29])) by (vm_compute; reflexivity).
  destruct (C49_granulometry _ _ _ _ G) as [_ H]. split.
  - destruct (H 2 ltac:(cbn; lia)) as [[H4 _]|[H4 _]]; [|discriminate]. destruct (H 3 ltac:(cbn; lia)) as [[H5 _]|[H5 _]]; [|discriminate].
    cbn [nth] in H4, H5. change (Z.of_nat 2) with 2%Z in H4. change (Z.of_nat 3) with 3%Z in H5. rewrite <- H4, <- H5. lia.
  - eexists. eexists. split; [exact G|]. exists ((number 25 - number 29) / number 29)%Q. split; [cbn; auto 10|]. vm_compute. reflexivity.
Qed.
Print Assumptions C49_pattern_refuted.
Example C49_opening_sat : symmetric (disk_shape 2 1) (disk 1) /\ opening [4%Z; 4%Z] (disk_shape 2 1) (fun x => match x with [a; b] => (a <=? 2)%Z && (b <=? 2)%Z | _ => false end) (disk 1) [1%Z; 2%Z] = true.
Proof. split; [apply disk_symmetric; lia|reflexivity]. Qed.
