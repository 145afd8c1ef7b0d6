(** C97, continued: a box-shaped hole of any size at least two cells across gives genus 0. *)
From Coq Require Import List ZArith Bool Lia QArith Sorting.Permutation.
From Verif Require Import GenusModel GenusProps.
Import ListNotations.
Local Open Scope Z_scope.

(** What one axis sees of the hole around a coordinate: the cells at [i+1], [i] and [i-1]. *)
Definition three (u v z : bool) : Z -> bool := fun e => if Z.eqb e 0 then u else if Z.eqb e 1 then v else z.
Definition surr3 (w : kernel) (f g h : Z -> bool) : bool := forallb (fun o => let '(p, q, r) := o in Bool.eqb (f p && g q && h r) (Z.eqb (w o) 1)) offsets.
Definition side (n p i : Z) : Z -> bool := fun e => Z.ltb ((i + 1 - e) mod n) p.
Lemma surr3_hole : forall a b c p q r w i j k, surrounded (a, b, c) (fun x => negb (solid p q r x)) w (i, j, k) = surr3 w (side a p i) (side b q j) (side c r k).
Proof. intros a b c p q r w i j k. unfold surrounded, surr3. induction offsets as [|[[u v] z] l IH]; [reflexivity|]. cbn [forallb]. rewrite IH, negb_involutive. reflexivity. Qed.
Lemma surr3_ext : forall w f g h, surr3 w f g h = surr3 w (three (f 0) (f 1) (f 2)) (three (g 0) (g 1) (g 2)) (three (h 0) (h 1) (h 2)).
Proof. intros. unfold surr3. assert (offsets = [(0,0,0); (0,0,1); (0,0,2); (0,1,0); (0,1,1); (0,1,2); (0,2,0); (0,2,1); (0,2,2); (1,0,0); (1,0,1); (1,0,2); (1,1,0); (1,1,1); (1,1,2); (1,2,0); (1,2,1); (1,2,2); (2,0,0); (2,0,1); (2,0,2); (2,1,0); (2,1,1); (2,1,2); (2,2,0); (2,2,1); (2,2,2)]) as -> by reflexivity. cbn [forallb]. unfold three. cbn [Z.eqb Pos.eqb]. reflexivity. Qed.
Lemma side_cases : forall n p i, 2 <= p -> p + 1 <= n -> 0 <= i < n ->
  (i = 0 /\ side n p i 0 = true /\ side n p i 1 = true /\ side n p i 2 = false)
  \/ (i = p - 1 /\ side n p i 0 = false /\ side n p i 1 = true /\ side n p i 2 = true)
  \/ (0 < i < p - 1 /\ side n p i 0 = true /\ side n p i 1 = true /\ side n p i 2 = true)
  \/ (p <= i /\ side n p i 1 = false).
Proof.
  intros n p i P N I. unfold side. replace (i + 1 - 1) with i by lia. replace (i + 1 - 2) with (i - 1) by lia. replace (i + 1 - 0) with (i + 1) by lia. rewrite (Z.mod_small i) by lia.
  destruct (Z.eq_dec i 0) as [->|NZ]; [left|destruct (Z.eq_dec i (p - 1)) as [E|E]; [right; left|destruct (Z_lt_le_dec i p) as [L|L]; [right; right; left|right; right; right]]].
  - split; [reflexivity|]. replace (0 - 1) with (n - 1 + (-1) * n) by lia. rewrite Z_mod_plus_full, !Z.mod_small by lia. repeat split; [apply Z.ltb_lt|apply Z.ltb_lt|apply Z.ltb_ge]; lia.
  - split; [exact E|]. subst i. rewrite !Z.mod_small by lia. repeat split; [apply Z.ltb_ge|apply Z.ltb_lt|apply Z.ltb_lt]; lia.
  - split; [lia|]. rewrite !Z.mod_small by lia. repeat split; apply Z.ltb_lt; lia.
  - split; [exact L|]. apply Z.ltb_ge. lia.
Qed.
Lemma surr3_off : forall w f g h, w (1, 1, 1) = 1 -> f 1 && g 1 && h 1 = false -> surr3 w f g h = false.
Proof. intros w f g h W E. destruct (surr3 w f g h) eqn:S; [|reflexivity]. unfold surr3 in S. rewrite forallb_forall in S. specialize (S (1, 1, 1) ltac:(vm_compute; tauto)). cbn [fst snd] in S. rewrite E, W in S. discriminate. Qed.

(** Where the hole's surface shows along one axis: near end, far end, or inside. *)
Inductive place := Near | Far | Inside.
Definition view (t : place) : Z -> bool := match t with Near => three true true false | Far => three false true true | Inside => three true true true end.
Definition at_place (p : Z) (t : place) (i : Z) : Prop := match t with Near => i = 0 | Far => i = p - 1 | Inside => 0 < i < p - 1 end.
Lemma placed : forall n p i, 2 <= p -> p + 1 <= n -> 0 <= i < n -> (exists t, at_place p t i /\ forall w g h, surr3 w (side n p i) g h = surr3 w (view t) g h /\ surr3 w g (side n p i) h = surr3 w g (view t) h /\ surr3 w g h (side n p i) = surr3 w g h (view t)) \/ side n p i 1 = false.
Proof.
  intros n p i P N I. destruct (side_cases n p i P N I) as [(E & A & B & C)|[(E & A & B & C)|[(E & A & B & C)|(E & B)]]]; [left; exists Near|left; exists Far|left; exists Inside|right; exact B];
  (split; [exact E|]); intros w g h; (split; [|split]); rewrite surr3_ext; symmetry; rewrite surr3_ext; rewrite A, B, C; reflexivity.
Qed.
Definition places := [Near; Far; Inside].
Definition all27 (w : kernel) (P : place -> place -> place -> bool -> bool) : bool := forallb (fun x => forallb (fun y => forallb (fun z => P x y z (surr3 w (view x) (view y) (view z))) places) places) places.
Lemma all27_spec : forall w P, all27 w P = true -> forall x y z, P x y z (surr3 w (view x) (view y) (view z)) = true.
Proof. intros w P H x y z. assert (I : forall t, In t places) by (intros []; cbn; tauto). unfold all27 in H. rewrite forallb_forall in H. specialize (H x (I x)). rewrite forallb_forall in H. specialize (H y (I y)). rewrite forallb_forall in H. exact (H z (I z)). Qed.
Definition same (s t : place) : bool := match s, t with Near, Near | Far, Far | Inside, Inside => true | _, _ => false end.
Definition end_of (p : Z) (t : place) : Z := match t with Near => 0 | Far => p - 1 | Inside => 1 end.

Section Hole.
Context (a b c p q r : Z) (P : 2 <= p) (Q : 2 <= q) (R : 2 <= r) (A : p + 1 <= a) (B : q + 1 <= b) (C : r + 1 <= c).
Let hole := fun x => negb (solid p q r x).
Lemma hole_cell : forall w x, w (1, 1, 1) = 1 -> In x (grid (a, b, c)) -> surrounded (a, b, c) hole w x = false \/ (exists t u v, surrounded (a, b, c) hole w x = surr3 w (view t) (view u) (view v) /\ at_place p t (fst (fst x)) /\ at_place q u (snd (fst x)) /\ at_place r v (snd x)).
Proof.
  intros w [[i j] k] W X. apply grid_in in X. cbn [in_grid] in X. unfold hole. rewrite surr3_hole. cbn [fst snd].
  destruct (placed a p i P A ltac:(lia)) as [(t & T1 & T2)|N]; [|left; apply surr3_off; [exact W|rewrite N; reflexivity]].
  destruct (placed b q j Q B ltac:(lia)) as [(u & U1 & U2)|N]; [|left; apply surr3_off; [exact W|rewrite N, andb_false_r; reflexivity]].
  destruct (placed c r k R C ltac:(lia)) as [(v & V1 & V2)|N]; [|left; apply surr3_off; [exact W|rewrite N, andb_false_r; reflexivity]].
  right. exists t, u, v. split; [|auto]. rewrite (proj1 (T2 w _ _)), (proj1 (proj2 (U2 w _ _))), (proj2 (proj2 (V2 w _ _))). reflexivity.
Qed.
Lemma no_match : forall w, w (1, 1, 1) = 1 -> all27 w (fun _ _ _ m => negb m) = true -> matches (a, b, c) hole w = 0.
Proof.
  intros w W H. unfold matches. replace (filter _ _) with (@nil pos); [reflexivity|]. symmetry. assert (K : forall x, In x (grid (a, b, c)) -> surrounded (a, b, c) hole w x = false). { intros x X. destruct (hole_cell w x W X) as [E|(t & u & v & E & _)]; [exact E|]. rewrite E. apply negb_true_iff. exact (all27_spec w _ H t u v). }
  revert K. generalize (grid (a, b, c)). intros l K. induction l as [|y l IH]; [reflexivity|]. cbn [filter]. rewrite (K y (or_introl eq_refl)). apply IH. intros z Z. apply K. right. exact Z.
Qed.
Lemma count_one : forall (f : pos -> bool) (y : pos) l, NoDup l -> In y l -> (forall x, In x l -> f x = true <-> x = y) -> length (filter f l) = 1%nat.
Proof.
  intros f y l N I H. assert (G : filter f l = [y] \/ ~ In y l). { clear I. revert H. induction N as [|x l X N IH]; intro H; [right; intros []|]. cbn [filter]. destruct (f x) eqn:E.
    - left. pose proof (proj1 (H x (or_introl eq_refl)) E) as ->. destruct (IH (fun z Z => H z (or_intror Z))) as [F|F]; [exfalso; apply X; assert (In y (filter f l)) as K by (rewrite F; left; reflexivity); apply filter_In in K; apply K|]. f_equal. assert (Z0 : forall z, In z l -> f z = false) by (intros z Z; destruct (f z) eqn:E2; [apply (H z (or_intror Z)) in E2; subst; contradiction|reflexivity]). clear - Z0. induction l as [|z l IH]; [reflexivity|]. cbn [filter]. rewrite (Z0 z (or_introl eq_refl)). apply IH. intros; apply Z0; right; assumption.
    - destruct (IH (fun z Z => H z (or_intror Z))) as [F|F]; [left; exact F|right]. intros [->|K]; [|contradiction]. rewrite (proj2 (H y (or_introl eq_refl)) eq_refl) in E. discriminate. }
  destruct G as [->|G]; [reflexivity|contradiction].
Qed.
Lemma one_match : forall w t u v, w (1, 1, 1) = 1 -> t <> Inside -> u <> Inside -> v <> Inside -> all27 w (fun x y z m => Bool.eqb m (same x t && same y u && same z v)) = true -> matches (a, b, c) hole w = 1.
Proof.
  intros w t u v W T U V H. unfold matches. rewrite (count_one _ (end_of p t, end_of q u, end_of r v)); [reflexivity|apply grid_NoDup|apply grid_in; cbn [in_grid]; destruct t, u, v; cbn [end_of]; lia|].
  intros x X. destruct (hole_cell w x W X) as [E|(t' & u' & v' & E & T' & U' & V')].
  - rewrite E. split; [discriminate|]. intro E'. exfalso. rewrite E' in E. unfold hole in E. rewrite surr3_hole in E. pose proof (all27_spec w _ H t u v) as K. cbn beta in K. apply Bool.eqb_prop in K.
    destruct (placed a p (end_of p t) P A ltac:(destruct t; cbn; lia)) as [(t1 & T1 & T2)|N]; [|exfalso; revert N; unfold side; rewrite Z.mod_small by (destruct t; cbn; lia); intro N; apply Z.ltb_ge in N; destruct t; cbn in N; lia].
    destruct (placed b q (end_of q u) Q B ltac:(destruct u; cbn; lia)) as [(u1 & U1 & U2)|N]; [|exfalso; revert N; unfold side; rewrite Z.mod_small by (destruct u; cbn; lia); intro N; apply Z.ltb_ge in N; destruct u; cbn in N; lia].
    destruct (placed c r (end_of r v) R C ltac:(destruct v; cbn; lia)) as [(v1 & V1 & V2)|N]; [|exfalso; revert N; unfold side; rewrite Z.mod_small by (destruct v; cbn; lia); intro N; apply Z.ltb_ge in N; destruct v; cbn in N; lia].
    rewrite (proj1 (T2 w _ _)), (proj1 (proj2 (U2 w _ _))), (proj2 (proj2 (V2 w _ _))) in E. assert (t1 = t) by (destruct t, t1; cbn in T1; try lia; congruence). assert (u1 = u) by (destruct u, u1; cbn in U1; try lia; congruence). assert (v1 = v) by (destruct v, v1; cbn in V1; try lia; congruence). subst. rewrite E in K. destruct t, u, v; cbn in K; congruence.
  - rewrite E. pose proof (all27_spec w _ H t' u' v') as K. cbn beta in K. apply Bool.eqb_prop in K. rewrite K. destruct x as [[i j] k]. cbn [fst snd] in *. split.
    + intro S. apply andb_true_iff in S. destruct S as [S S3]. apply andb_true_iff in S. destruct S as [S1 S2]. assert (t' = t) by (destruct t', t; cbn in S1; congruence). assert (u' = u) by (destruct u', u; cbn in S2; congruence). assert (v' = v) by (destruct v', v; cbn in S3; congruence). subst. f_equal; [f_equal|]; [destruct t|destruct u|destruct v]; cbn in *; try lia; congruence.
    + intro S. assert (S1 := f_equal (fun u : pos => fst (fst u)) S). assert (S2 := f_equal (fun u : pos => snd (fst u)) S). assert (S3 := f_equal (fun u : pos => snd u) S). cbn [fst snd] in S1, S2, S3. subst i j k. assert (t' = t) by (destruct t, t'; cbn in T'; try lia; congruence). assert (u' = u) by (destruct u, u'; cbn in U'; try lia; congruence). assert (v' = v) by (destruct v, v'; cbn in V'; try lia; congruence). subst. destruct t, u, v; reflexivity.
Qed.
Lemma none : forall w, forallb (fun w' => Z.eqb (w' (1, 1, 1)) 1 && all27 w' (fun _ _ _ m => negb m)) (turns w) = true -> all_turns (a, b, c) hole w = 0.
Proof. intros w. unfold all_turns. generalize (turns w). intro l. unfold zsum. induction l as [|x l IH]; intro H; [reflexivity|]. cbn [forallb] in H. apply andb_true_iff in H. destruct H as [H1 H2]. apply andb_true_iff in H1. destruct H1 as [H0 H1]. apply Z.eqb_eq in H0. cbn [map fold_right]. rewrite (no_match x H0 H1), (IH H2). reflexivity. Qed.
Definition corners := list_prod (list_prod [Near; Far] [Near; Far]) [Near; Far].
Lemma one_each : forall w, forallb (fun w' => Z.eqb (w' (1, 1, 1)) 1 && existsb (fun k => let '(t, u, v) := k in all27 w' (fun x y z m => Bool.eqb m (same x t && same y u && same z v))) corners) (turns w) = true -> all_turns (a, b, c) hole w = 8.
Proof.
  intros w. unfold all_turns. assert (L : Z.of_nat (length (turns w)) = 8) by reflexivity. rewrite <- L. clear L. generalize (turns w). intro l. unfold zsum. induction l as [|x l IH]; intro H; [reflexivity|]. cbn [forallb] in H. apply andb_true_iff in H. destruct H as [H1 H2]. apply andb_true_iff in H1. destruct H1 as [H0 H1]. apply Z.eqb_eq in H0. apply existsb_exists in H1. destruct H1 as ([[t u] v] & I & K). cbn [map fold_right length].
  rewrite (IH H2), (one_match x t u v H0); [lia|..]; try exact K; unfold corners in I; cbn in I; intro E; subst; repeat destruct I as [I|I]; try discriminate I; destruct I.
Qed.
(** A box-shaped hole at least two cells across along every axis, in a periodic box at least one cell larger: genus 0. *)
Lemma hole_zero : (genus (a, b, c) hole == 0)%Q.
Proof. rewrite C97_background. unfold genus_of_background. rewrite !none by (vm_compute; reflexivity). rewrite one_each by (vm_compute; reflexivity). reflexivity. Qed.
End Hole.
(** The same wherever the hole lies. *)
Theorem C97_hole : forall a b c p q r t, 2 <= p < a -> 2 <= q < b -> 2 <= r < c -> (genus (a, b, c) (fun x => negb (solid p q r (wrap (a, b, c) (plus x t)))) == 0)%Q.
Proof. intros. rewrite (C97_translation (a, b, c) (fun x => negb (solid p q r x)) t). apply hole_zero; lia. Qed.
Print Assumptions C97_hole.
Example C97_hole_sat : (genus (5, 6, 7)%Z (fun x => negb (solid 2 3 4 (wrap (5, 6, 7) (plus x (3, 3, 3))))%Z) == 0)%Q.
Proof. apply C97_hole; lia. Qed.
