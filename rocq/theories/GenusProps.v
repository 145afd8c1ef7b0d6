(** C97: the genus counts exact neighbourhoods of the background. *)
From Coq Require Import List ZArith Bool Lia QArith Sorting.Permutation.
From Verif Require Import GenusModel.
Import ListNotations.
Local Open Scope Z_scope.

(** * Specification *)
(** The surroundings of [x] are the kernel, mirrored through [x]: background exactly where the kernel is one. *)
Definition surrounded (s : pos) (b : pos -> bool) (w : kernel) (x : pos) : bool := forallb (fun o => Bool.eqb (negb (b (wrap s (look x o)))) (Z.eqb (w o) 1)) offsets.
Definition matches (s : pos) (b : pos -> bool) (w : kernel) : Z := Z.of_nat (length (filter (surrounded s b w) (grid s))).
Definition all_turns (s : pos) (b : pos -> bool) (w : kernel) : Z := zsum (map (matches s b) (turns w)).
(** Background cells around [x], itself included. *)
Definition around (s : pos) (b : pos -> bool) (x : pos) : Z := Z.of_nat (length (filter (fun o => negb (b (wrap s (look x o)))) offsets)).
Definition in_grid (s x : pos) : Prop := let '(a, b, c) := s in let '(i, j, k) := x in 0 <= i < a /\ 0 <= j < b /\ 0 <= k < c.

(** * Grids *)
Lemma upto_in : forall n v, In v (upto n) <-> 0 <= v < n.
Proof. intros n v. unfold upto. rewrite in_map_iff. split; [intros (i & <- & I); apply in_seq in I; lia|intro H; exists (Z.to_nat v); split; [lia|apply in_seq; lia]]. Qed.
Lemma upto_NoDup : forall n, NoDup (upto n).
Proof. intro n. unfold upto. apply FinFun.Injective_map_NoDup; [intros a b; lia|apply seq_NoDup]. Qed.
Lemma prod_NoDup : forall {A B} (l : list A) (m : list B), NoDup l -> NoDup m -> NoDup (list_prod l m).
Proof.
  intros A B l m L M. induction L as [|a l N L IH]; [constructor|]. cbn [list_prod].
  assert (G : forall u v : list (A * B), NoDup u -> NoDup v -> (forall x, In x u -> ~ In x v) -> NoDup (u ++ v)). { clear. induction u as [|x u IH]; intros v U V D; [exact V|]. inversion U as [|? ? U1 U2]; subst. cbn [app]. constructor; [rewrite in_app_iff; intros [I|I]; [contradiction|apply (D x (or_introl eq_refl) I)]|apply IH; [exact U2|exact V|intros y Y; apply D; right; exact Y]]. }
  apply G; [apply FinFun.Injective_map_NoDup; [intros x y E; congruence|exact M]|exact IH|]. intros [x y] I J. apply in_map_iff in I. destruct I as (z & E & _). apply in_prod_iff in J. destruct J as [J _]. assert (a = x) by congruence. subst x. contradiction.
Qed.
Lemma grid_in : forall s x, In x (grid s) <-> in_grid s x.
Proof. intros [[a b] c] [[i j] k]. change (In (i, j, k) (list_prod (list_prod (upto a) (upto b)) (upto c)) <-> 0 <= i < a /\ 0 <= j < b /\ 0 <= k < c). rewrite !in_prod_iff, !upto_in. tauto. Qed.
Lemma grid_NoDup : forall s, NoDup (grid s).
Proof. intros [[a b] c]. unfold grid. repeat apply prod_NoDup; apply upto_NoDup. Qed.
Lemma off_in : forall o, In o offsets <-> in_grid (3, 3, 3) o. Proof. intro o. apply (grid_in (3, 3, 3)). Qed.
Lemma pos_eq : forall a b c a' b' c' : Z, a = a' -> b = b' -> c = c' -> (a, b, c) = (a', b', c'). Proof. congruence. Qed.
Ltac peq := apply f_equal; apply pos_eq; lia.
(** A bijection of a grid onto another permutes it. *)
Lemma grid_bij : forall s s' (f g : pos -> pos), (forall x, In x (grid s) -> In (f x) (grid s')) -> (forall y, In y (grid s') -> In (g y) (grid s) /\ f (g y) = y) -> (forall x y, In x (grid s) -> In y (grid s) -> f x = f y -> x = y) -> Permutation (map f (grid s)) (grid s').
Proof.
  intros s s' f g F G I. apply NoDup_Permutation; [|apply grid_NoDup|].
  - pose proof (grid_NoDup s) as N.
    assert (H : forall l', NoDup l' -> (forall x y, In x l' -> In y l' -> f x = f y -> x = y) -> NoDup (map f l')). { clear. intros l' N. induction N as [|a l' A N IH]; intro H; [constructor|]. cbn [map]. constructor; [intro Q; apply in_map_iff in Q; destruct Q as (y & E & Y); assert (y = a) by (apply H; [right; exact Y|left; reflexivity|exact E]); subst; contradiction|apply IH; intros x y X Y; apply H; right; assumption]. }
    apply H; [exact N|exact I].
  - intro y. split; intro H; [apply in_map_iff in H; destruct H as (x & <- & X); apply F, X|]. destruct (G y H) as [G1 G2]. rewrite <- G2. apply in_map, G1.
Qed.
Lemma filter_map_length : forall {A B} (f : A -> B) p l, length (filter p (map f l)) = length (filter (fun x => p (f x)) l).
Proof. intros A B f p l. induction l as [|a l IH]; [reflexivity|]. cbn [map filter]. destruct (p (f a)); cbn [length]; rewrite IH; reflexivity. Qed.
Lemma filter_perm_length : forall {A} (p : A -> bool) l l', Permutation l l' -> length (filter p l) = length (filter p l').
Proof. intros A p l l' P. induction P as [|x l l' P IH|x y l|l l' l'' P1 IH1 P2 IH2]; [reflexivity|cbn [filter]; destruct (p x); cbn [length]; rewrite IH; reflexivity|cbn [filter]; destruct (p x), (p y); reflexivity|rewrite IH1; exact IH2]. Qed.

(** * What one count counts *)
Definition mask (w : kernel) : Prop := (forall o, w o = 0 \/ w o = 1) /\ w (1, 1, 1) = 1.
Lemma stel_mask : forall l, existsb (pos_eqb (1, 1, 1)) l = true -> mask (stel l).
Proof. intros l H. split; [intro o; unfold stel; destruct (existsb (pos_eqb o) l); tauto|unfold stel; rewrite H; reflexivity]. Qed.
Lemma turns_mask : forall w w', mask w -> In w' (turns w) -> mask w'.
Proof. intros w w' [M1 M2] I. unfold turns, rot1, rot2, rot3, half in I. repeat destruct I as [<-|I]; try (split; [intros [[i j] k]; apply M1|exact M2]). destruct I. Qed.
Lemma match_sums : forall l (w d : pos -> Z), (forall o, w o = 0 \/ w o = 1) -> (forall o, d o = 0 \/ d o = 1) ->
  (zsum (map (fun o => w o * d o) l) <= zsum (map d l) /\ zsum (map (fun o => w o * d o) l) <= zsum (map w l)) /\ (zsum (map (fun o => w o * d o) l) = zsum (map d l) /\ zsum (map (fun o => w o * d o) l) = zsum (map w l) <-> forall o, In o l -> w o = d o).
Proof.
  intros l w d W D. unfold zsum. induction l as [|o l IH]; [cbn; split; [lia|split; [intros _ ? []|tauto]]|]. cbn [map fold_right]. set (a := fold_right Z.add 0 (map (fun o => w o * d o) l)) in *. set (p := fold_right Z.add 0 (map d l)) in *. set (q := fold_right Z.add 0 (map w l)) in *. destruct IH as [[I1 I2] I3]. split; [destruct (W o) as [-> | ->], (D o) as [-> | ->]; lia|]. split.
  - intros [E1 E2]. assert (S : w o = d o /\ a = p /\ a = q) by (destruct (W o) as [Ew|Ew], (D o) as [Ed|Ed]; rewrite Ew, Ed in *; lia). destruct S as (S1 & S2 & S3). intros x [<-|X]; [exact S1|apply I3; [split; assumption|exact X]].
  - intro H. assert (S1 : w o = d o) by (apply H; left; reflexivity). destruct (proj2 I3 (fun x X => H x (or_intror X))) as [S2 S3]. rewrite S1 in *. destruct (D o) as [-> | ->]; lia.
Qed.
Lemma total_pos : forall w, mask w -> 0 < total w.
Proof.
  intros w [M1 M2]. unfold total. assert (G : forall l, In (1, 1, 1) l -> 0 < zsum (map w l)). { intro l. assert (N : forall l', 0 <= zsum (map w l')) by (intro l'; unfold zsum; induction l' as [|o l' IH]; [cbn; lia|cbn [map fold_right]; destruct (M1 o) as [-> | ->]; lia]). induction l as [|o l IH]; intros []; unfold zsum in *; cbn [map fold_right]; [subst o; rewrite M2; specialize (N l); lia|specialize (IH H); destruct (M1 o) as [-> | ->]; lia]. }
  apply G. vm_compute. tauto.
Qed.
Lemma wrap_id : forall s x, In x (grid s) -> wrap s x = x.
Proof. intros [[a b] c] [[i j] k] H. apply grid_in in H. cbn in H. unfold wrap. rewrite !Z.mod_small by lia. reflexivity. Qed.
Lemma look_centre : forall x, look x (1, 1, 1) = x.
Proof. intros [[i j] k]. unfold look. f_equal; [f_equal|]; lia. Qed.
Lemma bg_01 : forall b o, bg b o = 0 \/ bg b o = 1. Proof. intros. unfold bg, fg. destruct (b o); lia. Qed.
(** A count over the background is the number of exact matches. *)
Theorem C97_exact : forall s b w, mask w -> count_once as_int s (bg b) w = matches s b w.
Proof.
  intros s b w M. unfold count_once, matches. f_equal. f_equal. apply filter_ext_in. intros x X. unfold as_int. cbv zeta. pose proof (total_pos w M) as T. destruct M as [M1 M2]. unfold convolve, ones. set (d := fun o => bg b (wrap s (look x o))). assert (DX : bg b x = d (1, 1, 1)) by (unfold d; rewrite look_centre, wrap_id by exact X; reflexivity).
  replace (zsum (map (fun o => 1 * bg b (wrap s (look x o))) offsets)) with (zsum (map d offsets)) by (f_equal; apply map_ext; intro; unfold d; ring). change (zsum (map (fun o => w o * bg b (wrap s (look x o))) offsets)) with (zsum (map (fun o => w o * d o) offsets)). pose proof (match_sums offsets w d M1 (fun o => bg_01 b _)) as [_ MS].
  assert (SP : surrounded s b w x = true <-> forall o, In o offsets -> w o = d o). { unfold surrounded. rewrite forallb_forall. split; intros H o O; specialize (H o O).
    - apply Bool.eqb_prop in H. unfold d, bg, fg. destruct (b _); cbn [negb] in H; symmetry in H; [apply Z.eqb_neq in H; destruct (M1 o); lia|apply Z.eqb_eq in H; lia].
    - unfold d, bg, fg in H. destruct (b _); cbn [negb]; [replace (w o =? 1) with false by (symmetry; apply Z.eqb_neq; lia)|replace (w o =? 1) with true by (symmetry; apply Z.eqb_eq; lia)]; reflexivity. }
  apply eq_true_iff_eq. rewrite SP, <- MS, andb_true_iff, !Z.eqb_eq, DX. fold (total w). split.
  - intros [E1 E2]. destruct (bg_01 b (wrap s (look x (1, 1, 1)))) as [Z|O]; fold (d (1, 1, 1)) in *; [rewrite Z in *; lia|]. rewrite O in *. lia.
  - intros [E1 E2]. assert (O : d (1, 1, 1) = 1). { rewrite <- (proj1 MS (conj E1 E2) (1, 1, 1)); [exact M2|vm_compute; tauto]. } rewrite O. lia.
Qed.
Print Assumptions C97_exact.
Example C97_exact_sat : mask (stel [(1, 1, 1); (0, 1, 1)]%Z).
Proof. apply stel_mask. reflexivity. Qed.
(** Over the booleans of the object itself nothing is ever counted. *)
Lemma bool_none : forall s b w, 1 < total w -> count_once as_bool s (fg b) w = 0.
Proof.
  intros s b w T. unfold count_once. replace (filter _ (grid s)) with (@nil pos); [reflexivity|]. symmetry. generalize (grid s). intro l. induction l as [|x l IH]; [reflexivity|]. cbn [filter]. replace (Z.eqb (as_bool (convolve s (fg b) w x) * fg b x) (total w)) with false; [rewrite andb_false_r; exact IH|]. symmetry. apply Z.eqb_neq. unfold as_bool, fg. destruct (Z.eqb _ 0), (b x); lia.
Qed.
Lemma total_turns : forall w w', In w' (turns w) -> total w' = total w.
Proof. intros w w' I. unfold turns in I. unfold total. assert (offsets = [(0,0,0); (0,0,1); (0,0,2); (0,1,0); (0,1,1); (0,1,2); (0,2,0); (0,2,1); (0,2,2); (1,0,0); (1,0,1); (1,0,2); (1,1,0); (1,1,1); (1,1,2); (1,2,0); (1,2,1); (1,2,2); (2,0,0); (2,0,1); (2,0,2); (2,1,0); (2,1,1); (2,1,2); (2,2,0); (2,2,1); (2,2,2)]) as -> by reflexivity. repeat destruct I as [<-|I]; try destruct I; unfold rot1, rot2, rot3, half, zsum; cbn [map fold_right]; cbn [Z.sub Z.add Z.opp Z.pos_sub Pos.pred_double Pos.compare Pos.compare_cont Pos.sub Pos.sub_mask]; try reflexivity; simpl; ring. Qed.
Definition genus_of_background (s : pos) (b : pos -> bool) : Q := (1 + inject_Z (all_turns s b steld + 2 * (all_turns s b stele + all_turns s b stelf) - all_turns s b stela) / 8)%Q.
(** The result depends on the background alone: matches of its surroundings with the eight turns of the four elements. *)
Theorem C97_background : forall s b, genus s b = genus_of_background s b.
Proof.
  intros s b. assert (G : forall w, mask w -> 1 < total w -> both s b w = all_turns s b w). { intros w M T. unfold both, count_neighbors, all_turns. assert (Z0 : zsum (map (count_once as_bool s (fg b)) (turns w)) = 0). { assert (F : forall w', In w' (turns w) -> count_once as_bool s (fg b) w' = 0) by (intros w' I; apply bool_none; rewrite (total_turns w w' I); exact T). revert F. generalize (turns w). intro l. unfold zsum. induction l as [|v l IH]; intro F; [reflexivity|]. cbn [map fold_right]. rewrite (F v (or_introl eq_refl)), IH; [reflexivity|]. intros w' I. apply F. right. exact I. }
    rewrite Z0, Z.add_0_l. f_equal. apply map_ext_in. intros w' I. apply C97_exact, (turns_mask w); assumption. }
  unfold genus, genus_of_background. rewrite !G; try reflexivity; apply stel_mask; reflexivity.
Qed.
Print Assumptions C97_background.

(** * Symmetries *)
Lemma matches_ext : forall s b w w', (forall o, w o = w' o) -> matches s b w = matches s b w'.
Proof. intros s b w w' H. unfold matches, surrounded. f_equal. f_equal. apply filter_ext. intro x. induction offsets as [|o l IH]; [reflexivity|]. cbn [forallb]. rewrite IH, H. reflexivity. Qed.
Lemma matches_map : forall s s' b b' w w' f, Permutation (map f (grid s)) (grid s') -> (forall x, In x (grid s) -> surrounded s b w x = surrounded s' b' w' (f x)) -> matches s b w = matches s' b' w'.
Proof. intros s s' b b' w w' f P H. unfold matches. f_equal. rewrite <- (filter_perm_length _ _ _ P), filter_map_length. f_equal. apply filter_ext_in. exact H. Qed.
Definition plus (x t : pos) : pos := let '(i, j, k) := x in let '(p, q, r) := t in (i + p, j + q, k + r).
Lemma surrounded_eq : forall s s' b b' w w' x x' (f g : pos -> pos), (forall o, In o offsets -> In (f o) offsets /\ In (g o) offsets /\ f (g o) = o) -> (forall o, In o offsets -> b (wrap s (look x o)) = b' (wrap s' (look x' (f o))) /\ w o = w' (f o)) -> surrounded s b w x = surrounded s' b' w' x'.
Proof.
  intros s s' b b' w w' x x' f g F H. apply eq_true_iff_eq. unfold surrounded. rewrite !forallb_forall. split; intros A o O.
  - destruct (F o O) as (_ & G1 & G2). specialize (A (g o) G1). destruct (H (g o) G1) as [H1 H2]. rewrite G2 in H1, H2. rewrite <- H1, <- H2. exact A.
  - destruct (F o O) as (F1 & _ & _). specialize (A (f o) F1). destruct (H o O) as [H1 H2]. rewrite H1, H2. exact A.
Qed.
Lemma shift_perm : forall s t, Permutation (map (fun x => wrap s (plus x t)) (grid s)) (grid s).
Proof.
  intros s [[p q] r]. apply (grid_bij s s (fun x => wrap s (plus x (p, q, r))) (fun y => wrap s (plus y (- p, - q, - r)))); destruct s as [[a b] c].
  - intros [[i j] k] X. apply grid_in in X. apply grid_in. cbn in X |- *. repeat split; apply Z.mod_pos_bound; lia.
  - intros [[i j] k] X. apply grid_in in X. cbn [in_grid] in X. split; [apply grid_in; cbn; repeat split; apply Z.mod_pos_bound; lia|]. cbn. rewrite !Zplus_mod_idemp_l. f_equal; [f_equal|]; (etransitivity; [|apply Z.mod_small]; [f_equal; lia|lia]).
  - intros [[i j] k] [[i' j'] k'] X Y E. apply grid_in in X, Y. cbn in X, Y, E. assert (M : forall n u v t, 0 <= u < n -> 0 <= v < n -> (u + t) mod n = (v + t) mod n -> u = v). { clear. intros n u v t U V E. assert (Q : ((u + t) + - t) mod n = ((v + t) + - t) mod n) by (rewrite <- (Zplus_mod_idemp_l (u + t)), <- (Zplus_mod_idemp_l (v + t)), E; reflexivity). replace (u + t + - t) with u in Q by lia. replace (v + t + - t) with v in Q by lia. rewrite !Z.mod_small in Q by lia. exact Q. }
    assert (E1 := f_equal (fun u : pos => fst (fst u)) E). assert (E2 := f_equal (fun u : pos => snd (fst u)) E). assert (E3 := f_equal (fun u : pos => snd u) E). cbn [fst snd] in E1, E2, E3. apply M in E1, E2, E3; try lia. congruence.
Qed.
(** Moving the structures around the periodic box leaves the genus unchanged. *)
Theorem C97_translation : forall s b t, genus s (fun x => b (wrap s (plus x t))) = genus s b.
Proof.
  intros s b t. rewrite !C97_background. assert (M : forall w, matches s (fun x => b (wrap s (plus x t))) w = matches s b w).
  { intro w. apply (matches_map _ _ _ _ _ _ _ (shift_perm s t)). intros x X. apply (surrounded_eq _ _ _ _ _ _ _ _ (fun o => o) (fun o => o)); [intros; tauto|]. intros o O. split; [|reflexivity]. f_equal. destruct s as [[u v] z], x as [[i j] k], t as [[p q] r], o as [[p' q'] r']. unfold look, plus, wrap. rewrite !Zplus_mod_idemp_l.
    assert (Q : forall n v0 e o0, ((v0 + e) mod n + 1 - o0) mod n = (v0 + 1 - o0 + e) mod n) by (intros n v0 e o0; replace ((v0 + e) mod n + 1 - o0) with ((v0 + e) mod n + (1 - o0)) by lia; rewrite Zplus_mod_idemp_l; f_equal; lia). rewrite !Q. reflexivity. }
  unfold genus_of_background, all_turns. rewrite !(map_ext _ _ M). reflexivity.
Qed.
Print Assumptions C97_translation.
Lemma flip_mod : forall n v, 0 < n -> n - 1 - v mod n = (n - 1 - v) mod n.
Proof. intros n v H. pose proof (Z.div_mod v n ltac:(lia)) as D. pose proof (Z.mod_pos_bound v n H). assert (E : n - 1 - v = n - 1 - v mod n + (- (v / n)) * n) by nia. rewrite E, Z_mod_plus_full, (Z.mod_small (n - 1 - v mod n)) by lia. reflexivity. Qed.
(** [np.rot90(data, 1, (0,1))] and [np.rot90(data, 2, (0,2))] of data of shape [(a,b,c)]. *)
Definition quarter01 (s : pos) (d : pos -> bool) : pos -> bool := fun x => let '(a, b, c) := s in let '(i, j, k) := x in d (j, b - 1 - i, k).
Definition half02 (s : pos) (d : pos -> bool) : pos -> bool := fun x => let '(a, b, c) := s in let '(i, j, k) := x in d (a - 1 - i, j, c - 1 - k).
Ltac tri E := assert (E1 := f_equal (fun u : pos => fst (fst u)) E); assert (E2 := f_equal (fun u : pos => snd (fst u)) E); assert (E3 := f_equal (fun u : pos => snd u) E); cbn [fst snd] in E1, E2, E3.
Lemma quarter_matches : forall a b c d w, matches (b, a, c) (quarter01 (a, b, c) d) w = matches (a, b, c) d (rot3 w).
Proof.
  intros a b c d w. apply (matches_map _ _ _ _ _ _ (fun x => let '(i, j, k) := x in (j, b - 1 - i, k))).
  - apply (grid_bij _ _ _ (fun y => let '(i, j, k) := y in (b - 1 - j, i, k))).
    + intros [[i j] k] X. apply grid_in in X. apply grid_in. cbn [in_grid] in *. lia.
    + intros [[i j] k] X. apply grid_in in X. split; [apply grid_in; cbn [in_grid] in *; lia|]. f_equal. f_equal. lia.
    + intros [[i j] k] [[i' j'] k'] X Y E. tri E. f_equal; [f_equal|]; lia.
  - intros [[i j] k] X. apply grid_in in X. cbn [in_grid] in X. apply (surrounded_eq _ _ _ _ _ _ _ _ (fun o => let '(p, q, r) := o in (q, 2 - p, r)) (fun o => let '(p, q, r) := o in (2 - q, p, r))).
    + intros [[p q] r] O. apply off_in in O. cbn [in_grid] in O. split; [apply off_in; cbn [in_grid]; lia|]. split; [apply off_in; cbn [in_grid]; lia|]. f_equal. f_equal. lia.
    + intros [[p q] r] O. split; [|unfold rot3; f_equal; f_equal; f_equal; lia]. unfold quarter01, look, wrap. f_equal. f_equal. f_equal. rewrite flip_mod by lia. f_equal. lia.
Qed.
Lemma half_matches : forall a b c d w, matches (a, b, c) (half02 (a, b, c) d) w = matches (a, b, c) d (half w).
Proof.
  intros a b c d w. apply (matches_map _ _ _ _ _ _ (fun x => let '(i, j, k) := x in (a - 1 - i, j, c - 1 - k))).
  - apply (grid_bij _ _ _ (fun y => let '(i, j, k) := y in (a - 1 - i, j, c - 1 - k))).
    + intros [[i j] k] X. apply grid_in in X. apply grid_in. cbn [in_grid] in *. lia.
    + intros [[i j] k] X. apply grid_in in X. split; [apply grid_in; cbn [in_grid] in *; lia|]. f_equal; [f_equal|]; lia.
    + intros [[i j] k] [[i' j'] k'] X Y E. tri E. f_equal; [f_equal|]; lia.
  - intros [[i j] k] X. apply grid_in in X. cbn [in_grid] in X. apply (surrounded_eq _ _ _ _ _ _ _ _ (fun o => let '(p, q, r) := o in (2 - p, q, 2 - r)) (fun o => let '(p, q, r) := o in (2 - p, q, 2 - r))).
    + intros [[p q] r] O. apply off_in in O. cbn [in_grid] in O. split; [apply off_in; cbn [in_grid]; lia|]. split; [apply off_in; cbn [in_grid]; lia|]. f_equal; [f_equal|]; lia.
    + intros [[p q] r] O. split; [|unfold half; f_equal; f_equal; [f_equal|]; lia]. unfold half02, look, wrap. rewrite !flip_mod by lia. f_equal. f_equal; [f_equal|]; f_equal; lia.
Qed.
(** Turning the box in the plane of the first two axes, or by half a turn in that of the first and last, leaves the genus unchanged. *)
Theorem C97_rotation : forall a b c d, genus (b, a, c) (quarter01 (a, b, c) d) = genus (a, b, c) d /\ genus (a, b, c) (half02 (a, b, c) d) = genus (a, b, c) d.
Proof.
  intros a b c d. assert (T1 : forall w, all_turns (b, a, c) (quarter01 (a, b, c) d) w = all_turns (a, b, c) d w).
  { intro w. unfold all_turns. rewrite (map_ext _ _ (quarter_matches a b c d)). unfold turns, zsum. cbn [map fold_right]. rewrite (matches_ext _ _ (rot3 (rot1 w)) w), (matches_ext _ _ (rot3 (rot2 w)) (rot1 w)), (matches_ext _ _ (rot3 (rot3 w)) (rot2 w)), (matches_ext _ _ (rot3 (rot1 (half w))) (half w)), (matches_ext _ _ (rot3 (rot2 (half w))) (rot1 (half w))), (matches_ext _ _ (rot3 (rot3 (half w))) (rot2 (half w))); [lia|..]; intros [[i j] k]; unfold rot1, rot2, rot3, half; peq. }
  assert (T2 : forall w, all_turns (a, b, c) (half02 (a, b, c) d) w = all_turns (a, b, c) d w).
  { intro w. unfold all_turns. rewrite (map_ext _ _ (half_matches a b c d)). unfold turns, zsum. cbn [map fold_right]. rewrite (matches_ext _ _ (half (rot1 w)) (rot3 (half w))), (matches_ext _ _ (half (rot2 w)) (rot2 (half w))), (matches_ext _ _ (half (rot3 w)) (rot1 (half w))), (matches_ext _ _ (half (half w)) w), (matches_ext _ _ (half (rot1 (half w))) (rot3 w)), (matches_ext _ _ (half (rot2 (half w))) (rot2 w)), (matches_ext _ _ (half (rot3 (half w))) (rot1 w)); [lia|..]; intros [[i j] k]; unfold rot1, rot2, rot3, half; peq. }
  rewrite !C97_background. unfold genus_of_background. rewrite !T1, !T2. split; reflexivity.
Qed.
Print Assumptions C97_rotation.

(** * Where it fails *)
Lemma surrounded_around : forall s b w x, mask w -> surrounded s b w x = true -> around s b x = total w.
Proof.
  intros s b w x M H. unfold surrounded in H. rewrite forallb_forall in H. unfold around, total. revert H. generalize offsets as l. intros l H. destruct M as [M _]. unfold zsum. induction l as [|o l IH]; [reflexivity|]. cbn [filter map fold_right]. rewrite <- IH by (intros y Y; apply H; right; exact Y). specialize (H o (or_introl eq_refl)). apply Bool.eqb_prop in H. rewrite H. destruct (Z.eqb_spec (w o) 1) as [E|E]; [rewrite E; cbn [length]; lia|]. destruct (M o); lia.
Qed.
(** If no background cell has exactly 8, 16, 19 or 20 background cells around it, the answer is 1 whatever the shape. *)
Theorem C97_quiet : forall s b, (forall x, In x (grid s) -> b x = false -> ~ In (around s b x) [8; 16; 19; 20]) -> (genus s b == 1)%Q.
Proof.
  intros s b H. rewrite C97_background. assert (Z0 : forall w, mask w -> In (total w) [8; 16; 19; 20] -> all_turns s b w = 0).
  { intros w M T. unfold all_turns. assert (F : forall w', In w' (turns w) -> matches s b w' = 0). { intros w' I. unfold matches. replace (filter (surrounded s b w') (grid s)) with (@nil pos); [reflexivity|]. symmetry. assert (K : forall x, In x (grid s) -> surrounded s b w' x = false). { intros x X. destruct (surrounded s b w' x) eqn:E; [|reflexivity]. exfalso. pose proof (turns_mask w w' M I) as M'. apply (H x X).
          - unfold surrounded in E. rewrite forallb_forall in E. specialize (E (1, 1, 1) ltac:(vm_compute; tauto)). apply Bool.eqb_prop in E. rewrite look_centre, wrap_id, (proj2 M') in E by exact X. destruct (b x); [discriminate|reflexivity].
          - rewrite (surrounded_around s b w' x M' E), (total_turns w w' I). exact T. }
        revert K. generalize (grid s) as l. intros l K. induction l as [|y l IH]; [reflexivity|]. cbn [filter]. rewrite (K y (or_introl eq_refl)). apply IH. intros z Z. apply K. right. exact Z. }
    revert F. generalize (turns w) as l. intros l F. unfold zsum. induction l as [|v l IH]; [reflexivity|]. cbn [map fold_right]. rewrite (F v (or_introl eq_refl)), IH; [reflexivity|]. intros w' I. apply F. right. exact I. }
  unfold genus_of_background. rewrite !Z0; try (apply stel_mask; reflexivity); try (vm_compute; tauto).
Qed.
Print Assumptions C97_quiet.
(** In particular every solid box, of any size, whose genus is zero. *)
Definition solid (p q r : Z) (x : pos) : bool := let '(i, j, k) := x in Z.ltb i p && Z.ltb j q && Z.ltb k r.
Example C97_quiet_sat : forall x, In x (grid (5, 5, 5)%Z) -> solid 2 2 2 x = false -> ~ In (around (5, 5, 5)%Z (solid 2 2 2) x) [8; 16; 19; 20]%Z.
Proof. assert (H : forallb (fun x => solid 2 2 2 x || negb (existsb (Z.eqb (around (5, 5, 5)%Z (solid 2 2 2) x)) [8; 16; 19; 20]%Z)) (grid (5, 5, 5)%Z) = true) by (vm_compute; reflexivity).
intros x I E J. rewrite forallb_forall in H. specialize (H x I). rewrite E in H. cbn [orb] in H. apply negb_true_iff in H. apply not_true_iff_false in H. apply H. apply existsb_exists. exists (around (5, 5, 5)%Z (solid 2 2 2) x). split; [exact J|apply Z.eqb_refl]. Qed.
Definition near (n p i : Z) : Z := Z.of_nat (length (filter (fun e => Z.ltb ((i + 1 - e) mod n) p) (upto 3))).
Lemma prod_count : forall {A B} (f : A -> bool) (g : B -> bool) l m, length (filter (fun x : A * B => f (fst x) && g (snd x)) (list_prod l m)) = (length (filter f l) * length (filter g m))%nat.
Proof.
  intros A B f g l m. induction l as [|a l IH]; [reflexivity|]. cbn [list_prod filter]. rewrite filter_app, app_length, IH, filter_map_length. cbn [fst snd]. destruct (f a); cbn [andb length].
  - change (length (filter g m) + length (filter f l) * length (filter g m) = S (length (filter f l)) * length (filter g m))%nat. rewrite Nat.mul_succ_l. apply Nat.add_comm.
  - replace (length (filter (fun _ : B => false) m)) with 0%nat; [lia|]. clear. induction m; [reflexivity|exact IHm].
Qed.
Lemma around_solid : forall a b c p q r i j k, around (a, b, c) (solid p q r) (i, j, k) = 27 - near a p i * near b q j * near c r k.
Proof.
  intros a b c p q r i j k. assert (E : Z.of_nat (length (filter (fun o => solid p q r (wrap (a, b, c) (look (i, j, k) o))) offsets)) = near a p i * near b q j * near c r k).
  { unfold offsets, near. change (grid (3, 3, 3)) with (list_prod (list_prod (upto 3) (upto 3)) (upto 3)). rewrite <- !Nat2Z.inj_mul. apply (f_equal Z.of_nat). rewrite <- (prod_count (fun e => (i + 1 - e) mod a <? p) (fun e => (j + 1 - e) mod b <? q)). rewrite <- (prod_count (fun x : Z * Z => ((i + 1 - fst x) mod a <? p) && ((j + 1 - snd x) mod b <? q)) (fun e => (k + 1 - e) mod c <? r)). apply (f_equal (@length pos)). apply filter_ext. intros [[u v] z]. reflexivity. }
  unfold around. rewrite <- E. assert (S : forall (g : pos -> bool) l, Z.of_nat (length (filter (fun o => negb (g o)) l)) = Z.of_nat (length l) - Z.of_nat (length (filter g l))) by (intros g l; induction l as [|o l IH]; [reflexivity|]; cbn [filter]; destruct (g o); cbn [negb length]; lia). rewrite S. reflexivity.
Qed.
Lemma near_cases : forall n p i, 0 <= p -> p + 2 <= n -> 0 <= i < n -> 0 <= near n p i <= 3 /\ (p <= i -> near n p i <= 1).
Proof.
  intros n p i P N I. unfold near. change (upto 3) with [0; 1; 2]. cbn [filter]. assert (E1 : (i + 1 - 1) mod n = i) by (replace (i + 1 - 1) with i by lia; apply Z.mod_small; lia). rewrite E1. split; [destruct (_ <? p), (i <? p), (_ <? p); cbn; lia|]. intro Q. replace (i <? p) with false by (symmetry; apply Z.ltb_ge; lia).
  destruct (Z.ltb_spec ((i + 1 - 0) mod n) p) as [A|A], (Z.ltb_spec ((i + 1 - 2) mod n) p) as [B|B]; cbn; try lia. exfalso. destruct (Z.eq_dec i 0) as [->|NZ]; [|replace (i + 1 - 2) with (i - 1) in B by lia; rewrite (Z.mod_small (i - 1)) in B by lia].
  - rewrite (Z.mod_small (0 + 1 - 0)) in A by lia. lia.
  - replace (i + 1 - 0) with (i + 1) in A by lia. destruct (Z.eq_dec (i + 1) n) as [Z|Z]; [lia|]. rewrite Z.mod_small in A by lia. lia.
Qed.
Theorem C97_box_refuted : forall a b c p q r, 0 < p -> 0 < q -> 0 < r -> p + 2 <= a -> q + 2 <= b -> r + 2 <= c -> (genus (a, b, c) (solid p q r) == 1)%Q.
Proof.
  intros a b c p q r P Q R A B C. apply C97_quiet. intros [[i j] k] X S. apply grid_in in X. cbn [in_grid] in X. rewrite around_solid. unfold solid in S. destruct (near_cases a p i ltac:(lia) A ltac:(lia)) as [NI NI']. destruct (near_cases b q j ltac:(lia) B ltac:(lia)) as [NJ NJ']. destruct (near_cases c r k ltac:(lia) C ltac:(lia)) as [NK NK'].
  set (u := near a p i) in *. set (v := near b q j) in *. set (z := near c r k) in *. clearbody u v z. assert (SM : u <= 1 \/ v <= 1 \/ z <= 1). { apply andb_false_iff in S. destruct S as [S|S]; [apply andb_false_iff in S; destruct S as [S|S]|]; apply Z.ltb_ge in S; tauto. }
  assert (U : u = 0 \/ u = 1 \/ u = 2 \/ u = 3) by lia. assert (V : v = 0 \/ v = 1 \/ v = 2 \/ v = 3) by lia. assert (W : z = 0 \/ z = 1 \/ z = 2 \/ z = 3) by lia. destruct U as [->|[->|[->| ->]]], V as [->|[->|[->| ->]]], W as [->|[->|[->| ->]]]; cbn [In]; lia.
Qed.
Print Assumptions C97_box_refuted.
Example C97_box_refuted_sat : exists (a : Z) (b : Z) (c : Z) (p : Z) (q : Z) (r : Z), 0 < p /\ 0 < q /\ 0 < r /\ p + 2 <= a /\ q + 2 <= b /\ r + 2 <= c.
Proof. exists 10, 9, 8, 3, 4, 5. repeat split; lia. Qed.
(** A quarter turn in the plane of the first and last axes can change it. *)
Definition quarter02 (n : Z) (d : pos -> bool) : pos -> bool := fun x => let '(i, j, k) := x in d (k, j, n - 1 - i).
Definition bent (x : pos) : bool := negb (Z.eqb (stelf x) 1).
Theorem C97_axis_refuted : exists d, ~ (genus (4, 4, 4)%Z (quarter02 4%Z d) == genus (4, 4, 4)%Z d)%Q.
Proof. exists bent. rewrite !C97_background. vm_compute. discriminate. Qed.
Print Assumptions C97_axis_refuted.

(** * Concrete cases: a solid cube, and a cube-shaped hole, whose genus comes out as 0 *)
Example C97_sat : (genus (4, 4, 4)%Z (solid 2 2 2)%Z == 1)%Q /\ (genus (4, 4, 4)%Z (fun x => negb (solid 2 2 2 x)%Z) == 0)%Q.
Proof. split; [apply C97_box_refuted; lia|]. rewrite C97_background. vm_compute. reflexivity. Qed.
