(** C117: what [plot_2d_power] draws. *)
From Coq Require Import String List Bool ZArith Reals Lra Lia Permutation Sorted.
From Verif Require Import CallModel MeshModel.
Import ListNotations.
Local Open Scope string_scope.
Local Open Scope R_scope.

(** * Specification *)
(** [r] lists the positions of [xs] from the smallest number to the largest, all different. *)
Definition ranks (r : list nat) (xs : list R) : Prop := Permutation r (seq 0 (length xs)) /\ StronglySorted Rlt (map (fun i => nth i xs 0) r).
(** One row for each k perpendicular, one column for each k parallel. *)
Definition table (p : list (list R)) (n m : nat) : Prop := length p = n /\ forall row, In row p -> length row = m.
Definition at_ (p : list (list R)) (i j : nat) : R := nth j (nth i p []) 0.
(** The two ways to hand over a spectrum. *)
Definition given (ps : spectrum) (p : list (list R)) (kper kpar : list R) : Prop :=
  ps = Sequence [Table p; Vector kper; Vector kpar] \/
  exists d, ps = Dict d /\ get d "Pk" = Some (Table p) /\ get d "kper" = Some (Vector kper) /\ get d "kpar" = Some (Vector kpar).
Definition axes_of {axes} (d : drawing axes) : axes :=
  match d with Mesh a _ _ _ _ | Line a _ _ | Colorbar a _ | XLabel a _ | YLabel a _ | XScale a _ | YScale a _ => a end.
(** The colour range spans the values of the table. *)
Definition spans (p : list (list R)) (n m : nat) (range : R * R) : Prop :=
  (forall i j, (i < n)%nat -> (j < m)%nat -> fst range <= at_ p i j <= snd range) /\
  (exists i j, (i < n)%nat /\ (j < m)%nat /\ at_ p i j = fst range) /\ (exists i j, (i < n)%nat /\ (j < m)%nat /\ at_ p i j = snd range).

(** * Sorting and interpolation *)
Lemma insert_at_perm : forall A (p : R * A) l, Permutation (insert_at p l) (p :: l).
Proof. induction l as [|q l IH]; cbn; [reflexivity|]. destruct (Rle_dec _ _); [reflexivity|]. rewrite IH. apply perm_swap. Qed.
Lemma by_first_perm : forall A (l : list (R * A)), Permutation (by_first l) l.
Proof. induction l as [|p l IH]; cbn; [reflexivity|]. rewrite insert_at_perm. now constructor. Qed.
Lemma insert_at_sorted : forall A (p : R * A) l, StronglySorted (fun a b => fst a <= fst b) l -> StronglySorted (fun a b => fst a <= fst b) (insert_at p l).
Proof.
  induction l as [|q l IH]; intros H; cbn; [repeat constructor|]. destruct (Rle_dec _ _) as [L|L].
  - constructor; [exact H|]. inversion_clear H. constructor; [exact L|]. eapply Forall_impl; [|eassumption]. cbn; intros; lra.
  - inversion_clear H. constructor; [auto|]. apply Forall_forall. intros z Hz. apply (Permutation_in _ (insert_at_perm _ p l)) in Hz.
    destruct Hz as [<-|Hz]; [lra|]. eapply Forall_forall in H1; eauto.
Qed.
Lemma by_first_sorted : forall A (l : list (R * A)), StronglySorted (fun a b => fst a <= fst b) (by_first l).
Proof. induction l as [|p l IH]; cbn; [constructor|]. now apply insert_at_sorted. Qed.
Lemma sorted_unique : forall A (l m : list (R * A)), StronglySorted (fun a b => fst a < fst b) l -> StronglySorted (fun a b => fst a <= fst b) m -> Permutation m l -> m = l.
Proof.
  induction l as [|a l IH]; intros m Hl Hm P; [now apply Permutation_sym, Permutation_nil in P|].
  destruct m as [|b m]; [apply Permutation_nil in P; discriminate|]. inversion_clear Hl. inversion_clear Hm.
  assert (E : b = a).
  { pose proof (Permutation_in _ P (or_introl eq_refl)) as I1. pose proof (Permutation_in _ (Permutation_sym P) (or_introl eq_refl)) as I2.
    destruct I1 as [|I1]; [auto|]. destruct I2 as [|I2]; [auto|].
    rewrite Forall_forall in H0, H2. specialize (H0 _ I1). specialize (H2 _ I2). cbn in *. lra. }
  subst b. f_equal. apply IH; auto. now apply Permutation_cons_inv in P.
Qed.
Lemma nth_map_in : forall A B (f : A -> B) l n d d', (n < length l)%nat -> nth n (map f l) d = f (nth n l d').
Proof. induction l as [|a l IH]; intros [|n] d d' H; cbn in *; try lia; [reflexivity|]. apply IH. lia. Qed.
Lemma map_nth_seq : forall A (l : list A) d, map (fun i => nth i l d) (seq 0 (length l)) = l.
Proof.
  intros A l d. apply nth_ext with (d := d) (d' := d); [now rewrite map_length, seq_length|]. intros n Hn. rewrite map_length, seq_length in Hn.
  rewrite (nth_map_in _ _ _ _ _ _ 0%nat) by now rewrite seq_length. now rewrite seq_nth.
Qed.
Lemma combine_seq : forall A (xs : list R) (l : list A) d, length l = length xs -> combine xs l = map (fun i => (nth i xs 0, nth i l d)) (seq 0 (length xs)).
Proof.
  intros A xs l d L. apply nth_ext with (d := (0, d)) (d' := (0, d)); [rewrite combine_length, map_length, seq_length, L; lia|].
  intros n Hn. rewrite combine_length, L, Nat.min_id in Hn. rewrite combine_nth by auto.
  rewrite (nth_map_in _ _ _ _ _ _ 0%nat) by now rewrite seq_length. now rewrite seq_nth.
Qed.
Lemma sorted_map : forall A B (f : A -> B) (Rel : B -> B -> Prop) l, StronglySorted Rel (map f l) <-> StronglySorted (fun a b => Rel (f a) (f b)) l.
Proof.
  intros A B f Rel l. induction l as [|a l IH]; cbn; [split; constructor|]. split; intros H; inversion_clear H; constructor; try (now apply IH).
  - apply Forall_forall. intros x Hx. rewrite Forall_forall in H1. apply H1, in_map, Hx.
  - apply Forall_forall. intros x Hx. apply in_map_iff in Hx as (y & <- & Hy). rewrite Forall_forall in H1. now apply H1.
Qed.
Lemma by_first_ranks : forall A (xs : list R) (l : list A) d r, length l = length xs -> ranks r xs -> by_first (combine xs l) = map (fun i => (nth i xs 0, nth i l d)) r.
Proof.
  intros A xs l d r L (P & S). apply sorted_unique.
  - apply (proj2 (sorted_map _ _ _ _ _)). cbn. exact (proj1 (sorted_map _ _ _ _ _) S).
  - apply by_first_sorted.
  - rewrite by_first_perm, (combine_seq _ _ _ d L). apply Permutation_map, Permutation_sym, P.
Qed.
Lemma sorted_ranks : forall xs r, ranks r xs -> sorted xs = map (fun i => nth i xs 0) r.
Proof. intros xs r H. unfold sorted. rewrite (by_first_ranks _ xs xs 0 r eq_refl H), map_map. reflexivity. Qed.
Lemma rising_sorted : forall l, rising l = true <-> StronglySorted Rlt l.
Proof.
  intros l. split.
  - intros H. apply Sorted_StronglySorted; [intros a b c; lra|]. induction l as [|a [|b l] IH]; [constructor|repeat constructor|].
    cbn in H. destruct (Rlt_dec a b) as [L|]; [|discriminate]. constructor; [apply IH, H|constructor; exact L].
  - induction l as [|a [|b l] IH]; intros H; [reflexivity|reflexivity|]. inversion_clear H. cbn. inversion_clear H1.
    destruct (Rlt_dec a b); [|lra]. now apply IH.
Qed.
Lemma ranks_exist : forall xs, NoDup xs -> exists r, ranks r xs.
Proof.
  intros xs N. set (s := by_first (combine xs (seq 0 (length xs)))). exists (map snd s).
  assert (P : Permutation s (map (fun i => (nth i xs 0, i)) (seq 0 (length xs)))).
  { unfold s. rewrite by_first_perm, (combine_seq _ _ _ 0%nat) by apply seq_length. erewrite map_ext_in; [reflexivity|].
    intros i Hi. apply in_seq in Hi. now rewrite seq_nth by lia. }
  split; [rewrite P, map_map; cbn; now rewrite map_id|].
  assert (E : map (fun i => nth i xs 0) (map snd s) = map fst s).
  { rewrite map_map. apply map_ext_in. intros q Hq. apply (Permutation_in _ P) in Hq. apply in_map_iff in Hq as (i & <- & _). reflexivity. }
  rewrite E. assert (N' : NoDup (map fst s)).
  { eapply Permutation_NoDup; [apply Permutation_sym, Permutation_map, P|]. rewrite map_map. cbn. now rewrite map_nth_seq. }
  pose proof (by_first_sorted _ (combine xs (seq 0 (length xs)))) as S. fold s in S. clearbody s. clear P E.
  induction s as [|a s IH]; cbn in *; [constructor|]. inversion_clear S. inversion_clear N'. constructor; [auto|].
  apply Forall_forall. intros x Hx. pose proof Hx as Hx'. apply in_map_iff in Hx as (q & <- & Hq). rewrite Forall_forall in H0. specialize (H0 _ Hq).
  destruct (Req_dec (fst a) (fst q)) as [E|E]; [rewrite E in H1; contradiction|lra].
Qed.
Lemma ranks_nodup : forall r xs, ranks r xs -> NoDup xs.
Proof.
  intros r xs (P & S). rewrite <- (map_nth_seq _ xs 0). eapply Permutation_NoDup; [apply Permutation_map, P|].
  clear P. induction r as [|a r IH]; cbn in *; [constructor|]. inversion_clear S. constructor; [|auto].
  intros I. rewrite Forall_forall in H0. specialize (H0 _ I). lra.
Qed.
Lemma knots_iff : forall xs, knots xs = true <-> (2 <= length xs)%nat /\ NoDup xs.
Proof.
  intros xs. unfold knots. rewrite andb_true_iff, Nat.leb_le, rising_sorted. split; intros (L & H); (split; [exact L|]).
  - assert (P : Permutation (sorted xs) xs).
    { unfold sorted. rewrite (Permutation_map fst (by_first_perm _ (combine xs xs))). clear. induction xs; cbn; auto. }
    eapply Permutation_NoDup; [exact P|]. clear P. induction (sorted xs) as [|a l IH]; [constructor|]. inversion_clear H. constructor; [|auto].
    intros I. rewrite Forall_forall in H1. specialize (H1 _ I). lra.
  - destruct (ranks_exist xs H) as (r & Hr). rewrite (sorted_ranks _ _ Hr). apply Hr.
Qed.
Lemma lin_knot : forall l x y, StronglySorted Rlt (map fst l) -> In (x, y) l -> lin l x = y.
Proof.
  induction l as [|[x0 y0] l IH]; intros x y S I; [destruct I|]. destruct l as [|[x1 y1] l].
  - destruct I as [[= -> ->]|[]]. reflexivity.
  - cbn in S. inversion_clear S as [|? ? S' F]. inversion_clear F as [|? ? F0 F1]. cbn in F0. change (lin ((x0, y0) :: (x1, y1) :: l) x) with (if Rle_dec x x1 then y0 + (x - x0) * ((y1 - y0) / (x1 - x0)) else lin ((x1, y1) :: l) x).
    destruct I as [[= -> ->]|I].
    + destruct (Rle_dec x x1); [field; lra|lra].
    + destruct (Rle_dec x x1) as [L|L].
      * destruct I as [[= -> ->]|I]; [field; lra|]. inversion_clear S' as [|? ? S'' F']. rewrite Forall_forall in F'. specialize (F' x (in_map fst _ _ I)). lra.
      * apply IH; assumption.
Qed.

(** * The mesh *)
Lemma ranks_length : forall r xs, ranks r xs -> length r = length xs.
Proof. intros r xs (P & _). now rewrite (Permutation_length P), seq_length. Qed.
Lemma ranks_lt : forall r xs i, ranks r xs -> (i < length xs)%nat -> (nth i r 0 < length xs)%nat.
Proof. intros r xs i H Hi. destruct (H) as (P & _). assert (I : In (nth i r 0%nat) (seq 0 (length xs))) by (eapply Permutation_in; [exact P|apply nth_In; now rewrite (ranks_length _ _ H)]). apply in_seq in I. lia. Qed.
Lemma ranks_onto : forall r xs i, ranks r xs -> (i < length xs)%nat -> exists j, (j < length xs)%nat /\ nth j r 0%nat = i.
Proof.
  intros r xs i H Hi. destruct (H) as (P & _). assert (I : In i r) by (eapply Permutation_in; [apply Permutation_sym, P|apply in_seq; lia]).
  destruct (In_nth _ _ 0%nat I) as (j & Hj & E). exists j. split; [now rewrite <- (ranks_length _ _ H)|exact E].
Qed.
Lemma interp2d_ok : forall kper kpar p, table p (length kper) (length kpar) -> (2 <= length kper)%nat -> (2 <= length kpar)%nat -> NoDup kper -> NoDup kpar ->
  exists f, interp2d true kper kpar p = Returned f /\
    forall r c, ranks r kper -> ranks c kpar -> forall i j, (i < length kper)%nat -> (j < length kpar)%nat -> f (nth i kper 0) (nth j kpar 0) = at_ p i j.
Proof.
  intros kper kpar p (T1 & T2) L1 L2 N1 N2. unfold interp2d.
  assert (E : shaped p kper kpar && knots kper && knots kpar = true).
  { rewrite !andb_true_iff. repeat split; try (now apply knots_iff). unfold shaped. rewrite andb_true_iff. split; [now apply Nat.eqb_eq|].
    apply forallb_forall. intros row Hr. apply Nat.eqb_eq. auto. }
  rewrite E. eexists. split; [reflexivity|]. intros r c Hr Hc i j Hi Hj.
  rewrite (by_first_ranks _ kper p [] r T1 Hr), map_map. cbn.
  destruct (ranks_onto _ _ i Hr Hi) as (i' & Hi' & Ei). destruct (ranks_onto _ _ j Hc Hj) as (j' & Hj' & Ej).
  apply lin_knot.
  - rewrite map_map. cbn. apply Hr.
  - apply in_map_iff. exists i. split; [|rewrite <- Ei; apply nth_In; now rewrite (ranks_length _ _ Hr)]. f_equal.
    assert (Lr : length (nth i p []) = length kpar) by (apply T2, nth_In; lia).
    rewrite (by_first_ranks _ kpar (nth i p []) 0 c Lr Hc). apply lin_knot.
    + rewrite map_map. cbn. apply Hc.
    + apply in_map_iff. exists j. split; [reflexivity|rewrite <- Ej; apply nth_In; now rewrite (ranks_length _ _ Hc)].
Qed.
Definition cell (c : list (list R)) (i j : nat) : R := nth i (nth j c []) 0.
Lemma on_grid_cell : forall f xs ys r c i j, ranks r xs -> ranks c ys -> (i < length xs)%nat -> (j < length ys)%nat ->
  cell (on_grid f xs ys) i j = f (nth (nth i r 0%nat) xs 0) (nth (nth j c 0%nat) ys 0).
Proof.
  intros f xs ys r c i j Hr Hc Hi Hj. unfold cell, on_grid. rewrite (sorted_ranks _ _ Hr), (sorted_ranks _ _ Hc).
  rewrite (nth_map_in _ _ _ _ _ _ 0) by now rewrite map_length, (ranks_length _ _ Hc).
  rewrite (nth_map_in _ _ _ _ _ _ 0) by now rewrite map_length, (ranks_length _ _ Hr).
  rewrite (nth_map_in _ _ _ _ _ _ 0%nat) by now rewrite (ranks_length _ _ Hr). rewrite (nth_map_in _ _ _ _ _ _ 0%nat) by now rewrite (ranks_length _ _ Hc).
  reflexivity.
Qed.
Lemma on_grid_table : forall f xs ys r c, ranks r xs -> ranks c ys -> table (on_grid f xs ys) (length ys) (length xs).
Proof.
  intros f xs ys r c Hr Hc. unfold on_grid. rewrite (sorted_ranks _ _ Hr), (sorted_ranks _ _ Hc). split; [rewrite !map_length; apply (ranks_length _ _ Hc)|].
  intros row I. apply in_map_iff in I as (y & <- & _). rewrite !map_length. apply (ranks_length _ _ Hr).
Qed.
Lemma fold_min : forall l v, (forall x, In x (v :: l) -> fold_left Rmin l v <= x) /\ In (fold_left Rmin l v) (v :: l).
Proof.
  induction l as [|a l IH]; intros v; cbn [fold_left]; [split; [intros x [<-|[]]; lra|now left]|]. destruct (IH (Rmin v a)) as (H1 & H2). split.
  - intros x [<-|[<-|I]].
    + specialize (H1 _ (or_introl eq_refl)). pose proof (Rmin_l v a). lra.
    + specialize (H1 _ (or_introl eq_refl)). pose proof (Rmin_r v a). lra.
    + apply H1. now right.
  - destruct H2 as [H2|H2]; [|now right; right]. rewrite <- H2. unfold Rmin. destruct (Rle_dec v a); cbn; auto.
Qed.
Lemma fold_max : forall l v, (forall x, In x (v :: l) -> x <= fold_left Rmax l v) /\ In (fold_left Rmax l v) (v :: l).
Proof.
  induction l as [|a l IH]; intros v; cbn [fold_left]; [split; [intros x [<-|[]]; lra|now left]|]. destruct (IH (Rmax v a)) as (H1 & H2). split.
  - intros x [<-|[<-|I]].
    + specialize (H1 _ (or_introl eq_refl)). pose proof (Rmax_l v a). lra.
    + specialize (H1 _ (or_introl eq_refl)). pose proof (Rmax_r v a). lra.
    + apply H1. now right.
  - destruct H2 as [H2|H2]; [|now right; right]. rewrite <- H2. unfold Rmax. destruct (Rle_dec v a); cbn; auto.
Qed.
Lemma in_concat_cell : forall c n m v, table c n m -> In v (concat c) <-> exists i j, (i < m)%nat /\ (j < n)%nat /\ cell c i j = v.
Proof.
  intros c n m v (T1 & T2). rewrite in_concat. split.
  - intros (row & I1 & I2). destruct (In_nth _ _ [] I1) as (j & Hj & Ej). destruct (In_nth _ _ 0 I2) as (i & Hi & Ei).
    exists i, j. rewrite (T2 _ I1) in Hi. unfold cell. rewrite Ej. repeat split; auto. lia.
  - intros (i & j & Hi & Hj & <-). assert (I : In (nth j c []) c) by (apply nth_In; lia). exists (nth j c []). split; [exact I|]. apply nth_In. now rewrite (T2 _ I).
Qed.

Lemma colours_ok : forall kper kpar p r c, table p (length kper) (length kpar) -> (2 <= length kper)%nat -> (2 <= length kpar)%nat -> ranks r kper -> ranks c kpar ->
  exists f, interp2d true kper kpar p = Returned f /\ table (on_grid f kper kpar) (length kpar) (length kper) /\
    (forall i j, (i < length kper)%nat -> (j < length kpar)%nat -> cell (on_grid f kper kpar) i j = at_ p (nth i r 0%nat) (nth j c 0%nat)) /\
    exists range, extremes (on_grid f kper kpar) = Some range /\ spans p (length kper) (length kpar) range.
Proof.
  intros kper kpar p r c T L1 L2 Hr Hc. destruct (interp2d_ok kper kpar p T L1 L2 (ranks_nodup _ _ Hr) (ranks_nodup _ _ Hc)) as (f & E & V).
  exists f. split; [exact E|]. pose proof (on_grid_table f _ _ _ _ Hr Hc) as TC. split; [exact TC|].
  assert (V' : forall i j, (i < length kper)%nat -> (j < length kpar)%nat -> cell (on_grid f kper kpar) i j = at_ p (nth i r 0%nat) (nth j c 0%nat)).
  { intros i j Hi Hj. rewrite (on_grid_cell f _ _ r c) by assumption. apply (V r c Hr Hc); [now apply (ranks_lt _ _ _ Hr)|now apply (ranks_lt _ _ _ Hc)]. }
  split; [exact V'|].
  assert (M : forall v, In v (concat (on_grid f kper kpar)) <-> exists i j, (i < length kper)%nat /\ (j < length kpar)%nat /\ at_ p i j = v).
  { intros v. rewrite (in_concat_cell _ _ _ v TC). split.
    - intros (i & j & Hi & Hj & <-). rewrite V' by assumption. do 2 eexists. split; [apply (ranks_lt _ _ _ Hr Hi)|]. split; [apply (ranks_lt _ _ _ Hc Hj)|reflexivity].
    - intros (i & j & Hi & Hj & <-). destruct (ranks_onto _ _ i Hr Hi) as (i' & Hi' & Ei). destruct (ranks_onto _ _ j Hc Hj) as (j' & Hj' & Ej).
      exists i', j'. repeat split; auto. rewrite V' by assumption. now rewrite Ei, Ej. }
  unfold extremes. destruct (concat (on_grid f kper kpar)) as [|v l] eqn:Ec.
  - exfalso. apply (proj2 (M (at_ p 0 0))). exists 0%nat, 0%nat. repeat split; lia.
  - eexists. split; [reflexivity|]. destruct (fold_min l v) as (A1 & A2). destruct (fold_max l v) as (B1 & B2). unfold spans. cbn [fst snd]. split.
    + intros i j Hi Hj. assert (I : In (at_ p i j) (v :: l)) by (apply M; eauto). split; auto.
    + split; [exact (proj1 (M _) A2)|exact (proj1 (M _) B2)].
Qed.
Lemma unpack_given : forall ps p kper kpar, given ps p kper kpar -> unpack ps = Returned (Table p, Vector kper, Vector kpar).
Proof. intros ps p kper kpar [->|(d & -> & E1 & E2 & E3)]; cbn; [reflexivity|]. now rewrite E1, E2, E3. Qed.

(** Without a wedge: one mesh with the caller's wavenumbers, then colour bar, labels and scales; 1 is returned. The
    colour at (kper_i, kpar_j) is that of the i-th smallest kper and the j-th smallest kpar; on a logarithmic
    scale the colours range over the values of the table. *)
Theorem C117_drawn : forall (axes : Type) (fresh : axes) wedge ps p kper kpar r c xlabel ylabel label fig ax scale sx sy sz a,
  given ps p kper kpar -> table p (length kper) (length kpar) -> (2 <= length kper)%nat -> (2 <= length kpar)%nat -> ranks r kper -> ranks c kpar ->
  chosen_axes fresh fig ax = Returned a -> get scale "x" = Some sx -> get scale "y" = Some sy -> get scale "z" = Some sz ->
  exists colours range,
    plot_2d_power true fresh wedge ps xlabel ylabel label fig ax scale None =
      ([Mesh a kper kpar colours range; Colorbar a label; XLabel a xlabel; YLabel a ylabel; XScale a sx; YScale a sy], Returned 1%Z) /\
    table colours (length kpar) (length kper) /\
    (forall i j, (i < length kper)%nat -> (j < length kpar)%nat -> nth i (nth j colours []) 0 = at_ p (nth i r 0%nat) (nth j c 0%nat)) /\
    (if String.eqb sz "log" then exists lo_hi, range = Some lo_hi /\ spans p (length kper) (length kpar) lo_hi else range = None).
Proof.
  intros axes fresh wedge ps p kper kpar r c xlabel ylabel label fig ax scale sx sy sz a G T L1 L2 Hr Hc Ha Ex Ey Ez.
  destruct (colours_ok kper kpar p r c T L1 L2 Hr Hc) as (f & E & TC & V & range & Er & Hs).
  exists (on_grid f kper kpar), (if String.eqb sz "log" then Some range else None). split; [|split; [exact TC|split; [exact V|]]].
  - unfold plot_2d_power. rewrite (unpack_given _ _ _ _ G), E, Ha, Ez, Er. cbn [draw_line]. unfold finish. rewrite Ex, Ey. reflexivity.
  - destruct (String.eqb sz "log"); eauto.
Qed.
Print Assumptions C117_drawn.

(** The colours are right for every table exactly if both lists of wavenumbers increase. *)
Definition right_colours (kper kpar : list R) (out : list (drawing nat) * outcome Z) (p : list (list R)) : Prop :=
  exists colours range rest, fst out = Mesh 0%nat kper kpar colours range :: rest /\
    forall i j, (i < length kper)%nat -> (j < length kpar)%nat -> nth i (nth j colours []) 0 = at_ p i j.
Lemma sorted_ranks_id : forall xs, StronglySorted Rlt xs -> ranks (seq 0 (length xs)) xs.
Proof. intros xs H. split; [reflexivity|]. now rewrite map_nth_seq. Qed.
Lemma numbers_at : forall n m (g : nat -> nat -> R) i j, (i < n)%nat -> (j < m)%nat -> at_ (map (fun i => map (g i) (seq 0 m)) (seq 0 n)) i j = g i j.
Proof. intros n m g i j Hi Hj. unfold at_. rewrite (nth_map_in _ _ _ _ _ _ 0%nat) by now rewrite seq_length. rewrite (nth_map_in _ _ _ _ _ _ 0%nat) by now rewrite seq_length. now rewrite !seq_nth. Qed.
Lemma numbers_table : forall n m (g : nat -> nat -> R), table (map (fun i => map (g i) (seq 0 m)) (seq 0 n)) n m.
Proof. intros n m g. split; [now rewrite map_length, seq_length|]. intros row I. apply in_map_iff in I as (i & <- & _). now rewrite map_length, seq_length. Qed.
Theorem C117_right_iff_increasing : forall wedge kper kpar xlabel ylabel label scale sx sy sz,
  NoDup kper -> NoDup kpar -> (2 <= length kper)%nat -> (2 <= length kpar)%nat ->
  get scale "x" = Some sx -> get scale "y" = Some sy -> get scale "z" = Some sz ->
  ((forall p, table p (length kper) (length kpar) ->
     right_colours kper kpar (plot_2d_power true 0%nat wedge (Sequence [Table p; Vector kper; Vector kpar]) xlabel ylabel label None None scale None) p) <->
   StronglySorted Rlt kper /\ StronglySorted Rlt kpar).
Proof.
  intros wedge kper kpar xlabel ylabel label scale sx sy sz N1 N2 L1 L2 Ex Ey Ez.
  destruct (ranks_exist kper N1) as (r & Hr). destruct (ranks_exist kpar N2) as (c & Hc). split.
  - intros H.
    assert (K : forall g : nat -> nat -> R, forall i j, (i < length kper)%nat -> (j < length kpar)%nat -> g (nth i r 0%nat) (nth j c 0%nat) = g i j).
    { intros g i j Hi Hj. set (p := map (fun i => map (g i) (seq 0 (length kpar))) (seq 0 (length kper))).
      assert (T : table p (length kper) (length kpar)) by apply numbers_table. destruct (H p T) as (col & rg & rest & E & V).
      destruct (C117_drawn nat 0%nat wedge (Sequence [Table p; Vector kper; Vector kpar]) p kper kpar r c xlabel ylabel label None None scale sx sy sz 0%nat) as (col' & rg' & E' & _ & V' & _); auto.
      { now left. }
      rewrite E' in E. cbn [fst] in E. injection E as <- _ _. specialize (V i j Hi Hj). rewrite V' in V by assumption.
      unfold p in V. rewrite !numbers_at in V; auto; [now apply (ranks_lt _ _ _ Hr)|now apply (ranks_lt _ _ _ Hc)]. }
    assert (I1 : r = seq 0 (length kper)).
    { apply nth_ext with (d := 0%nat) (d' := 0%nat); [now rewrite (ranks_length _ _ Hr), seq_length|]. rewrite (ranks_length _ _ Hr). intros i Hi. rewrite seq_nth by assumption.
      pose proof (K (fun i _ => INR i) i 0%nat Hi ltac:(lia)) as E. now apply INR_eq in E. }
    assert (I2 : c = seq 0 (length kpar)).
    { apply nth_ext with (d := 0%nat) (d' := 0%nat); [now rewrite (ranks_length _ _ Hc), seq_length|]. rewrite (ranks_length _ _ Hc). intros j Hj. rewrite seq_nth by assumption.
      pose proof (K (fun _ j => INR j) 0%nat j ltac:(lia) Hj) as E. now apply INR_eq in E. }
    destruct Hr as (_ & Sr), Hc as (_ & Sc). rewrite I1, map_nth_seq in Sr. rewrite I2, map_nth_seq in Sc. now split.
  - intros (S1 & S2) p T.
    destruct (C117_drawn nat 0%nat wedge (Sequence [Table p; Vector kper; Vector kpar]) p kper kpar _ _ xlabel ylabel label None None scale sx sy sz 0%nat
      (or_introl eq_refl) T L1 L2 (sorted_ranks_id _ S1) (sorted_ranks_id _ S2) eq_refl Ex Ey Ez) as (col & rg & E & _ & V & _).
    exists col, rg. eexists. split; [rewrite E; reflexivity|]. intros i j Hi Hj. rewrite V by assumption. now rewrite !seq_nth.
Qed.
Print Assumptions C117_right_iff_increasing.

(** With wavenumbers from large to small the picture is mirrored: at (2, 1) is the value of (1, 1). *)
Theorem C117_mirrored_refuted : forall wedge xlabel ylabel label,
  exists colours range rest,
    plot_2d_power true 0%nat wedge (Sequence [Table [[10; 20]; [30; 40]]; Vector [2; 1]; Vector [1; 2]]) xlabel ylabel label None None [("x", "log"); ("y", "log"); ("z", "log")] None
      = (Mesh 0%nat [2; 1] [1; 2] colours range :: rest, Returned 1%Z) /\
    nth 0 (nth 0 colours []) 0 = 30 /\ nth 1 (nth 0 colours []) 0 = 10 /\ range = Some (10, 40).
Proof.
  intros wedge xlabel ylabel label.
  assert (Hr : ranks [1%nat; 0%nat] [2; 1]) by (split; [apply perm_swap|cbn; repeat constructor; lra]).
  assert (Hc : ranks [0%nat; 1%nat] [1; 2]) by (split; [reflexivity|cbn; repeat constructor; lra]).
  destruct (C117_drawn nat 0%nat wedge (Sequence [Table [[10; 20]; [30; 40]]; Vector [2; 1]; Vector [1; 2]]) [[10; 20]; [30; 40]] [2; 1] [1; 2] [1%nat; 0%nat] [0%nat; 1%nat]
    xlabel ylabel label None None [("x", "log"); ("y", "log"); ("z", "log")] "log" "log" "log" 0%nat) as (col & rg & E & _ & V & Rg); auto.
  { now left. } { split; [reflexivity|]. intros row [<-|[<-|[]]]; reflexivity. }
  exists col, rg. eexists. split; [exact E|]. rewrite !V by (cbn; lia). split; [reflexivity|]. split; [reflexivity|].
  destruct Rg as ((lo & hi) & -> & S1 & (i & j & Hi & Hj & A) & (i' & j' & Hi' & Hj' & B)). cbn [fst snd] in *. cbn in Hi, Hj, Hi', Hj'.
  pose proof (S1 0%nat 0%nat ltac:(cbn; lia) ltac:(cbn; lia)) as Q1. pose proof (S1 1%nat 1%nat ltac:(cbn; lia) ltac:(cbn; lia)) as Q2. unfold at_ in *. cbn in Q1, Q2.
  destruct i as [|[|]]; try lia; destruct j as [|[|]]; try lia; destruct i' as [|[|]]; try lia; destruct j' as [|[|]]; try lia; cbn in A, B; do 2 f_equal; lra.
Qed.
Print Assumptions C117_mirrored_refuted.

(** With a wedge, as by default, the call never returns: the mesh is drawn, and then an AttributeError leaves it
    without colour bar, labels and scales. *)
Theorem C117_wedge_never_returns : forall (axes : Type) available (fresh : axes) wedge ps xlabel ylabel label fig ax scale d,
  forall v, snd (plot_2d_power available fresh wedge ps xlabel ylabel label fig ax scale (Some d)) <> Returned v.
Proof.
  intros axes available fresh wedge ps xlabel ylabel label fig ax scale d v. unfold plot_2d_power. destruct (unpack ps) as [[[[p|k|s] [p'|k'|s']] [p''|k''|s'']]|e]; cbn; try discriminate.
  destruct (interp2d _ _ _ _); cbn; try discriminate. destruct (chosen_axes _ _ _); cbn; try discriminate. destruct (get scale "z"); cbn; try discriminate.
  destruct (get d "z"), (get d "fov_deg"); cbn; discriminate.
Qed.
Print Assumptions C117_wedge_never_returns.
Theorem C117_default_refuted : forall (axes : Type) (fresh : axes) wedge ps p kper kpar xlabel ylabel label fig ax scale sz a d z fov,
  given ps p kper kpar -> table p (length kper) (length kpar) -> (2 <= length kper)%nat -> (2 <= length kpar)%nat -> NoDup kper -> NoDup kpar ->
  chosen_axes fresh fig ax = Returned a -> get scale "z" = Some sz -> get d "z" = Some z -> get d "fov_deg" = Some fov ->
  exists colours range, plot_2d_power true fresh wedge ps xlabel ylabel label fig ax scale (Some d) = ([Mesh a kper kpar colours range], Raised "AttributeError").
Proof.
  intros axes fresh wedge ps p kper kpar xlabel ylabel label fig ax scale sz a d z fov G T L1 L2 N1 N2 Ha Ez Dz Df.
  destruct (interp2d_ok kper kpar p T L1 L2 N1 N2) as (f & E & _). do 2 eexists. unfold plot_2d_power. rewrite (unpack_given _ _ _ _ G), E, Ha, Ez. cbn [draw_line]. rewrite Dz, Df. reflexivity.
Qed.
Print Assumptions C117_default_refuted.

(** Everything is drawn on one set of axes: the first of the figure if one is given, whatever [ax] is, then [ax],
    then new ones. A figure without axes gives an IndexError and nothing is drawn. *)
Theorem C117_axes : forall (axes : Type) available (fresh : axes) wedge ps xlabel ylabel label fig ax scale w,
  Forall (fun d => Some (axes_of d) = match fig, ax with Some l, _ => hd_error l | None, Some a => Some a | None, None => Some fresh end)
    (fst (plot_2d_power available fresh wedge ps xlabel ylabel label fig ax scale w)).
Proof.
  intros axes available fresh wedge ps xlabel ylabel label fig ax scale w. unfold plot_2d_power. destruct (unpack ps) as [[[[p|k|s] [p'|k'|s']] [p''|k''|s'']]|e]; cbn; try constructor.
  destruct (interp2d _ _ _ _) as [f|]; cbn; try constructor. destruct (chosen_axes fresh fig ax) as [a|] eqn:Ha; cbn; try constructor. destruct (get scale "z"); cbn; try constructor.
  assert (Ea : Some a = match fig, ax with Some l, _ => hd_error l | None, Some a => Some a | None, None => Some fresh end).
  { destruct fig as [[|]|], ax; cbn in *; congruence. }
  assert (F : forall lines, Forall (fun d => axes_of d = a) lines -> Forall (fun d => Some (axes_of d) = Some a) (fst (finish a xlabel ylabel label scale lines))).
  { intros lines Hl. unfold finish. assert (Hl' : Forall (fun d => Some (axes_of d) = Some a) lines) by (eapply Forall_impl; [|exact Hl]; cbn; intros; congruence).
    destruct (get scale "x"), (get scale "y"); cbn; rewrite ?Forall_app; repeat split; auto; repeat constructor. }
  rewrite <- Ea. destruct w as [d|]; cbn; [|apply F; repeat constructor].
  destruct (get d "z"), (get d "fov_deg"); cbn; repeat constructor.
Qed.
Print Assumptions C117_axes.
Theorem C117_no_axes : forall (axes : Type) (fresh : axes) wedge ps p kper kpar xlabel ylabel label ax scale w,
  given ps p kper kpar -> table p (length kper) (length kpar) -> (2 <= length kper)%nat -> (2 <= length kpar)%nat -> NoDup kper -> NoDup kpar ->
  plot_2d_power true fresh wedge ps xlabel ylabel label (Some []) ax scale w = ([], Raised "IndexError").
Proof.
  intros axes fresh wedge ps p kper kpar xlabel ylabel label ax scale w G T L1 L2 N1 N2.
  destruct (interp2d_ok kper kpar p T L1 L2 N1 N2) as (f & E & _). unfold plot_2d_power. rewrite (unpack_given _ _ _ _ G), E. reflexivity.
Qed.
Print Assumptions C117_no_axes.

(** Refusals before anything is drawn: a dictionary without one of the keys is unpacked into its keys, which is an
    AttributeError if there are three of them and a ValueError otherwise; equal or single wavenumbers and
    wrong shapes are ValueErrors; a scipy without interp2d refuses everything; without a scale for the colours
    the axes stay empty, without one for an axis the picture is complete but for that scale. *)
Theorem C117_refused : forall (axes : Type) (fresh : axes) wedge xlabel ylabel label fig ax scale w,
  (forall available d, get d "Pk" = None \/ get d "kper" = None \/ get d "kpar" = None ->
     plot_2d_power available fresh wedge (Dict d) xlabel ylabel label fig ax scale w = ([], Raised (if Nat.eqb (length d) 3 then "AttributeError" else "ValueError"))) /\
  (forall ps p kper kpar, given ps p kper kpar -> ~ table p (length kper) (length kpar) \/ (length kper < 2)%nat \/ (length kpar < 2)%nat \/ ~ NoDup kper \/ ~ NoDup kpar ->
     plot_2d_power true fresh wedge ps xlabel ylabel label fig ax scale w = ([], Raised "ValueError")) /\
  (forall ps p kper kpar, given ps p kper kpar -> plot_2d_power false fresh wedge ps xlabel ylabel label fig ax scale w = ([], Raised "NotImplementedError")) /\
  (forall available ps v, snd (plot_2d_power available fresh wedge ps xlabel ylabel label fig ax scale w) = Returned v ->
     v = 1%Z /\ get scale "x" <> None /\ get scale "y" <> None /\ get scale "z" <> None).
Proof.
  intros axes fresh wedge xlabel ylabel label fig ax scale w. split; [|split; [|split]].
  - intros available d H. unfold plot_2d_power. cbn [unpack].
    assert (E : match get d "Pk", get d "kper", get d "kpar" with Some p, Some x, Some y => Returned (p, x, y) | _, _, _ => three (map (fun kv => Text (fst kv)) d) end = three (map (fun kv => Text (fst kv)) d)).
    { destruct (get d "Pk"), (get d "kper"), (get d "kpar"); try reflexivity. destruct H as [H|[H|H]]; discriminate. }
    rewrite E. destruct d as [|a [|b [|c [|]]]]; reflexivity.
  - intros ps p kper kpar G H. unfold plot_2d_power. rewrite (unpack_given _ _ _ _ G). unfold interp2d.
    assert (E : shaped p kper kpar && knots kper && knots kpar = false).
    { apply not_true_is_false. rewrite !andb_true_iff, !knots_iff. unfold shaped. rewrite andb_true_iff, Nat.eqb_eq, forallb_forall.
      intros (((S1 & S2) & K1 & K2) & K3 & K4). destruct H as [H|[H|[H|[H|H]]]]; try lia; try contradiction. apply H. split; [exact S1|]. intros row I. now apply Nat.eqb_eq, S2. }
    now rewrite E.
  - intros ps p kper kpar G. unfold plot_2d_power. now rewrite (unpack_given _ _ _ _ G).
  - intros available ps v. unfold plot_2d_power. destruct (unpack ps) as [[[[p|k|s] [p'|k'|s']] [p''|k''|s'']]|e]; cbn; try discriminate.
    destruct (interp2d _ _ _ _); cbn; try discriminate. destruct (chosen_axes _ _ _); cbn; try discriminate. destruct (get scale "z"); cbn; try discriminate.
    destruct (draw_line _ _ _ _); cbn; try discriminate. unfold finish. destruct (get scale "x"), (get scale "y"); cbn; try discriminate. intros [= <-]. repeat split; discriminate.
Qed.
Print Assumptions C117_refused.

Example C117_sat :
  given (Dict [("kpar", Vector [1; 2]); ("Pk", Table [[10; 20]; [30; 40]; [50; 60]]); ("n", Text "x"); ("kper", Vector [3; 1; 2])]) [[10; 20]; [30; 40]; [50; 60]] [3; 1; 2] [1; 2] /\
  table [[10; 20]; [30; 40]; [50; 60]] 3 2 /\ ranks [1%nat; 2%nat; 0%nat] [3; 1; 2] /\ ranks [0%nat; 1%nat] [1; 2] /\ NoDup [3; 1; 2] /\
  chosen_axes 0%nat (Some [4%nat; 5%nat]) (Some 7%nat) = Returned 4%nat /\ get [("x", "log"); ("y", "linear"); ("z", "log")] "y" = Some "linear" /\
  StronglySorted Rlt [1; 2] /\ ~ StronglySorted Rlt [3; 1; 2] /\ get [("Pk", Text "p"); ("k", Text "k")] "kper" = None.
Proof.
  repeat split; try reflexivity.
  - right. eexists. repeat split; reflexivity.
  - intros row [<-|[<-|[<-|[]]]]; reflexivity.
  - cbn. apply Permutation_sym. eapply perm_trans; [apply perm_swap|]. apply perm_skip, perm_swap.
  - cbn. repeat constructor; lra.
  - cbn. repeat constructor; lra.
  - repeat constructor; cbn; intros H; repeat destruct H as [H|H]; lra.
  - repeat constructor; lra.
  - intros H. inversion_clear H. inversion_clear H1. lra.
Qed.
