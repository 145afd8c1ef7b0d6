(** Properties C16 and C17: Betti numbers, friends-of-friends. *)
From Coq Require Import List Arith ZArith Bool Lia.
From Coq Require Import Relations.Relation_Operators Sorting.Permutation.
From Verif Require Import FofModel FofSpec FofProofs CubeModel CubeSpec CubeEuler CubeProps BettiModel.
Import ListNotations.
Local Open Scope nat_scope.

(** ** C17 *)

(** As shipped, every input gives an all-zero map and no sizes. *)
Theorem C17_fof_search_shipped : forall shape above late,
  FoF_search shape above late = Some (fun _ => 0, []).
Proof. reflexivity. Qed.
Print Assumptions C17_fof_search_shipped.

(** With the points kept in a list, the search terminates and labels the connected
    components, for arrays of every dimension and shape, provided [q.empty()] never
    answers True while an item is in flight. *)
Theorem C17_fof_search_list : forall shape above late, ~ In true late ->
  exists m sizes, FoF_search_list shape above late = Some (m, sizes) /\ labelling 1 shape above m sizes.
Proof. exact FoF_list_ok. Qed.
Print Assumptions C17_fof_search_list.
Example C17_fof_search_list_sat : exists late, ~ In true late.
Proof. exists [false; false]. intros [E|[E|[]]]; discriminate. Qed.

(** Without that proviso a single early "empty" splits a component. *)
Theorem C17_fof_search_queue_race_refuted :
  exists shape above late m sizes, FoF_search_list shape above late = Some (m, sizes)
    /\ ~ labelling 1 shape above m sizes.
Proof.
  exists [2], (fun _ => true), [true].
  eexists. eexists. split; [vm_compute; reflexivity|].
  intros (_ & H & _). specialize (H [0%Z] [1%Z]).
  assert (C : forall x, (0 <= x < 2)%Z -> cell_of [2] (fun _ => true) [x]) by (intros x Hx; split; [repeat constructor; lia|reflexivity]).
  destruct (H (C 0%Z ltac:(lia)) (C 1%Z ltac:(lia))) as [_ K].
  assert (G : connected 1 (cell_of [2] (fun _ : list Z => true)) [0%Z] [1%Z]).
  { apply rt_step. split; [apply C; lia|]. split; [apply C; lia|]. split; [repeat constructor; lia|cbn; lia]. }
  specialize (K G). vm_compute in K. discriminate.
Qed.
Print Assumptions C17_fof_search_queue_race_refuted.

(** [fof] labels the components of the chosen connectivity; its list of sizes is
    complete exactly when some cell is outside the set, and otherwise lacks the first. *)
Lemma unique_counts_ok r shape (A : coord -> bool) (m : labels) sizes : labelling r shape A m sizes ->
  unique_counts shape m (length sizes)
  = (if existsb (fun c => negb (A c)) (all_coords shape)
     then [length (filter (fun c => Nat.eqb (m c) 0) (all_coords shape))] else []) ++ sizes.
Proof.
  intros (H1 & H2 & H3 & H4). unfold unique_counts. cbn [seq map filter].
  assert (E : map (fun g => length (filter (fun c => Nat.eqb (m c) g) (all_coords shape))) (seq 1 (length sizes)) = sizes).
  { apply nth_ext with (d := 0) (d' := 0); [now rewrite map_length, seq_length|]. rewrite map_length, seq_length. intros i Hi.
    set (f := fun g => length (filter (fun c => Nat.eqb (m c) g) (all_coords shape))).
    rewrite (nth_indep _ 0 (f 0)) by now rewrite map_length, seq_length.
    rewrite (map_nth f). rewrite seq_nth by assumption. unfold f.
    destruct (H4 (1 + i) ltac:(lia)) as (cs & ND & _ & L & Hc). replace (1 + i - 1) with i in L by lia. rewrite <- L.
    apply Permutation_length. apply NoDup_Permutation; [apply NoDup_filter, all_coords_nodup|assumption|].
    intros c. rewrite filter_In, all_coords_spec, Nat.eqb_eq, Hc. split; [tauto|]. intros Em. split; [|assumption].
    apply (H1 c). lia. }
  assert (F : filter (fun k => negb (Nat.eqb k 0)) sizes = sizes).
  { assert (P : Forall (fun k => k <> 0) sizes).
    { apply Forall_forall. intros k Hk. apply In_nth with (d := 0) in Hk as (i & Hi & <-).
      destruct (H4 (1 + i) ltac:(lia)) as (cs & _ & Hne & L & _). replace (1 + i - 1) with i in L by lia. rewrite <- L.
      destruct cs; [contradiction|discriminate]. }
    clear -P. induction P as [|k l Hk P IH]; [reflexivity|]. cbn [filter]. destruct k; [contradiction|]. cbn. now rewrite IH. }
  rewrite E, F.
  assert (Z0 : existsb (fun c => negb (A c)) (all_coords shape) = negb (Nat.eqb (length (filter (fun c => Nat.eqb (m c) 0) (all_coords shape))) 0)).
  { apply eq_true_iff_eq. rewrite existsb_exists, negb_true_iff, Nat.eqb_neq. split.
    - intros (c & Hc & Ec). assert (G : In c (filter (fun c => Nat.eqb (m c) 0) (all_coords shape))).
      { apply filter_In. split; [assumption|]. apply Nat.eqb_eq. destruct (m c) eqn:Em; [reflexivity|]. exfalso.
        assert (Hm : m c <> 0) by lia. apply H1 in Hm as [_ Hm]. rewrite Hm in Ec. discriminate. }
      destruct (filter (fun c => Nat.eqb (m c) 0) (all_coords shape)) as [|y l]; [contradiction|discriminate].
    - intros Hl. destruct (filter (fun c => Nat.eqb (m c) 0) (all_coords shape)) as [|c l] eqn:Ef; [contradiction|].
      assert (G : In c (c :: l)) by now left. rewrite <- Ef in G. apply filter_In in G as [G1 G2]. exists c. split; [assumption|].
      apply Nat.eqb_eq in G2. destruct (A c) eqn:Ea; [|reflexivity]. exfalso.
      assert (Hm : cell_of shape A c) by (split; [now apply all_coords_spec|assumption]). apply H1 in Hm. lia. }
  rewrite Z0. destruct (Nat.eqb _ 0); reflexivity.
Qed.
Theorem C17_fof_sizes : forall r shape A, exists m sizes,
  fof r shape A = Some (m, if existsb (fun c => negb (A c)) (all_coords shape) then sizes else tl sizes)
  /\ labelling r shape A m sizes.
Proof.
  intros r shape A. destruct (label_ok r shape A) as (m & sizes & E & L). exists m, sizes. split; [|exact L].
  unfold fof. rewrite E. rewrite (unique_counts_ok r shape A m sizes L).
  destruct (existsb (fun c => negb (A c)) (all_coords shape)); reflexivity.
Qed.
Print Assumptions C17_fof_sizes.

(** So a fully ionized box reports no region at all. *)
Lemma full_components r shape : 1 <= r -> Forall (fun n => 0 < n) shape -> components r shape (fun _ => true) 1.
Proof.
  intros Hr Hs. set (z := map (fun _ : nat => 0%Z) shape).
  assert (Hz : in_shape shape z) by (unfold in_shape, z; clear -Hs; induction Hs; constructor; [lia|assumption]).
  exists [z]. split; [reflexivity|]. split; [repeat constructor; intros []|]. split.
  { intros c [<-|[]]. now split. }
  split; [intros c d [<-|[]] [<-|[]] _; reflexivity|].
  assert (near_refl : forall l, neighbours r l l).
  { intros l. split; [induction l; constructor; [lia|assumption]|].
    replace (differ l l) with 0; [lia|]. induction l as [|x l IH]; [reflexivity|]. cbn [differ]. rewrite Z.eqb_refl. exact IH. }
  assert (G : forall c, in_shape shape c -> connected r (cell_of shape (fun _ => true)) c z).
  { clear Hz. subst z. induction Hs as [|n shape Hn Hs IH]; intros c Hc; inversion Hc as [|? x ? c' Hx Hc']; subst.
    - apply rt_refl.
    - cbn [map]. apply rt_trans with (0%Z :: c').
      + replace x with (Z.of_nat (Z.to_nat x)) by lia. assert (Hx' : Z.to_nat x < n) by lia.
        clear Hx Hc. induction (Z.to_nat x) as [|k IHk]; [apply rt_refl|].
        apply rt_trans with (Z.of_nat k :: c'); [|apply IHk; lia].
        apply rt_step. split; [|split].
        * split; [constructor; [lia|assumption]|reflexivity].
        * split; [constructor; [lia|assumption]|reflexivity].
        * destruct (near_refl c') as [N1 _]. split; [constructor; [lia|assumption]|]. cbn [differ].
          replace (differ c' c') with 0; [destruct (Z.eqb _ _); lia|].
          clear. induction c' as [|y c' IH]; [reflexivity|]. cbn [differ]. rewrite Z.eqb_refl. exact IH.
      + specialize (IH c' Hc'). clear Hx Hc. induction IH as [a b (Ha & Hb & [N1 N2])|a|a b e R1 I1 R2 I2].
        * apply rt_step. destruct Ha as [Ha _], Hb as [Hb _]. split; [|split].
          -- split; [constructor; [lia|assumption]|reflexivity].
          -- split; [constructor; [lia|assumption]|reflexivity].
          -- split; [constructor; [lia|assumption]|]. cbn [differ]. exact N2.
        * apply rt_refl.
        * assert (Hb : in_shape shape b) by (apply (connected_cell _ _ _ _ R1); split; [assumption|reflexivity]).
          eapply rt_trans; eauto. }
  intros c [Hc _]. exists z. split; [now left|]. now apply G.
Qed.
Theorem C17_fof_full_box : forall r shape, 1 <= r -> Forall (fun n => 0 < n) shape ->
  exists m, fof r shape (fun _ => true) = Some (m, []).
Proof.
  intros r shape Hr Hs. destruct (C17_fof_sizes r shape (fun _ => true)) as (m & sizes & E & L).
  exists m. rewrite E. replace (existsb (fun c => negb true) (all_coords shape)) with false.
  - apply labelling_components in L. pose proof (components_unique _ _ _ _ _ L (full_components r shape Hr Hs)) as Len.
    destruct sizes as [|s [|s' l]]; try discriminate. reflexivity.
  - symmetry. clear. induction (all_coords shape) as [|c l IH]; [reflexivity|exact IH].
Qed.
Print Assumptions C17_fof_full_box.
Example C17_fof_full_box_sat : exists r shape, 1 <= r /\ Forall (fun n => 0 < n) shape.
Proof. exists 1, [3; 4]. split; [lia|repeat constructor; lia]. Qed.

Example C17_sat :
  (exists m, FoF_search_list [3; 3] (fun c => negb (Z.eqb (nth 0 c 0%Z) 1)) [] = Some (m, [3; 3]) /\ m [2%Z; 0%Z] = 2)
  /\ (exists m, fof 1 [2; 2] (fun c => Z.eqb (nth 0 c 0%Z) (nth 1 c 0%Z)) = Some (m, [1; 1]))
  /\ (exists m, fof 2 [2; 2] (fun c => Z.eqb (nth 0 c 0%Z) (nth 1 c 0%Z)) = Some (m, [2])).
Proof. repeat split; eexists; try split; vm_compute; reflexivity. Qed.

(** ** C16 *)

Theorem C16_betti_components : forall shape neighbors A,
  let r := if (Z.eqb neighbors 6 || Z.eqb neighbors 4)%bool then 1 else 2 in
  exists b0 b2, betti0 shape neighbors A = Some b0 /\ components r shape A b0
    /\ betti2 shape neighbors A = Some b2 /\ components r shape (fun c => negb (A c)) b2.
Proof.
  intros shape nb A r. destruct (label_num_ok r shape A) as (b0 & E0 & C0).
  destruct (label_num_ok r shape (fun c => negb (A c))) as (b2 & E2 & C2). exists b0, b2. auto.
Qed.
Print Assumptions C16_betti_components.

(** The number of components is unique, so the previous theorem pins both values. *)
Theorem C16_components_unique : forall r shape A n n',
  components r shape A n -> components r shape A n' -> n = n'.
Proof. exact components_unique. Qed.
Print Assumptions C16_components_unique.
Example C16_components_unique_sat : components 1 [3; 1] (fun c => negb (coord_eqb c [1; 0]%Z)) 2.
Proof. destruct (label_num_ok 1 [3; 1] (fun c => negb (coord_eqb c [1; 0]%Z))) as (n & E & C). vm_compute in E. injection E as <-. exact C. Qed.

Theorem C16_euler_poincare : forall nx ny nz neighbors A, exists b0 b1 b2,
  betti0 [nx; ny; nz] neighbors A = Some b0 /\ betti1 nx ny nz neighbors A = Some b1
  /\ betti2 [nx; ny; nz] neighbors A = Some b2
  /\ (Z.of_nat b0 - b1 + Z.of_nat b2
      = if (Z.eqb neighbors 6 || Z.eqb neighbors 4)%bool then chi6 nx ny nz (as_idx A) else chi26 nx ny nz (as_idx A))%Z.
Proof.
  intros nx ny nz nb A. destruct (C16_betti_components [nx; ny; nz] nb A) as (b0 & b2 & E0 & _ & E2 & _).
  unfold betti1. rewrite E0, E2. eexists. eexists. eexists. repeat split. rewrite C15_euler. lia.
Qed.
Print Assumptions C16_euler_poincare.

(** But the components do not wrap around the box while the Euler characteristic
    does, and the background counts as a void: the empty box gets [b1 = 1] (a
    point-free set has none), the full box [b1 = 1] (a 3-torus has 3). *)
Lemma empty_components r shape : components r shape (fun _ => false) 0.
Proof.
  exists []. split; [reflexivity|]. split; [constructor|]. split; [intros c []|]. split; [intros c d []|].
  intros c [_ H]. discriminate.
Qed.
Lemma count_const nx ny nz P v : (forall c, P c = v) ->
  count nx ny nz P = if v then Z.of_nat (length (cells (seq 0 nx) ny nz)) else 0%Z.
Proof.
  intros H. unfold count. destruct v.
  - f_equal. f_equal. induction (cells (seq 0 nx) ny nz) as [|c l IH]; [reflexivity|]. cbn [filter]. now rewrite H, IH.
  - induction (cells (seq 0 nx) ny nz) as [|c l IH]; [reflexivity|]. cbn [filter]. rewrite H. exact IH.
Qed.
Theorem C16_betti_empty_full : forall nx ny nz neighbors v, 0 < nx -> 0 < ny -> 0 < nz ->
  betti0 [nx; ny; nz] neighbors (fun _ => v) = Some (if v then 1 else 0)
  /\ betti1 nx ny nz neighbors (fun _ => v) = Some 1%Z
  /\ betti2 [nx; ny; nz] neighbors (fun _ => v) = Some (if v then 0 else 1).
Proof.
  intros nx ny nz nb v Hx Hy Hz.
  destruct (C16_betti_components [nx; ny; nz] nb (fun _ => v)) as (b0 & b2 & E0 & C0 & E2 & C2).
  set (r := if (Z.eqb nb 6 || Z.eqb nb 4)%bool then 1 else 2) in *.
  assert (Hr : 1 <= r) by (unfold r; destruct (_ || _)%bool; lia).
  assert (F : components r [nx; ny; nz] (fun _ => true) 1) by (apply full_components; [assumption|repeat constructor; assumption]).
  assert (N : components r [nx; ny; nz] (fun _ => false) 0) by apply empty_components.
  assert (X : EulerCharacteristic nx ny nz nb (as_idx (fun _ => v)) = 0%Z).
  { rewrite C15_euler. destruct (_ || _)%bool; unfold chi6, chi26; rewrite ?(count_const _ _ _ _ v); try (destruct v; lia);
      intros [[i j] k]; cbn; destruct v; reflexivity. }
  unfold betti1. rewrite E0, E2, X. destruct v; cbn [negb] in C2.
  - rewrite (components_unique _ _ _ _ _ C0 F), (components_unique _ _ _ _ _ C2 N). repeat split.
  - rewrite (components_unique _ _ _ _ _ C0 N), (components_unique _ _ _ _ _ C2 F). repeat split.
Qed.
Print Assumptions C16_betti_empty_full.
Example C16_betti_empty_full_sat : exists (nx : nat) (ny : nat) (nz : nat), 0 < nx /\ 0 < ny /\ 0 < nz.
Proof. exists 3%nat, 4%nat, 5%nat. repeat split; lia. Qed.

(** A periodic shift leaves chi alone but changes betti0. *)
Theorem C16_betti0_shift_refuted : exists nx ny nz A B,
  (forall c, as_idx B c = as_idx A (shift nx ny nz 1 0 0 c)) /\
  (forall neighbors, EulerCharacteristic nx ny nz neighbors (as_idx A) = EulerCharacteristic nx ny nz neighbors (as_idx B)) /\
  betti0 [nx; ny; nz] 6 A = Some 2 /\ betti0 [nx; ny; nz] 6 B = Some 1.
Proof.
  set (A := fun c : coord => negb (Z.eqb (nth 0 c 0%Z) 1)).
  exists 3, 1, 1, A, (fun c => match c with x :: _ => negb (Z.eqb ((x + 1) mod 3) 1) | _ => false end).
  assert (S : forall c, as_idx (fun c => match c with x :: _ => negb (Z.eqb ((x + 1) mod 3) 1) | _ => false end) c
                        = as_idx A (shift 3 1 1 1 0 0 c)).
  { intros [[i j] k]. unfold as_idx, A. change (shift 3 1 1 1 0 0 (i, j, k)) with (((i + 1) mod 3, j, k)). cbn [nth].
    rewrite Nat2Z.inj_mod, Nat2Z.inj_add. reflexivity. }
  split; [exact S|]. split.
  - intros nb. rewrite <- (C15_euler_translation 3 1 1 nb (as_idx A) 1 0 0) by lia. rewrite !C15_euler.
    unfold chi6, chi26, count. 
    destruct (_ || _)%bool; repeat (f_equal; try (apply filter_ext; intros c; now rewrite !S)).
  - split; vm_compute; reflexivity.
Qed.
Print Assumptions C16_betti0_shift_refuted.

(** An isolated voxel: one component, one "void" (the background) and a spurious loop. *)
Example C16_sat : let A := fun c => coord_eqb c [1%Z; 1%Z; 1%Z] in
  betti0 [3; 3; 3] 6 A = Some 1 /\ betti2 [3; 3; 3] 6 A = Some 1 /\ betti1 3 3 3 6 A = Some 1%Z.
Proof. repeat split; vm_compute; reflexivity. Qed.
