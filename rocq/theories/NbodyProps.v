(** C80: reading particle files. *)
From Coq Require Import List ZArith Arith Lia Bool.
From Verif Require Import NbodyModel.
Import ListNotations.

(** * Specification *)
(** A pair of files that is complete: headers agree, six numbers and one identifier for each particle. *)
Definition complete {A} (pid_file : bool) (f : node A) : Prop :=
  z_ok f = true /\ 6 * count_xv f <= length (data f) /\ (pid_file = true -> z_ok_pid f = true /\ count_pid f = count_xv f /\ count_xv f <= length (pids f)).
(** Particle i when the file stores all first components, then all second components, ... *)
Definition component_major {A} (f : node A) (d0 : A) (i : nat) : list A := map (fun j => nth (i + count_xv f * j) (data f) d0) [0; 1; 2; 3; 4; 5].
(** Particle i when the file stores particle after particle. *)
Definition particle_major {A} (f : node A) (d0 : A) (i : nat) : list A := map (fun j => nth (6 * i + j) (data f) d0) [0; 1; 2; 3; 4; 5].
Definition all_particles {A} (pid_file : bool) (d0 : A) (f : node A) : list (particle A) :=
  map (fun i => let c := component_major f d0 i in {| pos := firstn 3 c; vel := skipn 3 c; pid := if pid_file then nth i (pids f) 0%Z else 0%Z |}) (seq 0 (count_xv f)).
Definition total_count {A} (fs : list (node A)) : nat := list_sum (map count_xv fs).

Lemma skipn_nth : forall {A} (l : list A) k d, k < length l -> firstn 1 (skipn k l) = [nth k l d].
Proof. intros A l. induction l as [|x l IH]; intros k d H; [cbn in H; lia|]. destruct k; [reflexivity|]. cbn [skipn nth]. apply IH. cbn in H. lia. Qed.
Lemma nth_firstn : forall {A} (l : list A) m k d, k < m -> nth k (firstn m l) d = nth k l d.
Proof. intros A l. induction l as [|x l IH]; intros m k d H; [rewrite firstn_nil; reflexivity|]. destruct m; [lia|]. destruct k; [reflexivity|]. cbn [firstn nth]. apply IH. lia. Qed.
Lemma row_spec : forall {A} (f : node A) d0 i, 6 * count_xv f <= length (data f) -> i < count_xv f -> row (firstn (6 * count_xv f) (data f)) (count_xv f) i = component_major f d0 i.
Proof.
  intros A f d0 i H I. set (n := count_xv f) in *. unfold row, component_major. fold n. cbn [seq flat_map map]. unfold entry.
  assert (E : forall j, j < 6 -> firstn 1 (skipn (i + n * j) (firstn (6 * n) (data f))) = [nth (i + n * j) (data f) d0]). { intros j J. rewrite (skipn_nth _ _ d0); [|rewrite firstn_length; nia]. rewrite nth_firstn by nia. reflexivity. }
  rewrite !E by lia. reflexivity.
Qed.
Lemma read_complete : forall {A} b (d0 : A) f, complete b f -> read_node b f = (all_particles b d0 f, true).
Proof.
  intros A b d0 f (Z1 & L & P). unfold read_node. rewrite Z1. cbn [negb]. destruct (length (data f) <? 6 * count_xv f) eqn:E; [apply Nat.ltb_lt in E; lia|].
  assert (M : forall g, map (fun i => mk (firstn (6 * count_xv f) (data f)) (count_xv f) i (g i)) (seq 0 (count_xv f)) = map (fun i => let c := component_major f d0 i in {| pos := firstn 3 c; vel := skipn 3 c; pid := g i |}) (seq 0 (count_xv f))).
  { intro g. apply map_ext_in. intros i I. apply in_seq in I. unfold mk. rewrite (row_spec f d0 i L) by lia. reflexivity. }
  destruct b.
  - destruct (P eq_refl) as (P1 & P2 & P3). rewrite P1, P2, Nat.eqb_refl. cbn [negb]. rewrite Nat.min_l by exact P3. rewrite Nat.eqb_refl, M. reflexivity.
  - rewrite M. reflexivity.
Qed.
(** Complete files are read in full, node after node, component by component, and appended to what the object held. *)
Theorem C80_read : forall {A} b (d0 : A) s fs, (forall f, In f fs -> complete b f) ->
  read_from_file b s fs = ({| nbody := nbody s ++ flat_map (all_particles b d0) fs; npart := total_count fs |}, true).
Proof.
  intros A b d0 s fs H. unfold read_from_file. assert (R : read_nodes b fs = (flat_map (all_particles b d0) fs, total_count fs, true)).
  { induction fs as [|f fs IH]; [reflexivity|]. cbn [read_nodes flat_map]. rewrite (read_complete b d0 f (H f (or_introl eq_refl))), (IH (fun g G => H g (or_intror G))). reflexivity. }
  rewrite R. reflexivity.
Qed.
Print Assumptions C80_read.
Example C80_read_sat : complete true {| count_xv := 1; data := [1; 2; 3; 4; 5; 6]; z_ok := true; count_pid := 1; pids := [7%Z]; z_ok_pid := true |}.
Proof. unfold complete. cbn. repeat split; lia. Qed.
(** A successful read means that every node was complete, and the count attribute is the number of particles of this read. *)
Lemma read_node_ok : forall {A} b (f : node A), snd (read_node b f) = true -> complete b f.
Proof.
  intros A b f. unfold read_node, complete. destruct (z_ok f); cbn [negb]; [|discriminate]. destruct (length (data f) <? 6 * count_xv f) eqn:E; [discriminate|]. apply Nat.ltb_ge in E. destruct b; [|intros _; repeat split; auto; discriminate].
  destruct (z_ok_pid f); cbn [negb]; [|discriminate]. destruct (count_pid f =? count_xv f) eqn:C; cbn [negb snd]; [|discriminate]. apply Nat.eqb_eq in C. intro M. apply Nat.eqb_eq in M. repeat split; auto; lia.
Qed.
Lemma read_nodes_ok : forall {A} b (fs : list (node A)), snd (read_nodes b fs) = true -> forall f, In f fs -> complete b f.
Proof.
  intros A b fs. induction fs as [|g fs IH]; intros H f I; [destruct I|]. cbn [read_nodes] in H. destruct (read_node b g) as [ps ok] eqn:E. destruct ok; [|discriminate]. destruct (read_nodes b fs) as [[qs n] ok'] eqn:E'. cbn [snd] in *.
  destruct I as [<- |I]; [apply read_node_ok; rewrite E; reflexivity|apply IH; assumption].
Qed.
Theorem C80_success : forall {A} b (s : nbody_file A) fs, snd (read_from_file b s fs) = true <-> (forall f, In f fs -> complete b f).
Proof.
  intros A b s fs. split.
  - intro H. apply read_nodes_ok. unfold read_from_file in H. destruct (read_nodes b fs) as [[ps n] ok]. exact H.
  - intro H. destruct fs as [|f fs]; [reflexivity|]. destruct (data f) as [|d0 r] eqn:E.
    + destruct (flat_map data (f :: fs)) as [|d0 r'] eqn:F.
      * unfold read_from_file. assert (R : snd (read_nodes b (f :: fs)) = true); [|destruct (read_nodes b (f :: fs)) as [[? ?] ?]; exact R].
        clear E. revert H. generalize (f :: fs). clear. intros l H. induction l as [|g l IH]; [reflexivity|]. cbn [read_nodes]. specialize (IH (fun f F => H f (or_intror F))). destruct (H g (or_introl eq_refl)) as (Z1 & L & P).
        assert (K : snd (read_node b g) = true). { unfold read_node. rewrite Z1. cbn [negb]. destruct (length (data g) <? 6 * count_xv g) eqn:E; [apply Nat.ltb_lt in E; lia|]. destruct b; [|reflexivity]. destruct (P eq_refl) as (P1 & P2 & P3). rewrite P1, P2, Nat.eqb_refl. cbn [negb snd]. rewrite Nat.min_l, Nat.eqb_refl by exact P3. reflexivity. }
        destruct (read_node b g) as [ps ok]. cbn [snd] in K. rewrite K. destruct (read_nodes b l) as [[? ?] ?]. exact IH.
      * rewrite (C80_read b d0 s (f :: fs) H). reflexivity.
    + rewrite (C80_read b d0 s (f :: fs) H). reflexivity.
Qed.
Print Assumptions C80_success.
(** A failed read keeps the count but has already appended the particles of the nodes before the bad one. *)
Theorem C80_failure : forall {A} b (d0 : A) s fs g gs, (forall f, In f fs -> complete b f) -> snd (read_node b g) = false -> let s' := fst (read_from_file b s (fs ++ g :: gs)) in
  npart s' = npart s /\ nbody s' = nbody s ++ flat_map (all_particles b d0) fs ++ fst (read_node b g) /\ snd (read_from_file b s (fs ++ g :: gs)) = false.
Proof.
  intros A b d0 s fs g gs H G s'. unfold s', read_from_file. assert (R : read_nodes b (fs ++ g :: gs) = (flat_map (all_particles b d0) fs ++ fst (read_node b g), (if fs then 0 else total_count fs), false)).
  { destruct (read_node b g) as [ps ok] eqn:E. cbn [snd] in G. subst ok. induction fs as [|f fs IH]; [cbn [app read_nodes]; rewrite E; reflexivity|]. cbn [app read_nodes flat_map]. rewrite (read_complete b d0 f (H f (or_introl eq_refl))), (IH (fun g G => H g (or_intror G))). rewrite app_assoc. repeat f_equal. destruct fs; cbn; lia. }
  rewrite R. cbn [nbody npart fst snd]. auto.
Qed.
Print Assumptions C80_failure.
Example C80_failure_sat : exists b (fs : list (node nat)) (g : node nat), (forall f, In f fs -> complete b f) /\ snd (read_node b g) = false.
Proof. exists false, [{| count_xv := 1; data := [1; 2; 3; 4; 5; 6]; z_ok := true; count_pid := 0; pids := []; z_ok_pid := true |}], {| count_xv := 2; data := [1; 2; 3]; z_ok := true; count_pid := 0; pids := []; z_ok_pid := true |}. split; [|reflexivity]. intros f [<-|[]]. repeat split; try discriminate. cbn. lia. Qed.
(** A file of several particles stored one after the other is not read as such, for any number of particles above one... *)
Theorem C80_layout_refuted : forall n, 2 <= n -> exists f : node nat, complete true f /\ count_xv f = n /\
  forall s, exists p, nth_error (nbody (fst (read_from_file true {| nbody := []; npart := s |} [f]))) 0 = Some p /\ pos p ++ vel p <> particle_major f 0 0.
Proof.
  intros n Hn. set (f := {| count_xv := n; data := seq 0 (6 * n); z_ok := true; count_pid := n; pids := repeat 0%Z n; z_ok_pid := true |}). exists f. assert (C : complete true f). { unfold complete, f. cbn [z_ok count_xv data z_ok_pid count_pid pids]. rewrite seq_length, repeat_length. repeat split; lia. }
  split; [exact C|]. split; [reflexivity|]. intro s. rewrite (C80_read true 0 _ [f]); [|intros g [<- |[]]; exact C]. cbn [fst nbody app flat_map]. rewrite app_nil_r. unfold all_particles. change (count_xv f) with n. destruct n as [|n]; [lia|]. cbn [seq map nth_error]. eexists. split; [reflexivity|].
  cbn [pos vel]. rewrite firstn_skipn. unfold component_major, particle_major. change (count_xv f) with (S n). change (data f) with (seq 0 (6 * S n)). cbn [map]. set (l := seq 0 (6 * S n)). intro E. assert (E1 : nth (0 + S n * 1) l 0 = nth (6 * 0 + 1) l 0) by (remember (nth (0 + S n * 1) l 0) as u; remember (nth (6 * 0 + 1) l 0) as v; congruence). unfold l in E1. rewrite !seq_nth in E1 by lia. lia.
Qed.
Print Assumptions C80_layout_refuted.
Example C80_layout_refuted_sat : exists (n : nat), 2 <= n.
Proof. exists 3. lia. Qed.
(** ... and a single particle is. *)
Theorem C80_layout_single : forall {A} b (d0 : A) f, complete b f -> count_xv f = 1 -> forall s, exists p, nbody (fst (read_from_file b {| nbody := []; npart := s |} [f])) = [p] /\ pos p ++ vel p = particle_major f d0 0.
Proof.
  intros A b d0 f C E s. rewrite (C80_read b d0 _ [f]); [|intros g [<- |[]]; exact C]. cbn [fst nbody app flat_map]. rewrite app_nil_r. unfold all_particles. rewrite E. cbn [seq map]. eexists. split; [reflexivity|]. cbn [pos vel]. rewrite firstn_skipn. unfold component_major, particle_major. rewrite E. reflexivity.
Qed.
Print Assumptions C80_layout_single.
Example C80_layout_single_sat : exists b (f : node nat), complete b f /\ count_xv f = 1.
Proof. exists true, {| count_xv := 1; data := [1; 2; 3; 4; 5; 6]; z_ok := true; count_pid := 1; pids := [7%Z]; z_ok_pid := true |}. split; [|reflexivity]. repeat split; cbn; lia. Qed.
(** The count matches the particles held after opening and reading once; every further read duplicates the particles. *)
Fixpoint read_times {A} (b : bool) (k : nat) (s : nbody_file A) (fs : list (node A)) : nbody_file A := match k with 0 => s | S m => fst (read_from_file b (read_times b m s fs) fs) end.
Theorem C80_history : forall {A} b (d0 : A) (fs : list (node A)) s k, (forall f, In f fs -> complete b f) -> open_file fs = Some s -> 
  length (nbody (read_times b k s fs)) = k * npart (read_times b k s fs) /\ npart (read_times b k s fs) = total_count fs.
Proof.
  intros A b d0 fs s k H O. assert (L : length (flat_map (all_particles b d0) fs) = total_count fs). { unfold total_count. clear H O. induction fs as [|f fs IH]; [reflexivity|]. cbn [flat_map map list_sum fold_right]. rewrite app_length. unfold all_particles at 1. rewrite map_length, seq_length. unfold list_sum in IH. rewrite IH. reflexivity. }
  assert (N : npart s = total_count fs /\ nbody s = []). { unfold open_file in O. destruct (forallb z_ok fs); [|discriminate]. injection O as <-. split; [|reflexivity]. cbn [npart]. unfold total_count. clear. induction fs as [|f fs IH]; [reflexivity|]. cbn. rewrite IH. reflexivity. }
  destruct N as [N1 N2]. assert (P : npart (read_times b k s fs) = total_count fs). { destruct k; [exact N1|]. cbn [read_times]. rewrite (C80_read b d0 _ fs H). reflexivity. }
  rewrite P. split; [|reflexivity]. clear P. induction k as [|k IH]; [cbn [read_times]; rewrite N2; reflexivity|]. cbn [read_times]. rewrite (C80_read b d0 _ fs H). cbn [fst nbody]. rewrite app_length, IH, L. lia.
Qed.
Print Assumptions C80_history.
