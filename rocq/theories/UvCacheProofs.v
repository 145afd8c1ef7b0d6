(** Proofs about the uv-map cache model. *)
From Coq Require Import String List Arith ZArith QArith Lia Bool.
From Coq Require Import Lqa.
From Verif Require Import PyBase PyBaseProofs UvCacheModel UvCacheSpec.
Import ListNotations.
Local Open Scope nat_scope.

(** ** Ranges and chunks *)

Lemma skipn_skipn' {A} (l : list A) i j : skipn i (skipn j l) = skipn (i + j) l.
Proof.
  revert l; induction j as [|j IH]; intros l; simpl.
  - now rewrite Nat.add_0_r.
  - rewrite Nat.add_succ_r. destruct l as [|x l]; simpl; [now rewrite skipn_nil|apply IH].
Qed.

(** Concatenating the first [k] slices of width [c] gives the first [k*c] items. *)
Lemma concat_slices {A} (l : list A) c k :
  concat (map (fun i => py_slice l i (i + c)) (map (fun j => 0 + j * c) (seq 0 k)))
  = firstn (k * c) l.
Proof.
  induction k as [|k IH].
  - reflexivity.
  - rewrite seq_S, map_app, map_app, concat_app, IH. simpl.
    rewrite app_nil_r. unfold py_slice.
    replace (k * c + c - k * c) with c by lia.
    replace (c + k * c) with (k * c + c) by lia.
    rewrite <- (firstn_skipn (k * c) l) at 3.
    rewrite firstn_app, firstn_firstn, firstn_length.
    replace (Nat.min (k * c + c) (k * c)) with (k * c) by lia.
    f_equal.
    destruct (le_lt_dec (k * c) (length l)) as [H|H].
    + f_equal. lia.
    + rewrite (skipn_all2 l) by lia. now rewrite !firstn_nil.
Qed.

Lemma ceil_div_ge n c : 0 < c -> n <= ((n + c - 1) / c) * c.
Proof.
  intros H.
  pose proof (Nat.div_mod (n + c - 1) c ltac:(lia)) as D.
  pose proof (Nat.mod_upper_bound (n + c - 1) c ltac:(lia)) as B.
  nia.
Qed.

Lemma chunk_list_concat c l : 0 < c -> concat (chunk_list c l) = l.
Proof.
  intros H. unfold chunk_list, py_range. rewrite concat_slices.
  rewrite Nat.sub_0_r. apply firstn_all2. now apply ceil_div_ge.
Qed.

Lemma chunk_list_small c l ch : In ch (chunk_list c l) -> length ch <= c.
Proof.
  unfold chunk_list. rewrite in_map_iff. intros (i & <- & _).
  unfold py_slice. rewrite firstn_length. lia.
Qed.

(** ** Keys and dictionaries *)

Lemma param_eqb_eq a b : param_eqb a b = true <-> a = b.
Proof. destruct a, b; simpl; split; congruence. Qed.

Lemma key_eqb_eq a b : key_eqb a b = true <-> a = b.
Proof.
  destruct a, b; cbn [key_eqb]; try (split; congruence).
  - rewrite param_eqb_eq. split; congruence.
  - rewrite Z.eqb_eq. split; congruence.
Qed.

Lemma key_eqb_refl a : key_eqb a a = true.
Proof. now apply key_eqb_eq. Qed.

Lemma key_eqb_neq a b : key_eqb a b = false <-> a <> b.
Proof. rewrite <- key_eqb_eq. destruct (key_eqb a b); split; congruence. Qed.

Lemma key_eqb_sym a b : key_eqb a b = key_eqb b a.
Proof.
  destruct (key_eqb a b) eqn:E.
  - apply key_eqb_eq in E as ->. now rewrite key_eqb_refl.
  - apply key_eqb_neq in E. symmetry. apply key_eqb_neq. congruence.
Qed.

Local Arguments zkey : simpl never.
Local Arguments key_eqb : simpl never.

Section Proofs.
  Context {M : Type}.
  Variable worker : Q -> M.
  Notation dict := (dict M).
  Notation store := (store worker).

  Lemma dget_dset k k' (v : value M) (d : dict) :
    dget k (dset k' v d) = if key_eqb k k' then Some v else dget k d.
  Proof.
    induction d as [|[k1 v1] d IH]; simpl.
    - reflexivity.
    - destruct (key_eqb k' k1) eqn:E1; simpl.
      + apply key_eqb_eq in E1 as <-. destruct (key_eqb k k'); reflexivity.
      + destruct (key_eqb k k1) eqn:E2.
        * apply key_eqb_eq in E2 as <-.
          rewrite key_eqb_sym, E1. reflexivity.
        * apply IH.
  Qed.

  Lemma dget_store_all k l (d : dict) :
    dget k (fold_left store l d)
    = match find (fun z => key_eqb (zkey z) k) (rev l) with
      | Some z => Some (VMap (worker z))
      | None => dget k d
      end.
  Proof.
    revert d. induction l as [|z l IH] using rev_ind; intros d; [reflexivity|].
    rewrite fold_left_app, rev_app_distr. simpl.
    unfold UvCacheModel.store at 1. rewrite dget_dset, (key_eqb_sym k).
    destruct (key_eqb (zkey z) k); [reflexivity|apply IH].
  Qed.

  Lemma find_none_iff {A} (p : A -> bool) l :
    find p l = None <-> forall x, In x l -> p x = false.
  Proof.
    split.
    - apply find_none.
    - induction l as [|a l IH]; simpl; intros H; [reflexivity|].
      rewrite (H a (or_introl eq_refl)). apply IH. intros x Hx. apply H. now right.
  Qed.

  Lemma find_filter {A} (p q : A -> bool) l :
    (forall x, In x l -> p x = true -> q x = true) ->
    find p (filter q l) = find p l.
  Proof.
    induction l as [|a l IH]; simpl; intros H; [reflexivity|].
    assert (IH' : find p (filter q l) = find p l) by (apply IH; intros; apply H; auto).
    destruct (p a) eqn:Ep.
    - rewrite (H a (or_introl eq_refl) Ep). simpl. now rewrite Ep.
    - destruct (q a); simpl; [now rewrite Ep|]; apply IH'.
  Qed.

  Lemma filter_rev {A} (q : A -> bool) l : filter q (rev l) = rev (filter q l).
  Proof.
    induction l as [|a l IH]; simpl; [reflexivity|].
    rewrite filter_app, IH. simpl. destruct (q a); simpl; [reflexivity|now rewrite app_nil_r].
  Qed.

  (** ** The loops *)

  Lemma run_chunks_fst save u cs :
    fst (run_chunks worker save u cs) = fold_left store (concat cs) u.
  Proof.
    revert u; induction cs as [|zc cs IH]; intros u; simpl; [reflexivity|].
    rewrite fold_left_app, <- IH.
    destruct (run_chunks worker save (fold_left store zc u) cs). reflexivity.
  Qed.

  Lemma run_seq_fst save ck n i u l :
    fst (run_seq worker save ck n i u l) = fold_left store l u.
  Proof.
    revert i u; induction l as [|z l IH]; intros i u; simpl; [reflexivity|].
    rewrite <- (IH (i + 1)).
    destruct (run_seq worker save ck n (i + 1) (store u z) l). reflexivity.
  Qed.

  (** [todo]: the redshifts whose key the starting dictionary lacks. *)
  Definition todo (zs : list Q) (u : dict) : list Q :=
    filter (fun z => negb (dmem (zkey z) u)) zs.

  Definition loop_events (save : bool) (nj : Z) (ck : option Z) (u : dict) (l : list Q)
    : list (event M) :=
    match l with
    | [] => []
    | _ :: _ =>
      let chunked := match ck with Some c => Z.ltb 1 nj && Z.ltb 0 c | None => false end in
      let r := if chunked then
          run_chunks worker save u
            (chunk_list (Z.to_nat (match ck with Some c => c | None => 0%Z end)) l)
        else if Z.ltb 1 nj then run_parallel worker u l
        else run_seq worker save ck (length l) 0 u l in
      snd r ++ (if save then write (fold_left store l u) else [])
    end.

  Lemma pval_eqb_iff v w : pval_eqb v w = true <-> same_value v w.
  Proof. destruct v, w; simpl; try (split; [discriminate|contradiction]); [apply Qeq_bool_iff|apply String.eqb_eq]. Qed.

  Lemma usable_iff a (d : dict) :
    existsb (mismatch d) (params_of a) = false <-> usable a (Good d).
  Proof.
    unfold usable. split.
    - intros H p v Hin.
      assert (E : mismatch d (p, v) = false).
      { destruct (mismatch d (p, v)) eqn:E; [|reflexivity].
        assert (existsb (mismatch d) (params_of a) = true)
          by (apply existsb_exists; eauto). congruence. }
      unfold mismatch in E; simpl in E.
      destruct (dget (KParam p) d) as [[w|m]|]; [right|discriminate|now left].
      exists w. split; [reflexivity|]. apply pval_eqb_iff. now apply negb_false_iff in E.
    - intros H. apply not_true_is_false. intros Ex.
      apply existsb_exists in Ex as ([p v] & Hin & E).
      unfold mismatch in E; simpl in E.
      destruct (H p v Hin) as [Hn | (w & Hw & He)].
      + rewrite Hn in E. discriminate.
      + apply pval_eqb_iff in He. rewrite Hw, He in E. discriminate.
  Qed.

  (** One equation for the whole call. *)
  Lemma uv_run_eq a zs save nj ck (f : file M) :
    (save = true -> usable a f) ->
    uv_run worker a zs save nj ck f
    = let u := starting_dict a save f in
      let l := todo zs u in
      Returned (fold_left store l u) (loop_events save nj ck u l).
  Proof.
    intros Hus. unfold uv_run.
    assert (E : (if save then
        match f with
        | Absent => Some (params_dict (params_of a))
        | Torn => None
        | Good d => if existsb (mismatch d) (params_of a) then None else Some d
        end else Some (params_dict (params_of a))) = Some (starting_dict a save f)).
    { destruct save; [|destruct f; reflexivity]. specialize (Hus eq_refl).
      destruct f as [| |d]; [reflexivity|contradiction|].
      apply usable_iff in Hus. now rewrite Hus. }
    rewrite E. fold (todo zs (starting_dict a save f)).
    set (u := starting_dict a save f). set (l := todo zs u). cbv zeta.
    unfold loop_events. destruct l as [|z0 l0] eqn:El; [reflexivity|]. rewrite <- El.
    set (l1 := l) in *. clearbody l1. clear El z0 l0.
    destruct (match ck with Some c => Z.ltb 1 nj && Z.ltb 0 c | None => false end) eqn:Ec.
    - destruct ck as [c|]; [|discriminate].
      apply andb_prop in Ec as [_ Hc]. apply Z.ltb_lt in Hc.
      pose proof (run_chunks_fst save u (chunk_list (Z.to_nat c) l1)) as F.
      rewrite chunk_list_concat in F by lia.
      destruct (run_chunks worker save u (chunk_list (Z.to_nat c) l1)) as [u1 evs].
      simpl in F |- *. now subst u1.
    - destruct (Z.ltb 1 nj); [reflexivity|].
      pose proof (run_seq_fst save ck (length l1) 0 u l1) as F.
      destruct (run_seq worker save ck (length l1) 0 u l1) as [u1 evs].
      simpl in F |- *. now subst u1.
  Qed.

  Lemma uv_run_raised a zs save nj ck (f : file M) :
    uv_run worker a zs save nj ck f = Raised <-> save = true /\ ~ usable a f.
  Proof.
    split.
    - intros H. destruct save.
      + split; [reflexivity|]. intros Hu.
        rewrite uv_run_eq in H by (intros; exact Hu). discriminate.
      + rewrite uv_run_eq in H by discriminate. discriminate.
    - intros [-> Hn]. unfold uv_run.
      destruct f as [| |d]; [exfalso; apply Hn; exact I|reflexivity|].
      destruct (existsb (mismatch d) (params_of a)) eqn:E; [reflexivity|].
      exfalso. apply Hn. now apply usable_iff.
  Qed.

  (** ** Content of the result *)

  Lemma dget_result k zs (u : dict) :
    dget k (fold_left store (todo zs u) u)
    = match dget k u with
      | Some v => Some v
      | None => match find (fun z => key_eqb (zkey z) k) (rev zs) with
                | Some z => Some (VMap (worker z)) | None => None end
      end.
  Proof.
    rewrite dget_store_all. unfold todo. rewrite <- filter_rev.
    destruct (dget k u) as [v|] eqn:Ek.
    - replace (find (fun z => key_eqb (zkey z) k) (filter (fun z => negb (dmem (zkey z) u)) (rev zs)))
        with (@None Q); [reflexivity|].
      symmetry. apply find_none_iff. intros x Hx. apply filter_In in Hx as [_ Hm].
      apply not_true_is_false. intros He. apply key_eqb_eq in He. rewrite He in Hm.
      unfold dmem in Hm. rewrite Ek in Hm. discriminate.
    - rewrite find_filter.
      + destruct (find _ (rev zs)); reflexivity.
      + intros x _ He. apply key_eqb_eq in He. rewrite He. unfold dmem. now rewrite Ek.
  Qed.

  Lemma uv_content a zs save nj ck f d evs k :
    uv_run worker a zs save nj ck f = Returned d evs ->
    dget k d = expected_entry worker a zs save f k.
  Proof.
    intros H.
    assert (Hu : save = true -> usable a f).
    { intros ->. destruct (uv_run_raised a zs true nj ck f) as [_ R].
      destruct f as [| |d']; [exact I| |].
      - exfalso. rewrite R in H; [discriminate|]. split; [reflexivity|auto].
      - apply usable_iff. destruct (existsb (mismatch d') (params_of a)) eqn:E; [|reflexivity].
        exfalso. rewrite R in H; [discriminate|]. split; [reflexivity|].
        intros Hus. apply usable_iff in Hus. congruence. }
    rewrite uv_run_eq in H by exact Hu. cbv zeta in H. injection H as <- _.
    apply dget_result.
  Qed.

  (** ** Files after prefixes of a run *)

  Definition progress (u : dict) (l : list Q) (d : dict) : Prop :=
    exists j, d = fold_left store (firstn j l) u.

  Lemma run_chunks_commits save u cs d :
    In (ECommit d) (snd (run_chunks worker save u cs)) -> progress u (concat cs) d.
  Proof.
    revert u; induction cs as [|zc cs IH]; intros u; simpl; [tauto|].
    specialize (IH (fold_left store zc u)).
    destruct (run_chunks worker save (fold_left store zc u) cs) as [u2 evs].
    simpl in *. rewrite !in_app_iff. intros [H|[H|H]].
    - apply in_map_iff in H as (? & ? & ?). discriminate.
    - destruct save; simpl in H; [|tauto]. destruct H as [H|[H|[]]]; [discriminate|].
      injection H as <-. exists (length zc).
      rewrite firstn_app, Nat.sub_diag, firstn_all. simpl. now rewrite app_nil_r.
    - destruct (IH H) as [j ->]. exists (length zc + j).
      rewrite firstn_app_2, fold_left_app. reflexivity.
  Qed.

  Lemma run_seq_commits save ck n i u l d :
    In (ECommit d) (snd (run_seq worker save ck n i u l)) -> progress u l d.
  Proof.
    revert i u; induction l as [|z l IH]; intros i u; simpl; [tauto|].
    specialize (IH (i + 1) (store u z)).
    destruct (run_seq worker save ck n (i + 1) (store u z) l) as [u2 evs].
    simpl in *. intros [H|H]; [discriminate|]. rewrite in_app_iff in H. destruct H as [H|H].
    - destruct (save && is_checkpoint_step ck i && (i + 1 <? n)); simpl in H; [|tauto].
      destruct H as [H|[H|[]]]; [discriminate|]. injection H as <-. now exists 1.
    - destruct (IH H) as [j ->]. now exists (S j).
  Qed.

  Lemma loop_commits save nj ck u l d :
    In (ECommit d) (loop_events save nj ck u l) -> progress u l d.
  Proof.
    unfold loop_events. destruct l as [|z0 l0] eqn:El; [simpl; tauto|]. rewrite <- El.
    set (l1 := l). clearbody l1. clear El z0 l0 l.
    cbv zeta. rewrite in_app_iff. intros [H|H].
    - destruct (match ck with Some c => Z.ltb 1 nj && Z.ltb 0 c | None => false end) eqn:Ec.
      + destruct ck as [c|]; [|discriminate].
        apply andb_prop in Ec as [_ Hc]. apply Z.ltb_lt in Hc.
        apply run_chunks_commits in H. now rewrite chunk_list_concat in H by lia.
      + destruct (Z.ltb 1 nj).
        * simpl in H. apply in_map_iff in H as (? & ? & ?). discriminate.
        * now apply run_seq_commits in H.
    - destruct save; simpl in H; [|tauto]. destruct H as [H|[H|[]]]; [discriminate|].
      injection H as <-. exists (length l1). now rewrite firstn_all.
  Qed.

  Lemma file_fold_cases evs (f : file M) :
    fold_left file_step evs f = f \/ fold_left file_step evs f = Torn
    \/ exists d, In (ECommit d) evs /\ fold_left file_step evs f = Good d.
  Proof.
    induction evs as [|e evs IH] using rev_ind; [now left|].
    rewrite fold_left_app. simpl. destruct e as [z| |d]; simpl.
    - destruct IH as [H|[H|(d & Hin & H)]]; auto.
      right; right. exists d. rewrite in_app_iff. auto.
    - auto.
    - right; right. exists d. rewrite in_app_iff. simpl. auto.
  Qed.

  Lemma params_not_z a z : dget (zkey z) (params_dict (M:=M) (params_of a)) = None.
  Proof. reflexivity. Qed.

  Lemma dget_param_store p l (u : dict) :
    dget (KParam p) (fold_left store l u) = dget (KParam p) u.
  Proof.
    rewrite dget_store_all.
    replace (find (fun z => key_eqb (zkey z) (KParam p)) (rev l)) with (@None Q); [reflexivity|].
    symmetry. apply find_none_iff. intros x _. reflexivity.
  Qed.

  Lemma pval_eqb_refl v : pval_eqb v v = true.
  Proof. destruct v; simpl; [apply Qeq_bool_refl|apply String.eqb_refl]. Qed.

  Lemma params_usable a : usable a (Good (params_dict (M:=M) (params_of a))).
  Proof.
    intros p v Hin. right. exists v. split; [|apply pval_eqb_iff, pval_eqb_refl].
    simpl in Hin.
    repeat (destruct Hin as [Hin|Hin]; [injection Hin as <- <-; reflexivity|]).
    contradiction.
  Qed.

  Lemma usable_params_irrel a (d d' : dict) :
    (forall p, dget (KParam p) d' = dget (KParam p) d) ->
    usable a (Good d) -> usable a (Good d').
  Proof. intros E H p v Hin. rewrite E. now apply H. Qed.

  Lemma usable_start a (f : file M) : usable a f -> usable a (Good (starting_dict a true f)).
  Proof. destruct f; simpl; intros H; [apply params_usable|contradiction|exact H]. Qed.

  (** A file reached from [f]: unchanged, torn, or holding a prefix of the work. *)
  Definition reached (a : call) (zs : list Q) (f g : file M) : Prop :=
    g = f \/ g = Torn \/
    exists j, let u := starting_dict a true f in
              todo zs u <> [] /\
              g = Good (fold_left store (firstn j (todo zs u)) u).

  Lemma filter_in_false {A} (q : A -> bool) l :
    (forall x, In x l -> q x = false) -> filter q l = [].
  Proof.
    induction l as [|b l IH]; simpl; intros H; [reflexivity|].
    rewrite (H b (or_introl eq_refl)). apply IH. intros; apply H; auto.
  Qed.

  Lemma filter_in_true {A} (q : A -> bool) l :
    (forall x, In x l -> q x = true) -> filter q l = l.
  Proof.
    induction l as [|b l IH]; simpl; intros H; [reflexivity|].
    rewrite (H b (or_introl eq_refl)). f_equal. apply IH. intros; apply H; auto.
  Qed.

  Lemma filter_filter {A} (p q : A -> bool) l :
    filter p (filter q l) = filter (fun x => q x && p x) l.
  Proof.
    induction l as [|b l IH]; simpl; [reflexivity|].
    destruct (q b); simpl; [destruct (p b)|]; now rewrite IH.
  Qed.

  Lemma dmem_store_all k l (u : dict) :
    dmem k (fold_left store l u) = dmem k u || existsb (fun z => key_eqb (zkey z) k) l.
  Proof.
    unfold dmem at 1. rewrite dget_store_all.
    destruct (find (fun z => key_eqb (zkey z) k) (rev l)) as [z|] eqn:F.
    - apply find_some in F as [Hin He]. rewrite <- in_rev in Hin.
      replace (existsb _ l) with true; [now rewrite orb_true_r|].
      symmetry. apply existsb_exists. eauto.
    - rewrite find_none_iff in F. replace (existsb _ l) with false.
      + unfold dmem. now rewrite orb_false_r.
      + symmetry. apply not_true_is_false. intros E. apply existsb_exists in E as (x & Hx & He).
        rewrite F in He; [discriminate|]. now rewrite <- in_rev.
  Qed.

  Lemma NoDup_map_filter {A B} (g : A -> B) (p : A -> bool) l :
    NoDup (map g l) -> NoDup (map g (filter p l)).
  Proof.
    induction l as [|b l IH]; simpl; intros H; [constructor|].
    inversion H as [|? ? Hni Hnd]; subst. destruct (p b); simpl; [|auto].
    constructor; [|auto]. intros Hin. apply Hni.
    apply in_map_iff in Hin as (x & <- & Hx). apply filter_In in Hx as [Hx _].
    now apply in_map.
  Qed.

  Lemma todo_resume zs (u : dict) j :
    distinct_keys zs ->
    todo zs (fold_left store (firstn j (todo zs u)) u) = skipn j (todo zs u).
  Proof.
    intros Hnd. set (l := todo zs u).
    assert (Hl : NoDup (map zkey l)) by (apply NoDup_map_filter; exact Hnd).
    unfold todo at 1.
    transitivity (filter (fun z => negb (existsb (fun x => key_eqb (zkey x) (zkey z)) (firstn j l))) l).
    - unfold l, todo. rewrite filter_filter. apply filter_ext. intros z.
      fold (todo zs u). fold l. rewrite dmem_store_all. now rewrite negb_orb.
    - assert (Ef : forall q, filter q l = filter q (firstn j l) ++ filter q (skipn j l)).
      { intros q. rewrite <- filter_app, firstn_skipn. reflexivity. }
      rewrite Ef.
      rewrite filter_in_false, filter_in_true; [reflexivity| |].
      + intros x Hx. apply negb_true_iff. apply not_true_is_false. intros E.
        apply existsb_exists in E as (y & Hy & He). apply key_eqb_eq in He.
        rewrite <- (firstn_skipn j l), map_app in Hl.
        assert (D : forall (A : Type) (l1 l2 : list A) x, NoDup (l1 ++ l2) -> In x l1 -> ~ In x l2).
        { clear. intros A l1 l2 x. induction l1 as [|a l1 IH]; simpl; [tauto|].
          intros H [->|Hin]; inversion H; subst; [|auto].
          intros Hx. apply H2. apply in_app_iff. auto. }
        apply (D _ _ _ (zkey y) Hl); [now apply in_map|]. rewrite He. now apply in_map.
      + intros x Hx. apply negb_false_iff. apply existsb_exists. exists x.
        split; [exact Hx|apply key_eqb_refl].
  Qed.

  Lemma firstn_skipn_comm_add {A} (l : list A) j j' :
    firstn j l ++ firstn j' (skipn j l) = firstn (j + j') l.
  Proof.
    revert l; induction j as [|j IH]; intros l; simpl; [reflexivity|].
    destruct l as [|x l]; simpl; [now rewrite firstn_nil|]. now rewrite IH.
  Qed.

  Lemma crash_once_reached a zs f g c :
    distinct_keys zs -> usable a f -> reached a zs f g ->
    reached a zs f (crash_once worker a zs g c).
  Proof.
    intros Hnd Hu Hr. unfold crash_once.
    destruct Hr as [-> | [-> | (j & Hne & ->)]].
    - rewrite uv_run_eq by (intros; exact Hu). cbv zeta.
      cbn [file_after].
      set (u := starting_dict a true f). set (l := todo zs u).
      destruct (file_fold_cases (firstn (cr_steps c) (loop_events true (cr_njobs c) (cr_ckpt c) u l)) f)
        as [H|[H|(d & Hin & H)]]; rewrite H; [now left|right; now left|].
      right; right.
      assert (Hin' : In (ECommit d) (loop_events true (cr_njobs c) (cr_ckpt c) u l)).
      { rewrite <- (firstn_skipn (cr_steps c)), in_app_iff. now left. }
      assert (Hl : l <> []) by (intros El; rewrite El in Hin'; exact Hin').
      apply loop_commits in Hin' as [i ->]. exists i. split; [exact Hl|reflexivity].
    - unfold uv_run. simpl. right; now left.
    - cbv zeta. set (u := starting_dict a true f). set (l := todo zs u).
      set (u' := fold_left store (firstn j l) u).
      assert (Hu' : usable a (Good u')).
      { apply (usable_params_irrel a u); [intros p; apply dget_param_store|].
        apply usable_start, Hu. }
      rewrite uv_run_eq by (intros; exact Hu'). cbv zeta.
      cbn [file_after starting_dict].
      assert (Et : todo zs u' = skipn j l) by (apply todo_resume; exact Hnd).
      rewrite Et.
      destruct (file_fold_cases
        (firstn (cr_steps c) (loop_events true (cr_njobs c) (cr_ckpt c) u' (skipn j l))) (Good u'))
        as [H|[H|(d & Hin & H)]]; rewrite H.
      + right; right. exists j. split; [exact Hne|reflexivity].
      + right; now left.
      + right; right.
        assert (Hin' : In (ECommit d) (loop_events true (cr_njobs c) (cr_ckpt c) u' (skipn j l))).
        { rewrite <- (firstn_skipn (cr_steps c)), in_app_iff. now left. }
        apply loop_commits in Hin' as [i ->]. exists (j + i). cbv zeta.
        split; [exact Hne|]. fold u. fold l. rewrite <- firstn_skipn_comm_add, fold_left_app. reflexivity.
  Qed.

  Lemma after_crashes_reached a zs f cs :
    distinct_keys zs -> usable a f ->
    reached a zs f (after_crashes worker a zs f cs).
  Proof.
    intros Hnd Hu. unfold after_crashes.
    assert (G : forall g, reached a zs f g ->
                          reached a zs f (fold_left (crash_once worker a zs) cs g)).
    { induction cs as [|c cs IH]; simpl; intros g Hg; [exact Hg|].
      apply IH. now apply crash_once_reached. }
    apply G. now left.
  Qed.

  Lemma file_final_events save nj ck u l (f : file M) :
    fold_left file_step (loop_events save nj ck u l) f
    = match l with
      | [] => f
      | _ :: _ => if save then Good (fold_left store l u) else
                    fold_left file_step (loop_events save nj ck u l) f
      end.
  Proof.
    destruct l as [|z l']; [reflexivity|]. destruct save; [|reflexivity].
    unfold loop_events. rewrite fold_left_app. reflexivity.
  Qed.

  Lemma file_final_same nj ck nj' ck' u l (f : file M) :
    fold_left file_step (loop_events true nj ck u l) f
    = fold_left file_step (loop_events true nj' ck' u l) f.
  Proof. rewrite !file_final_events. destruct l; reflexivity. Qed.

  Lemma crash_resume a zs f cs nj ck nj0 ck0 d0 ev0 :
    distinct_keys zs ->
    uv_run worker a zs true nj0 ck0 f = Returned d0 ev0 ->
    after_crashes worker a zs f cs <> Torn ->
    exists evs,
      uv_run worker a zs true nj ck (after_crashes worker a zs f cs) = Returned d0 evs
      /\ file_final (Returned d0 evs) (after_crashes worker a zs f cs)
         = file_final (Returned d0 ev0) f.
  Proof.
    intros Hnd H0 Hnt.
    assert (Hu : usable a f).
    { destruct (uv_run_raised a zs true nj0 ck0 f) as [_ R].
      destruct f as [| |d']; [exact I| |].
      - exfalso. rewrite R in H0; [discriminate|]. split; [reflexivity|auto].
      - apply usable_iff.
        destruct (existsb (mismatch d') (params_of a)) eqn:E; [|reflexivity].
        exfalso. rewrite R in H0; [discriminate|]. split; [reflexivity|].
        intros Hus. apply usable_iff in Hus. congruence. }
    rewrite uv_run_eq in H0 by (intros; exact Hu). cbv zeta in H0.
    set (u := starting_dict a true f) in *. set (l := todo zs u) in *.
    assert (Hd0 : fold_left store l u = d0) by congruence.
    assert (He0 : loop_events true nj0 ck0 u l = ev0) by congruence.
    clear H0. subst d0 ev0.
    destruct (after_crashes_reached a zs f cs Hnd Hu) as [E|[E|(j & Hne & E)]]; [|contradiction|].
    - rewrite E. rewrite uv_run_eq by (intros; exact Hu). cbv zeta. fold u. fold l.
      eexists; split; [reflexivity|]. cbn [file_final]. apply file_final_same.
    - cbv zeta in E. fold u in E. fold l in E. rewrite E.
      set (u' := fold_left store (firstn j l) u).
      assert (Hu' : usable a (Good u')).
      { apply (usable_params_irrel a u); [intros p; apply dget_param_store|].
        apply usable_start, Hu. }
      rewrite uv_run_eq by (intros; exact Hu'). cbv zeta. cbn [starting_dict].
      assert (Et : todo zs u' = skipn j l) by (apply todo_resume; exact Hnd).
      rewrite Et.
      assert (Ef : fold_left store (skipn j l) u' = fold_left store l u).
      { unfold u'. rewrite <- fold_left_app, firstn_skipn. reflexivity. }
      rewrite Ef. eexists; split; [reflexivity|]. cbn [file_final].
      transitivity (Good (fold_left store l u)).
      + rewrite file_final_events, Ef.
        destruct (skipn j l) as [|z1 l1] eqn:Es; [|reflexivity].
        f_equal. rewrite <- Ef. reflexivity.
      + rewrite file_final_events. fold u l in Hne.
        destruct l as [|z0 l0] eqn:El; [now elim Hne|reflexivity].
  Qed.
  (** ** Worker calls *)

  Definition calls_of (evs : list (event M)) : list Q :=
    flat_map (fun e => match e with ECompute z => [z] | _ => [] end) evs.

  Lemma calls_app e1 e2 : calls_of (e1 ++ e2) = calls_of e1 ++ calls_of e2.
  Proof. apply flat_map_app. Qed.

  Lemma calls_compute l : calls_of (map ECompute l) = l.
  Proof. induction l as [|z l IH]; simpl; [reflexivity|]. now rewrite IH. Qed.

  Lemma calls_write (b : bool) d : calls_of (if b then write d else []) = [].
  Proof. destruct b; reflexivity. Qed.

  Lemma calls_chunks save u cs : calls_of (snd (run_chunks worker save u cs)) = concat cs.
  Proof.
    revert u; induction cs as [|zc cs IH]; intros u; simpl; [reflexivity|].
    specialize (IH (fold_left store zc u)).
    destruct (run_chunks worker save (fold_left store zc u) cs) as [u2 evs]. simpl in *.
    now rewrite !calls_app, calls_write, calls_compute, IH.
  Qed.

  Lemma calls_seq save ck n i u l : calls_of (snd (run_seq worker save ck n i u l)) = l.
  Proof.
    revert i u; induction l as [|z l IH]; intros i u; simpl; [reflexivity|].
    specialize (IH (i + 1) (store u z)).
    destruct (run_seq worker save ck n (i + 1) (store u z) l) as [u2 evs]. simpl in *.
    f_equal. unfold calls_of in *. rewrite flat_map_app, IH.
    destruct (save && is_checkpoint_step ck i && (i + 1 <? n)); reflexivity.
  Qed.

  Lemma calls_loop save nj ck u l : calls_of (loop_events save nj ck u l) = l.
  Proof.
    unfold loop_events. destruct l as [|z0 l0] eqn:El; [reflexivity|]. rewrite <- El.
    set (l1 := l). clearbody l1. clear El z0 l0 l. cbv zeta.
    rewrite calls_app, calls_write, app_nil_r.
    destruct (match ck with Some c => Z.ltb 1 nj && Z.ltb 0 c | None => false end) eqn:Ec.
    - destruct ck as [c|]; [|discriminate].
      apply andb_prop in Ec as [_ Hc]. apply Z.ltb_lt in Hc.
      rewrite calls_chunks. apply chunk_list_concat. lia.
    - destruct (Z.ltb 1 nj); [apply calls_compute|apply calls_seq].
  Qed.

  Lemma returned_usable a zs save nj ck f d evs :
    uv_run worker a zs save nj ck f = Returned d evs -> save = true -> usable a f.
  Proof.
    intros H ->. destruct (uv_run_raised a zs true nj ck f) as [_ R].
    destruct f as [| |d']; [exact I| |].
    - exfalso. rewrite R in H; [discriminate|]. split; [reflexivity|auto].
    - apply usable_iff.
      destruct (existsb (mismatch d') (params_of a)) eqn:E; [|reflexivity].
      exfalso. rewrite R in H; [discriminate|]. split; [reflexivity|].
      intros Hus. apply usable_iff in Hus. congruence.
  Qed.

  Lemma returned_eq a zs save nj ck f d evs :
    uv_run worker a zs save nj ck f = Returned d evs ->
    let u := starting_dict a save f in
    d = fold_left store (todo zs u) u /\ evs = loop_events save nj ck u (todo zs u).
  Proof.
    intros H. pose proof (returned_usable _ _ _ _ _ _ _ _ H) as Hu.
    rewrite uv_run_eq in H by exact Hu. cbv zeta in H |- *.
    split; congruence.
  Qed.

  Lemma computed_spec a zs save nj ck f d evs :
    uv_run worker a zs save nj ck f = Returned d evs ->
    computed (Returned d evs)
    = filter (fun z => negb (dmem (zkey z) (starting_dict a save f))) zs.
  Proof.
    intros H. apply returned_eq in H as [-> ->]. apply calls_loop.
  Qed.

  Lemma schedule_independent a zs save nj ck nj' ck' f :
    match uv_run worker a zs save nj ck f, uv_run worker a zs save nj' ck' f with
    | Raised, Raised => True
    | Returned d evs, Returned d' evs' =>
        d = d' /\ file_final (Returned d evs) f = file_final (Returned d' evs') f
        /\ computed (Returned d evs) = computed (Returned d' evs')
    | _, _ => False
    end.
  Proof.
    destruct (uv_run worker a zs save nj ck f) as [|d evs] eqn:E1;
    destruct (uv_run worker a zs save nj' ck' f) as [|d' evs'] eqn:E2.
    - exact I.
    - rewrite uv_run_raised in E1. rewrite <- (uv_run_raised a zs save nj' ck') in E1. congruence.
    - rewrite uv_run_raised in E2. rewrite <- (uv_run_raised a zs save nj ck) in E2. congruence.
    - rewrite (computed_spec _ _ _ _ _ _ _ _ E1), (computed_spec _ _ _ _ _ _ _ _ E2).
      apply returned_eq in E1 as [-> ->]. apply returned_eq in E2 as [-> ->].
      split; [reflexivity|]. split; [|reflexivity]. cbn [file_final].
      destruct save.
      + apply file_final_same.
      + (* nothing is written *)
        assert (W : forall nj ck u l, fold_left file_step (loop_events false nj ck u l) f = f).
        { clear. intros nj ck u l.
          assert (N : forall evs, (forall e, In e evs -> exists z, e = ECompute (M:=M) z) ->
                                  fold_left file_step evs f = f).
          { induction evs as [|e evs IH]; simpl; intros H; [reflexivity|].
            destruct (H e (or_introl eq_refl)) as [z ->]. apply IH. auto. }
          apply N. unfold loop_events. destruct l as [|z0 l0] eqn:El; [simpl; tauto|]. rewrite <- El.
          set (l1 := l). clearbody l1. clear El z0 l0 l. cbv zeta. rewrite app_nil_r.
          assert (Hc : forall cs u e, In e (snd (run_chunks worker false u cs)) -> exists z, e = ECompute z).
          { induction cs as [|zc cs IH]; intros u0 e; simpl; [tauto|].
            specialize (IH (fold_left store zc u0) e).
            destruct (run_chunks worker false (fold_left store zc u0) cs). simpl in *.
            rewrite in_app_iff. intros [H|H]; [|auto].
            apply in_map_iff in H as (z & <- & _). eauto. }
          assert (Hs : forall l n i u e, In e (snd (run_seq worker false ck n i u l)) -> exists z, e = ECompute z).
          { induction l as [|z l IH]; intros n i u0 e; simpl; [tauto|].
            specialize (IH n (i + 1) (store u0 z) e).
            destruct (run_seq worker false ck n (i + 1) (store u0 z) l). simpl in *.
            intros [<-|H]; eauto. }
          intros e. destruct (match ck with Some c => Z.ltb 1 nj && Z.ltb 0 c | None => false end).
          - apply Hc.
          - destruct (Z.ltb 1 nj); [|apply Hs]. simpl. intros H.
            apply in_map_iff in H as (z & <- & _). eauto. }
        now rewrite !W.
  Qed.

  Lemma final_file a zs nj ck f d evs :
    uv_run worker a zs true nj ck f = Returned d evs ->
    (computed (Returned d evs) = [] /\ file_final (Returned d evs) f = f)
    \/ (computed (Returned d evs) <> [] /\ file_final (Returned d evs) f = Good d).
  Proof.
    intros H. rewrite (computed_spec _ _ _ _ _ _ _ _ H).
    apply returned_eq in H as [-> ->]. cbn [file_final].
    rewrite file_final_events. fold (todo zs (starting_dict a true f)).
    destruct (todo zs (starting_dict a true f)); [left|right]; split; congruence.
  Qed.

  (** ** Nothing checkpointed is lost or recomputed *)

  Lemma checkpointed_kept a zs f cs g nj ck :
    distinct_keys zs -> usable a f -> after_crashes worker a zs f cs = Good g ->
    exists d evs, uv_run worker a zs true nj ck (Good g) = Returned d evs
      /\ (forall k v, dget k g = Some v -> dget k d = Some v)
      /\ (forall z, In z (computed (Returned d evs)) -> dget (zkey z) g = None).
  Proof.
    intros Hnd Hu Hg.
    assert (Hug : usable a (Good g)).
    { destruct (after_crashes_reached a zs f cs Hnd Hu) as [E|[E|(j & Hne & E)]].
      - rewrite <- Hg, E. exact Hu.
      - congruence.
      - cbv zeta in E. rewrite <- Hg, E.
        apply (usable_params_irrel a (starting_dict a true f)); [intros p; apply dget_param_store|].
        apply usable_start, Hu. }
    pose proof (uv_run_eq a zs true nj ck (Good g) (fun _ => Hug)) as E. cbv zeta in E.
    eexists _, _. split; [exact E|]. split.
    - intros k v Hk. cbn [starting_dict]. rewrite dget_result, Hk. reflexivity.
    - intros z Hz. rewrite (computed_spec _ _ _ _ _ _ _ _ E) in Hz.
      apply filter_In in Hz as [_ Hz]. cbn [starting_dict] in Hz.
      unfold dmem in Hz. destruct (dget (zkey z) g); [discriminate|reflexivity].
  Qed.

  (** ** Bound on the work lost in a crash *)

  Definition ustep (n : nat) (e : event M) : nat :=
    match e with ECompute _ => S n | ETrunc => n | ECommit _ => 0 end.

  Fixpoint ub (c n : nat) (evs : list (event M)) : Prop :=
    n <= c /\ match evs with [] => True | e :: evs' => ub c (ustep n e) evs' end.

  Lemma ub_prefix c evs : forall n k, ub c n evs -> fold_left ustep (firstn k evs) n <= c.
  Proof.
    induction evs as [|e evs IH]; intros n k; simpl.
    - rewrite firstn_nil. simpl. tauto.
    - intros [H1 H2]. destruct k; simpl; [exact H1|]. now apply IH.
  Qed.

  Lemma ub_app c e1 e2 : forall n,
    ub c n e1 -> ub c (fold_left ustep e1 n) e2 -> ub c n (e1 ++ e2).
  Proof.
    induction e1 as [|e e1 IH]; intros n; simpl; [auto|].
    intros [H1 H2] H3. split; [exact H1|]. now apply IH.
  Qed.

  Lemma ub_computes c l : forall n, n + length l <= c -> ub c n (map ECompute l).
  Proof.
    induction l as [|z l IH]; intros n; simpl; [lia|]. intros H. split; [lia|].
    apply IH. lia.
  Qed.

  Lemma fold_computes l : forall n, fold_left ustep (map ECompute l) n = n + length l.
  Proof.
    induction l as [|z l IH]; intros n; simpl; [lia|]. rewrite IH. lia.
  Qed.

  Lemma ub_chunks c cs : (forall zc, In zc cs -> length zc <= c) -> forall u,
    ub c 0 (snd (run_chunks worker true u cs))
    /\ fold_left ustep (snd (run_chunks worker true u cs)) 0 = 0.
  Proof.
    induction cs as [|zc cs IH]; intros Hc u; simpl; [split; [lia|reflexivity]|].
    specialize (IH (fun z Hz => Hc z (or_intror Hz)) (fold_left store zc u)).
    destruct (run_chunks worker true (fold_left store zc u) cs) as [u2 evs]. simpl in *.
    assert (Hz : length zc <= c) by (apply Hc; now left).
    split.
    - apply ub_app; [apply ub_computes; simpl; lia|]. rewrite fold_computes. simpl.
      repeat split; try lia. apply IH.
    - rewrite fold_left_app, fold_computes. simpl. apply IH.
  Qed.

  Lemma ub_seq (c : nat) n : 0 < c -> forall l i u,
    i + length l = n ->
    ub c (i mod c) (snd (run_seq worker true (Some (Z.of_nat c)) n i u l))
    /\ fold_left ustep (snd (run_seq worker true (Some (Z.of_nat c)) n i u l)) (i mod c) <= c.
  Proof.
    intros Hc. induction l as [|z l IH]; intros i u Hi.
    - simpl. pose proof (Nat.mod_upper_bound i c ltac:(lia)). lia.
    - cbn [run_seq]. specialize (IH (i + 1) (store u z)). simpl in Hi.
      destruct (run_seq worker true (Some (Z.of_nat c)) n (i + 1) (store u z) l) as [u2 evs] eqn:Er.
      cbn [snd] in *. specialize (IH ltac:(lia)).
      pose proof (Nat.mod_upper_bound i c ltac:(lia)) as Hm.
      unfold is_checkpoint_step.
      replace (Z.of_nat c =? 0)%Z with false by (symmetry; apply Z.eqb_neq; lia).
      rewrite <- Nat2Z.inj_mod.
      assert (Hs : (i + 1) mod c = if Nat.eqb (i mod c + 1) c then 0 else i mod c + 1).
      { rewrite Nat.add_mod by lia.
        destruct (Nat.eq_dec c 1) as [->|Hc1]; [reflexivity|].
        rewrite (Nat.mod_small 1) by lia.
        destruct (Nat.eqb_spec (i mod c + 1) c) as [E|E].
        - rewrite E. apply Nat.mod_same. lia.
        - apply Nat.mod_small. lia. }
      simpl. destruct (Nat.eqb_spec (i mod c + 1) c) as [E|E]; rewrite Hs in *.
      + simpl. destruct (i + 1 <? n) eqn:En; simpl.
        * repeat split; try lia; apply IH.
        * apply Nat.ltb_ge in En. assert (l = []) by (destruct l; [reflexivity|simpl in Hi; lia]).
          subst l. injection Er as <- <-. simpl. lia.
      + replace (Z.of_nat (i mod c + 1) =? 0)%Z with false by (symmetry; apply Z.eqb_neq; lia).
        simpl. replace (S (i mod c)) with (i mod c + 1) by lia.
        repeat split; try lia; apply IH.
  Qed.

  Lemma lost_work_bound a zs nj c f d evs k :
    (0 < c)%Z ->
    uv_run worker a zs true nj (Some c) f = Returned d evs ->
    (Z.of_nat (unsaved (firstn k evs)) <= c)%Z.
  Proof.
    intros Hc H. apply returned_eq in H as [_ ->].
    set (u := starting_dict a true f). set (l := todo zs u).
    unfold loop_events. destruct l as [|z0 l0] eqn:El.
    { rewrite firstn_nil. unfold unsaved. simpl. lia. }
    rewrite <- El. set (l1 := l). clearbody l1. clear El z0 l0 l.
    cbv zeta.
    assert (G : forall evs, ub (Z.to_nat c) 0 evs ->
                (Z.of_nat (unsaved (firstn k evs)) <= c)%Z).
    { intros e He. apply (ub_prefix _ _ _ k) in He. unfold unsaved.
      fold ustep. change (fold_left _ (firstn k e) 0) with (fold_left ustep (firstn k e) 0). lia. }
    apply G. replace (0 <? c)%Z with true by (symmetry; apply Z.ltb_lt; lia).
    rewrite andb_true_r.
    assert (W : forall n dd, n <= Z.to_nat c -> ub (Z.to_nat c) n (write dd)).
    { intros n dd Hn. simpl. lia. }
    destruct (1 <? nj)%Z.
    - destruct (ub_chunks (Z.to_nat c) (chunk_list (Z.to_nat c) l1)
                  (chunk_list_small (Z.to_nat c) l1) u) as [U F].
      apply ub_app; [exact U|]. apply W. unfold ustep in F |- *. rewrite F. lia.
    - destruct (ub_seq (Z.to_nat c) (length l1) ltac:(lia) l1 0 u ltac:(lia)) as [U F].
      rewrite Z2Nat.id in U, F by lia. rewrite Nat.mod_0_l in U, F by lia.
      apply ub_app; [exact U|]. apply W. exact F.
  Qed.

  (** ** Torn writes *)

  Lemma torn_after_trunc a zs nj ck f d evs k :
    uv_run worker a zs true nj ck f = Returned d evs ->
    nth_error evs k = Some ETrunc ->
    file_after (Returned d evs) (S k) f = Torn.
  Proof.
    intros _ Hk. cbn [file_after].
    assert (E : firstn (S k) evs = firstn k evs ++ [ETrunc]).
    { revert k Hk. induction evs as [|e evs IH]; intros [|k] Hk; simpl in *; try discriminate.
      - injection Hk as ->. reflexivity.
      - rewrite <- IH by exact Hk. reflexivity. }
    rewrite E, fold_left_app. reflexivity.
  Qed.

  Lemma torn_forever a zs cs nj ck :
    after_crashes worker a zs Torn cs = Torn
    /\ uv_run worker a zs true nj ck Torn = Raised.
  Proof.
    split; [|reflexivity]. induction cs as [|c cs IH]; [reflexivity|]. exact IH.
  Qed.
End Proofs.

(** ** Keys *)

Lemma zkey_near z1 z2 : zkey z1 = zkey z2 -> (z1 - z2 <= 1#1000 /\ z2 - z1 <= 1#1000)%Q.
Proof.
  unfold zkey. intros H. injection H as H.
  pose proof (round_half_even_near (z1 * 1000)) as [A B].
  pose proof (round_half_even_near (z2 * 1000)) as [C D].
  rewrite H in A, B. lra.
Qed.

Lemma spaced_keys zs :
  (forall i j z1 z2, i < j -> nth_error zs i = Some z1 -> nth_error zs j = Some z2 ->
     (z1 - z2 > 1#1000 \/ z2 - z1 > 1#1000)%Q) ->
  distinct_keys zs.
Proof.
  unfold distinct_keys. induction zs as [|z zs IH]; intros H; simpl; [constructor|].
  constructor.
  - rewrite in_map_iff. intros (z' & E & Hin).
    apply In_nth_error in Hin as [j Hj]. apply zkey_near in E.
    destruct (H 0 (S j) z z' ltac:(lia) eq_refl Hj); lra.
  - apply IH. intros i j z1 z2 Hij H1 H2. exact (H (S i) (S j) z1 z2 ltac:(lia) H1 H2).
Qed.
