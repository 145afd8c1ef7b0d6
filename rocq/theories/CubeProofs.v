(** Proofs about the cubical complex maps. *)
From Coq Require Import List Arith ZArith Bool Lia.
From Verif Require Import CubeModel CubeSpec.
Import ListNotations.
Local Open Scope nat_scope.

Lemma idx_eqb_eq a b : idx_eqb a b = true <-> a = b.
Proof.
  destruct a as [[i j] k], b as [[x y] z]. unfold idx_eqb.
  rewrite !andb_true_iff, !Nat.eqb_eq. split; [intros [[-> ->] ->]; reflexivity|].
  intros H. injection H as -> -> ->. auto.
Qed.

Lemma upd_same m c v : upd m c v c = v.
Proof. unfold upd. replace (idx_eqb c c) with true; [reflexivity|]. symmetry. now apply idx_eqb_eq. Qed.
Lemma upd_other m c v d : d <> c -> upd m c v d = m d.
Proof.
  intros H. unfold upd. destruct (idx_eqb d c) eqn:E; [|reflexivity]. now apply idx_eqb_eq in E.
Qed.

Lemma in_cells is Ny Nz c :
  In c (cells is Ny Nz) <-> let '(i, j, k) := c in In i is /\ j < Ny /\ k < Nz.
Proof.
  destruct c as [[i j] k]. unfold cells. rewrite in_flat_map. split.
  - intros (i' & Hi & H). apply in_flat_map in H as (j' & Hj & H).
    apply in_map_iff in H as (k' & E & Hk). injection E as <- <- <-.
    apply in_seq in Hj, Hk. repeat split; [assumption|lia|lia].
  - intros (Hi & Hj & Hk). exists i. split; [assumption|]. apply in_flat_map. exists j.
    split; [apply in_seq; lia|]. apply in_map_iff. exists k. split; [reflexivity|]. apply in_seq; lia.
Qed.

(** ** One stage, any interleaving *)
Section Stage.
  Variables m0 T : mem.
  Definition between (m : mem) : Prop := forall c, m c = m0 c \/ m c = T c.
  Definition lem (m m' : mem) : Prop := forall c, m c = T c -> m' c = T c.

  Fixpoint good (m : mem) (c : idx) (p : prog) : Prop :=
    match p with
    | Ret None => m c = T c
    | Ret (Some (d, v)) => d = c /\ v = T c
    | Read l k => forall m', between m' -> lem m m' -> good m' c (k (m' l))
    end.

  Lemma lem_refl m : lem m m. Proof. intros c H; exact H. Qed.
  Lemma lem_trans a b c : lem a b -> lem b c -> lem a c. Proof. intros H K d E. auto. Qed.

  Lemma good_mono m m' c p : lem m m' -> good m c p -> good m' c p.
  Proof.
    intros L. destruct p as [[[d v]|]|l k]; cbn [good].
    - auto.
    - apply L.
    - intros H m'' B L'. apply H; [exact B|]. eapply lem_trans; eauto.
  Qed.

  Lemma upd_between m c : between m -> between (upd m c (T c)).
  Proof.
    intros B d. destruct (idx_eqb d c) eqn:E.
    - apply idx_eqb_eq in E as ->. right. apply upd_same.
    - unfold upd. rewrite E. apply B.
  Qed.
  Lemma upd_lem m c : lem m (upd m c (T c)).
  Proof.
    intros d E. unfold upd. destruct (idx_eqb d c) eqn:Ed; [|exact E]. apply idx_eqb_eq in Ed as ->. reflexivity.
  Qed.

  Lemma exec_good p m c : between m -> good m c p ->
    between (exec p m) /\ lem m (exec p m) /\ exec p m c = T c.
  Proof.
    revert m. induction p as [[[d v]|]|l k IH]; intros m B G; cbn [exec good] in *.
    - destruct G as [-> ->]. split; [now apply upd_between|]. split; [apply upd_lem|apply upd_same].
    - split; [exact B|]. split; [apply lem_refl|exact G].
    - apply IH; [exact B|]. apply G; [exact B|apply lem_refl].
  Qed.

  Lemma exec_all_good cs ps m : between m -> Forall2 (good m) cs ps ->
    between (exec_all ps m) /\ lem m (exec_all ps m) /\ forall c, In c cs -> exec_all ps m c = T c.
  Proof.
    intros B F. revert ps m B F. induction cs as [|c cs IH]; intros ps m B F; inversion F as [|? p ? ps' G F']; subst.
    - split; [exact B|]. split; [apply lem_refl|]. intros c [].
    - cbn [exec_all fold_left]. destruct (exec_good p m c B G) as (B1 & L1 & E1).
      assert (F1 : Forall2 (good (exec p m)) cs ps').
      { clear -F' L1. induction F'; constructor; [eapply good_mono; eauto|assumption]. }
      destruct (IH ps' _ B1 F1) as (B2 & L2 & E2). fold (exec_all ps' (exec p m)).
      split; [exact B2|]. split; [eapply lem_trans; eauto|].
      intros d [<-|Hd]; [apply L2; exact E1|now apply E2].
  Qed.

  (** *** Concurrent runs *)
  Definition Inv (ths : threads) (m : mem) : Prop :=
    between m /\ exists css : list (list idx), Forall2 (Forall2 (good m)) css ths
      /\ forall c, m c = T c \/ In c (concat css).

  Lemma Forall2_good_mono m m' (css : list (list idx)) ths : lem m m' ->
    Forall2 (Forall2 (good m)) css ths -> Forall2 (Forall2 (good m')) css ths.
  Proof.
    intros L. induction 1 as [|cs ps css ths H _ IH]; constructor; [|exact IH].
    induction H; constructor; [eapply good_mono; eauto|assumption].
  Qed.
  Lemma Forall2_good_mono1 m m' (cs : list idx) ps : lem m m' ->
    Forall2 (good m) cs ps -> Forall2 (good m') cs ps.
  Proof. intros L. induction 1; constructor; [eapply good_mono; eauto|assumption]. Qed.

  Lemma step_thread_ok cs ps m : between m -> Forall2 (good m) cs ps ->
    let (ps', m') := step_thread ps m in
    between m' /\ lem m m' /\ exists cs', Forall2 (good m') cs' ps'
      /\ forall c, In c cs -> m' c = T c \/ In c cs'.
  Proof.
    intros B F. destruct ps as [|[[[d v]|]|l k] ps']; cbn [step_thread].
    - inversion F; subst. split; [exact B|]. split; [apply lem_refl|]. exists []. split; [constructor|]. intros c [].
    - inversion F as [|c ? cs' ? G F']; subst. cbn [good] in G. destruct G as [-> ->].
      split; [now apply upd_between|]. split; [apply upd_lem|]. exists cs'. split.
      + eapply Forall2_good_mono1; [apply upd_lem|exact F'].
      + intros d [<-|H]; [left; apply upd_same|now right].
    - inversion F as [|c ? cs' ? G F']; subst. cbn [good] in G.
      split; [exact B|]. split; [apply lem_refl|]. exists cs'. split; [exact F'|].
      intros d [<-|H]; [now left|now right].
    - inversion F as [|c ? cs' ? G F']; subst. cbn [good] in G.
      split; [exact B|]. split; [apply lem_refl|]. exists (c :: cs'). split; [|now right].
      constructor; [|exact F']. apply G; [exact B|apply lem_refl].
  Qed.

  Lemma step_at_ok t ths m : Inv ths m -> let (ths', m') := step_at t ths m in Inv ths' m'.
  Proof.
    intros (B & css & F & C).
    assert (G : forall t ths css, Forall2 (Forall2 (good m)) css ths ->
       let (ths', m') := step_at t ths m in
       between m' /\ lem m m' /\ exists css', Forall2 (Forall2 (good m')) css' ths'
         /\ forall c, In c (concat css) -> m' c = T c \/ In c (concat css')).
    { clear t ths css F C. induction t as [|t IH]; intros ths css F.
      - destruct ths as [|ps ths]; cbn [step_at].
        + split; [exact B|]. split; [apply lem_refl|]. exists css. split; [exact F|]. now right.
        + inversion F as [|cs ? css' ? G F']; subst.
          pose proof (step_thread_ok cs ps m B G) as S. destruct (step_thread ps m) as [ps' m'].
          destruct S as (B' & L & cs' & F1 & C1). split; [exact B'|]. split; [exact L|].
          exists (cs' :: css'). split; [constructor; [exact F1|eapply Forall2_good_mono; eauto]|].
          cbn [concat]. intros c H. apply in_app_or in H as [H|H].
          * destruct (C1 c H); [now left|]. right. apply in_or_app. now left.
          * right. apply in_or_app. now right.
      - destruct ths as [|ps ths]; cbn [step_at].
        + split; [exact B|]. split; [apply lem_refl|]. exists css. split; [exact F|]. now right.
        + inversion F as [|cs ? css' ? G F']; subst.
          specialize (IH ths css' F'). destruct (step_at t ths m) as [ths' m'].
          destruct IH as (B' & L & css1 & F1 & C1). split; [exact B'|]. split; [exact L|].
          exists (cs :: css1). split; [constructor; [eapply Forall2_good_mono1; eauto|exact F1]|].
          cbn [concat]. intros c H. apply in_app_or in H as [H|H].
          * right. apply in_or_app. now left.
          * destruct (C1 c H); [now left|]. right. apply in_or_app. now right. }
    specialize (G t ths css F). destruct (step_at t ths m) as [ths' m'].
    destruct G as (B' & L & css' & F' & C'). split; [exact B'|]. exists css'. split; [exact F'|].
    intros c. destruct (C c) as [E|H]; [left; now apply L|now apply C'].
  Qed.

  Lemma run_schedule_ok sched ths m : Inv ths m ->
    let (ths', m') := run_schedule sched ths m in Inv ths' m'.
  Proof.
    unfold run_schedule. revert ths m. induction sched as [|t sched IH]; intros ths m H; cbn [fold_left]; [exact H|].
    pose proof (step_at_ok t ths m H) as S. cbn [fst snd]. destruct (step_at t ths m) as [ths' m']. now apply IH.
  Qed.

  Lemma Inv_done ths m : Inv ths m -> all_done ths = true -> forall c, m c = T c.
  Proof.
    intros (B & css & F & C) D c. destruct (C c) as [E|H]; [exact E|exfalso].
    apply in_concat in H as (cs & Hcs & Hc).
    unfold all_done in D. rewrite forallb_forall in D.
    apply In_nth_error in Hcs as [n Hn].
    assert (exists ps, nth_error ths n = Some ps /\ Forall2 (good m) cs ps) as (ps & Hps & G).
    { clear -F Hn. revert n Hn. induction F as [|a b la lb Hab _ IH]; intros [|n] Hn; cbn in *; try discriminate.
      - injection Hn as <-. eauto.
      - now apply IH. }
    apply nth_error_In in Hps. specialize (D ps Hps). destruct ps; [|discriminate].
    inversion G; subst. destruct Hc.
  Qed.

  (** *** When a loop body is good *)
  Lemma good_all_eq cs mk yes no c m :
    (forall l, In l cs -> forall m', between m' -> (m' l =? mk)%Z = (m0 l =? mk)%Z) ->
    (both m0 mk cs = true -> forall m', between m' -> lem m m' -> good m' c yes) ->
    (both m0 mk cs = false -> forall m', between m' -> lem m m' -> good m' c no) ->
    between m -> good m c (all_eq cs mk yes no).
  Proof.
    revert m. induction cs as [|l cs IH]; intros m S Y N B; cbn [all_eq].
    - apply Y; [reflexivity|exact B|apply lem_refl].
    - cbn [good]. intros m' B' L. rewrite (S l (or_introl eq_refl) m' B').
      cbn [both forallb] in Y, N. fold (both m0 mk cs) in Y, N.
      destruct (m0 l =? mk)%Z eqn:E.
      + apply IH; [intros; apply S; [now right|assumption]| | |exact B'].
        * intros H m'' B'' L''. apply Y; [exact H|exact B''|eapply lem_trans; eauto].
        * intros H m'' B'' L''. apply N; [exact H|exact B''|eapply lem_trans; eauto].
      + apply N; [reflexivity|exact B'|exact L].
  Qed.

  Variable cur : Z.
  (** This stage only turns zeros into [cur]. *)
  Hypothesis Tstep : forall c, T c = m0 c \/ (m0 c = 0%Z /\ T c = cur).

  Lemma stable mk l m : (mk <> 0)%Z -> (mk <> cur)%Z -> between m -> (m l =? mk)%Z = (m0 l =? mk)%Z.
  Proof.
    intros H1 H2 B. destruct (B l) as [->| ->]; [reflexivity|].
    destruct (Tstep l) as [-> |[-> ->]]; [reflexivity|].
    destruct (Z.eqb_spec cur mk); [congruence|]. destruct (Z.eqb_spec 0 mk); [congruence|reflexivity].
  Qed.

  Lemma good_guard c (inner : prog) m :
    (m0 c = 0%Z -> forall m', between m' -> lem m m' -> good m' c inner) ->
    between m -> good m c (Read c (fun v => if Z.eqb v 0 then inner else Ret None)).
  Proof.
    intros H B. cbn [good]. intros m' B' L. destruct (Z.eqb_spec (m' c) 0) as [E|E].
    - apply H; [|exact B'|exact L]. destruct (B' c) as [E'|E']; [congruence|].
      destruct (Tstep c) as [E2|[E2 _]]; congruence.
    - cbn [good]. destruct (B' c) as [E'|E']; [|exact E'].
      destruct (Tstep c) as [E2|[E2 _]]; congruence.
  Qed.
End Stage.

(** ** Geometry *)

Lemma prv_lt N i : 0 < N -> prv N i < N.
Proof. intros. apply Nat.mod_upper_bound. lia. Qed.
Lemma nxt_lt N i : 0 < N -> nxt N i < N.
Proof. intros. apply Nat.mod_upper_bound. lia. Qed.

Lemma prv_val N i : i < N -> prv N i = if i =? 0 then N - 1 else i - 1.
Proof.
  intros H. unfold prv. destruct (Nat.eqb_spec i 0) as [->|E].
  - apply Nat.mod_small. lia.
  - replace (i + (N - 1)) with (i - 1 + 1 * N) by lia. rewrite Nat.mod_add by lia. apply Nat.mod_small. lia.
Qed.
Lemma nxt_val N i : i < N -> nxt N i = if i =? N - 1 then 0 else i + 1.
Proof.
  intros H. unfold nxt. destruct (Nat.eqb_spec i (N - 1)) as [->|E].
  - replace (N - 1 + 1) with N by lia. apply Nat.mod_same. lia.
  - apply Nat.mod_small. lia.
Qed.

Lemma odd_double n : Nat.odd (2 * n) = false.
Proof. rewrite Nat.odd_mul. reflexivity. Qed.

Lemma odd_prv n i : i < 2 * n -> Nat.odd (prv (2 * n) i) = negb (Nat.odd i).
Proof.
  intros H. rewrite prv_val by exact H. destruct (Nat.eqb_spec i 0) as [->|E].
  - rewrite Nat.odd_sub by lia. rewrite odd_double. reflexivity.
  - rewrite Nat.odd_sub by lia. cbn. now destruct (Nat.odd i).
Qed.
Lemma odd_nxt n i : i < 2 * n -> Nat.odd (nxt (2 * n) i) = negb (Nat.odd i).
Proof.
  intros H. rewrite nxt_val by exact H. destruct (Nat.eqb_spec i (2 * n - 1)) as [->|E].
  - rewrite Nat.odd_sub by lia. rewrite odd_double. reflexivity.
  - rewrite Nat.odd_add. cbn. now destruct (Nat.odd i).
Qed.

Lemma corners_even n p : corners n (2 * p) = [p].
Proof.
  unfold corners. replace (Nat.even (2 * p)) with true by (symmetry; rewrite Nat.even_mul; reflexivity).
  f_equal. rewrite Nat.mul_comm. apply Nat.div_mul. lia.
Qed.
Lemma corners_odd n p : corners n (2 * p + 1) = [p; (p + 1) mod n].
Proof.
  unfold corners. replace (Nat.even (2 * p + 1)) with false.
  2:{ symmetry. rewrite <- Nat.negb_odd, Nat.odd_add, odd_double. reflexivity. }
  replace ((2 * p + 1) / 2) with p; [reflexivity|].
  apply Nat.div_unique with 1; lia.
Qed.

Lemma nxt_odd_pos n p : p < n -> nxt (2 * n) (2 * p + 1) = 2 * ((p + 1) mod n).
Proof.
  intros H. rewrite nxt_val by lia. destruct (Nat.eqb_spec (2 * p + 1) (2 * n - 1)) as [E|E].
  - replace (p + 1) with n by lia. rewrite Nat.mod_same by lia. reflexivity.
  - rewrite Nat.mod_small by lia. lia.
Qed.

(** An odd coordinate is the segment between its two neighbours. *)
Lemma corners_split n i : i < 2 * n -> Nat.odd i = true ->
  corners n i = corners n (prv (2 * n) i) ++ corners n (nxt (2 * n) i).
Proof.
  intros H O. apply Nat.odd_spec in O as [p ->].
  rewrite nxt_odd_pos by lia. rewrite prv_val by lia.
  replace (2 * p + 1 =? 0) with false by (symmetry; apply Nat.eqb_neq; lia).
  replace (2 * p + 1 - 1) with (2 * p) by lia.
  rewrite corners_odd, !corners_even. reflexivity.
Qed.

(** A vertex is a corner of both neighbouring segments. *)
Lemma corners_sub n i x : i < 2 * n -> Nat.odd i = false -> In x (corners n i) ->
  In x (corners n (prv (2 * n) i)) /\ In x (corners n (nxt (2 * n) i)).
Proof.
  intros H O I. rewrite <- Nat.negb_even in O. apply negb_false_iff in O. apply Nat.even_spec in O as [p ->].
  rewrite corners_even in I. destruct I as [<-|[]].
  rewrite nxt_val by lia. replace (2 * p =? 2 * n - 1) with false by (symmetry; apply Nat.eqb_neq; lia).
  rewrite corners_odd. split; [|now left].
  rewrite prv_val by lia. destruct (Nat.eqb_spec (2 * p) 0) as [E|E].
  - replace (2 * n - 1) with (2 * (n - 1) + 1) by lia. rewrite corners_odd. right. left.
    replace (n - 1 + 1) with n by lia. rewrite Nat.mod_same by lia. lia.
  - replace (2 * p - 1) with (2 * (p - 1) + 1) by lia. rewrite corners_odd. right. left.
    replace (p - 1 + 1) with p by lia. apply Nat.mod_small. lia.
Qed.

Section Complex.
  Variables (nx ny nz : nat) (A : idx -> bool).
  Local Notation pres := (present nx ny nz A).

  Lemma pres_iff i j k : pres (i, j, k) = true <->
    forall x y z, In x (corners nx i) -> In y (corners ny j) -> In z (corners nz k) -> A (x, y, z) = true.
  Proof.
    unfold present. rewrite forallb_forall. split.
    - intros H x y z Hx Hy Hz. specialize (H x Hx). rewrite forallb_forall in H. specialize (H y Hy).
      rewrite forallb_forall in H. now apply H.
    - intros H x Hx. apply forallb_forall. intros y Hy. apply forallb_forall. intros z Hz. now apply H.
  Qed.

  Lemma px_odd i j k : i < 2 * nx -> Nat.odd i = true ->
    pres (i, j, k) = pres (prv (2 * nx) i, j, k) && pres (nxt (2 * nx) i, j, k).
  Proof.
    intros H O. apply eq_true_iff_eq. rewrite andb_true_iff, !pres_iff, (corners_split nx i H O). split.
    - intros K. split; intros x y z Hx Hy Hz; apply K; auto; apply in_or_app; auto.
    - intros [K1 K2] x y z Hx Hy Hz. apply in_app_or in Hx as [Hx|Hx]; auto.
  Qed.
  Lemma py_odd i j k : j < 2 * ny -> Nat.odd j = true ->
    pres (i, j, k) = pres (i, prv (2 * ny) j, k) && pres (i, nxt (2 * ny) j, k).
  Proof.
    intros H O. apply eq_true_iff_eq. rewrite andb_true_iff, !pres_iff, (corners_split ny j H O). split.
    - intros K. split; intros x y z Hx Hy Hz; apply K; auto; apply in_or_app; auto.
    - intros [K1 K2] x y z Hx Hy Hz. apply in_app_or in Hy as [Hy|Hy]; auto.
  Qed.
  Lemma pz_odd i j k : k < 2 * nz -> Nat.odd k = true ->
    pres (i, j, k) = pres (i, j, prv (2 * nz) k) && pres (i, j, nxt (2 * nz) k).
  Proof.
    intros H O. apply eq_true_iff_eq. rewrite andb_true_iff, !pres_iff, (corners_split nz k H O). split.
    - intros K. split; intros x y z Hx Hy Hz; apply K; auto; apply in_or_app; auto.
    - intros [K1 K2] x y z Hx Hy Hz. apply in_app_or in Hz as [Hz|Hz]; auto.
  Qed.

  Lemma px_even i j k : i < 2 * nx -> Nat.odd i = false ->
    (pres (prv (2 * nx) i, j, k) = true -> pres (i, j, k) = true).
  Proof.
    intros H O. rewrite !pres_iff. intros K x y z Hx Hy Hz. apply K; auto. apply (corners_sub nx i x H O Hx).
  Qed.
  Lemma py_even i j k : j < 2 * ny -> Nat.odd j = false ->
    (pres (i, prv (2 * ny) j, k) = true -> pres (i, j, k) = true).
  Proof.
    intros H O. rewrite !pres_iff. intros K x y z Hx Hy Hz. apply K; auto. apply (corners_sub ny j y H O Hy).
  Qed.
  Lemma pz_even i j k : k < 2 * nz -> Nat.odd k = false ->
    (pres (i, j, prv (2 * nz) k) = true -> pres (i, j, k) = true).
  Proof.
    intros H O. rewrite !pres_iff. intros K x y z Hx Hy Hz. apply K; auto. apply (corners_sub nz k z H O Hz).
  Qed.

  Definition boxb (c : idx) : bool :=
    let '(i, j, k) := c in (i <? 2 * nx) && (j <? 2 * ny) && (k <? 2 * nz).
  Lemma boxb_iff c : boxb c = true <-> in_box (2 * nx) (2 * ny) (2 * nz) c.
  Proof. destruct c as [[i j] k]. unfold boxb, in_box. rewrite !andb_true_iff, !Nat.ltb_lt. tauto. Qed.

  (** The map after stage [s]: cells of dimension at most [s]. *)
  Definition after (s : nat) (c : idx) : Z :=
    if boxb c && (pres c && (dim c <=? s)) then Z.of_nat (S (dim c)) else 0%Z.

  Lemma after_box s i j k : i < 2 * nx -> j < 2 * ny -> k < 2 * nz ->
    after s (i, j, k) = if pres (i, j, k) && (dim (i, j, k) <=? s) then Z.of_nat (S (dim (i, j, k))) else 0%Z.
  Proof.
    intros Hi Hj Hk. unfold after. replace (boxb (i, j, k)) with true; [reflexivity|].
    symmetry. apply boxb_iff. repeat split; assumption.
  Qed.

  Ltac stage_tac Hi Hj Hk i j k :=
    assert (Pi := prv_lt (2 * nx) i ltac:(lia)); assert (Ni := nxt_lt (2 * nx) i ltac:(lia));
    assert (Pj := prv_lt (2 * ny) j ltac:(lia)); assert (Nj := nxt_lt (2 * ny) j ltac:(lia));
    assert (Pk := prv_lt (2 * nz) k ltac:(lia)); assert (Nk := nxt_lt (2 * nz) k ltac:(lia));
    rewrite !after_box by assumption;
    pose proof (px_odd i j k Hi) as PXO; pose proof (py_odd i j k Hj) as PYO; pose proof (pz_odd i j k Hk) as PZO;
    pose proof (px_even i j k Hi) as PXE; pose proof (py_even i j k Hj) as PYE; pose proof (pz_even i j k Hk) as PZE;
    cbn [dim]; rewrite ?odd_prv, ?odd_nxt by assumption;
    destruct (Nat.odd i), (Nat.odd j), (Nat.odd k);
    repeat match goal with
           | H : true = true -> _ |- _ => specialize (H eq_refl)
           | H : false = false -> _ |- _ => specialize (H eq_refl)
           | H : true = false -> _ |- _ => clear H
           | H : false = true -> _ |- _ => clear H
           end;
    cbn [negb Nat.b2n Nat.add Nat.leb]; rewrite ?andb_true_r, ?andb_false_r;
    repeat match goal with
           | |- context [pres ?c] => destruct (pres c)
           end;
    cbn in *; try reflexivity;
    repeat match goal with
           | H : true = true -> _ |- _ => specialize (H eq_refl)
           | H : true = false |- _ => discriminate H
           | H : false = true |- _ => discriminate H
           end.

  Lemma edge_stage i j k : i < 2 * nx -> j < 2 * ny -> k < 2 * nz ->
    after 1 (i, j, k) =
    if Z.eqb (after 0 (i, j, k)) 0
       && (both (after 0) 1 (pair_x (2 * nx) (i, j, k)) || both (after 0) 1 (pair_y (2 * ny) (i, j, k))
           || both (after 0) 1 (pair_z (2 * nz) (i, j, k)))
    then 2%Z else after 0 (i, j, k).
  Proof.
    intros Hi Hj Hk. unfold both, pair_x, pair_y, pair_z, forallb. stage_tac Hi Hj Hk i j k.
  Qed.

  Lemma face_stage i j k : i < 2 * nx -> j < 2 * ny -> k < 2 * nz ->
    after 2 (i, j, k) =
    let x := both (after 1) 2 (pair_x (2 * nx) (i, j, k)) in
    let y := both (after 1) 2 (pair_y (2 * ny) (i, j, k)) in
    let z := both (after 1) 2 (pair_z (2 * nz) (i, j, k)) in
    if Z.eqb (after 1 (i, j, k)) 0 && (x && y || y && z || z && x)
    then 3%Z else after 1 (i, j, k).
  Proof.
    intros Hi Hj Hk. unfold both, pair_x, pair_y, pair_z, forallb. stage_tac Hi Hj Hk i j k.
  Qed.

  Lemma cube_stage i j k : i < 2 * nx -> j < 2 * ny -> k < 2 * nz ->
    after 3 (i, j, k) =
    let x := both (after 2) 3 (pair_x (2 * nx) (i, j, k)) in
    let y := both (after 2) 3 (pair_y (2 * ny) (i, j, k)) in
    let z := both (after 2) 3 (pair_z (2 * nz) (i, j, k)) in
    if Z.eqb (after 2 (i, j, k)) 0 && (x && y && z)
    then 4%Z else after 2 (i, j, k).
  Proof.
    intros Hi Hj Hk. unfold both, pair_x, pair_y, pair_z, forallb. stage_tac Hi Hj Hk i j k.
  Qed.
End Complex.

(** ** The backends *)
Section Backends.
  Variables (nx ny nz : nat) (A : idx -> bool).
  Local Notation aft := (after nx ny nz A).
  Definition pre (s : nat) : mem := match s with 0 => fun _ => 0%Z | S s' => aft s' end.
  Definition resp (s : nat) (c : idx) : idx :=
    match s with 0 => let '(i, j, k) := c in (i * 2, j * 2, k * 2) | _ => c end.
  Definition in_dom (s : nat) (c : idx) : Prop := in_box (domain nx s) (domain ny s) (domain nz s) c.

  Lemma pre_step s c : aft s c = pre s c \/ (pre s c = 0%Z /\ aft s c = Z.of_nat (S s)).
  Proof.
    unfold after. destruct s as [|s]; cbn [pre].
    - destruct (boxb nx ny nz c && (present nx ny nz A c && (dim c <=? 0))) eqn:E; [right|now left].
      split; [reflexivity|]. rewrite !andb_true_iff, Nat.leb_le in E. f_equal. lia.
    - unfold after. destruct (boxb nx ny nz c); [|now left]. destruct (present nx ny nz A c); [|now left].
      cbn [andb]. destruct (Nat.leb_spec (dim c) (S s)) as [L|L], (Nat.leb_spec (dim c) s) as [L'|L']; try (now left); [|lia].
      right. split; [reflexivity|]. f_equal. lia.
  Qed.

  Lemma present_vertex i j k : present nx ny nz A (i * 2, j * 2, k * 2) = A (i, j, k).
  Proof.
    unfold present. rewrite !(Nat.mul_comm _ 2), !corners_even. cbn [forallb].
    now rewrite !andb_true_r.
  Qed.

  Lemma after_vertex i j k : i < nx -> j < ny -> k < nz ->
    aft 0 (i * 2, j * 2, k * 2) = if A (i, j, k) then 1%Z else 0%Z.
  Proof.
    intros Hi Hj Hk. rewrite after_box by lia. rewrite present_vertex.
    assert (D : dim (i * 2, j * 2, k * 2) = 0).
    { unfold dim. rewrite !(Nat.mul_comm _ 2), !odd_double. reflexivity. }
    rewrite D. cbn [Nat.leb]. now rewrite andb_true_r.
  Qed.

  Lemma body_good s c m : s < 4 -> in_dom s c -> between (pre s) (aft s) m ->
    good (pre s) (aft s) m (resp s c) (body nx ny nz true A s c).
  Proof.
    intros Hs Hd B. destruct c as [[i j] k]. unfold in_dom, in_box in Hd.
    pose proof (pre_step s) as PS.
    destruct s as [|[|[|[|s]]]]; [| | | |lia]; cbn [domain] in Hd; destruct Hd as (Hi & Hj & Hk); cbn [body resp].
    - unfold vertex_body. destruct (A (i, j, k)) eqn:E.
      + cbn [good]. split; [reflexivity|]. rewrite after_vertex by assumption. rewrite E. reflexivity.
      + cbn [good]. destruct (B (i * 2, j * 2, k * 2)) as [E'|E']; rewrite E'; [|reflexivity].
        rewrite after_vertex by assumption. rewrite E. reflexivity.
    - unfold edge_body. apply (good_guard _ _ 2%Z); [exact PS| |exact B].
      intros E0 m1 B1 L1. cbn [pre] in *.
      pose proof (edge_stage nx ny nz A i j k Hi Hj Hk) as ES. rewrite E0 in ES. cbn [Z.eqb andb] in ES.
      assert (ST : forall l m', between (aft 0) (aft 1) m' -> (m' l =? 1)%Z = (aft 0 l =? 1)%Z).
      { intros l m' B'. apply (stable _ _ 2%Z PS); [lia|lia|exact B']. }
      change (marker true 0) with 1%Z. change (marker true 1) with 2%Z.
      apply good_all_eq; [intros l _ m'; apply ST| | |exact B1].
      + intros H m' B' L'. cbn [good]. split; [reflexivity|]. rewrite ES, H. reflexivity.
      + intros Hx m2 B2 L2. apply good_all_eq; [intros l _ m'; apply ST| | |exact B2].
        * intros H m' B' L'. cbn [good]. split; [reflexivity|]. rewrite ES, Hx, H. reflexivity.
        * intros Hy m3 B3 L3. apply good_all_eq; [intros l _ m'; apply ST| | |exact B3].
          -- intros H m' B' L'. cbn [good]. split; [reflexivity|]. rewrite ES, Hx, Hy, H. reflexivity.
          -- intros Hz m' B' L'. cbn [good]. rewrite Hx, Hy, Hz in ES. cbn [orb] in ES. 
             destruct (B' (i, j, k)) as [E|E]; [rewrite E, ES; exact E0|exact E].
    - unfold face_body. apply (good_guard _ _ 3%Z); [exact PS| |exact B].
      intros E0 m1 B1 L1. cbn [pre] in *.
      pose proof (face_stage nx ny nz A i j k Hi Hj Hk) as ES. rewrite E0 in ES. cbv zeta in ES. cbn [Z.eqb andb] in ES.
      assert (ST : forall l m', between (aft 1) (aft 2) m' -> (m' l =? 2)%Z = (aft 1 l =? 2)%Z).
      { intros l m' B'. apply (stable _ _ 3%Z PS); [lia|lia|exact B']. }
      change (marker true 1) with 2%Z. change (marker true 2) with 3%Z.
      assert (BA : forall m v a b, both m v (a ++ b) = both m v a && both m v b).
      { intros. apply forallb_app. }
      apply good_all_eq; [intros l _ m'; apply ST| | |exact B1]; rewrite BA.
      + intros H m' B' L'. cbn [good]. split; [reflexivity|]. rewrite ES, H. reflexivity.
      + intros Hx m2 B2 L2. apply good_all_eq; [intros l _ m'; apply ST| | |exact B2]; rewrite BA.
        * intros H m' B' L'. cbn [good]. split; [reflexivity|]. rewrite ES, Hx, H. reflexivity.
        * intros Hy m3 B3 L3. apply good_all_eq; [intros l _ m'; apply ST| | |exact B3]; rewrite BA.
          -- intros H m' B' L'. cbn [good]. split; [reflexivity|]. rewrite ES, Hx, Hy, H. reflexivity.
          -- intros Hz m' B' L'. cbn [good]. rewrite Hx, Hy, Hz in ES. cbn [orb] in ES. 
             destruct (B' (i, j, k)) as [E|E]; [rewrite E, ES; exact E0|exact E].
    - unfold cube_body. apply (good_guard _ _ 4%Z); [exact PS| |exact B].
      intros E0 m1 B1 L1. cbn [pre] in *.
      pose proof (cube_stage nx ny nz A i j k Hi Hj Hk) as ES. rewrite E0 in ES. cbv zeta in ES. cbn [Z.eqb andb] in ES.
      assert (ST : forall l m', between (aft 2) (aft 3) m' -> (m' l =? 3)%Z = (aft 2 l =? 3)%Z).
      { intros l m' B'. apply (stable _ _ 4%Z PS); [lia|lia|exact B']. }
      change (marker true 2) with 3%Z. change (marker true 3) with 4%Z.
      assert (BA : forall m v a b, both m v (a ++ b) = both m v a && both m v b).
      { intros. apply forallb_app. }
      apply good_all_eq; [intros l _ m'; apply ST| | |exact B1]; rewrite !BA, andb_assoc.
      + intros H m' B' L'. cbn [good]. split; [reflexivity|]. rewrite ES, H. reflexivity.
      + intros Hx m' B' L'. cbn [good]. rewrite Hx in ES.
        destruct (B' (i, j, k)) as [E|E]; [rewrite E, ES; exact E0|exact E].
  Qed.

  Lemma covered s c : s < 4 -> pre s c = aft s c \/ exists d, in_dom s d /\ c = resp s d.
  Proof.
    intros Hs. destruct (pre_step s c) as [E|[E0 E]]; [now left|right].
    destruct c as [[i j] k]. unfold after in E.
    destruct (boxb nx ny nz (i, j, k) && (present nx ny nz A (i, j, k) && (dim (i, j, k) <=? s))) eqn:G; [|lia].
    rewrite !andb_true_iff, boxb_iff, Nat.leb_le in G. destruct G as (IB & _ & D). unfold in_box in IB.
    destruct s as [|s].
    - assert (D0 : dim (i, j, k) = 0) by lia. unfold dim in D0.
      assert (O : Nat.odd i = false /\ Nat.odd j = false /\ Nat.odd k = false).
      { destruct (Nat.odd i), (Nat.odd j), (Nat.odd k); cbn in D0; try lia; auto. }
      destruct O as (Oi & Oj & Ok).
      rewrite <- Nat.negb_even in Oi, Oj, Ok. apply negb_false_iff in Oi, Oj, Ok.
      apply Nat.even_spec in Oi as [p ->], Oj as [q ->], Ok as [r ->].
      exists (p, q, r). split; [unfold in_dom, in_box; cbn [domain]; lia|].
      cbn [resp]. f_equal; [f_equal|]; lia.
    - exists (i, j, k). split; [unfold in_dom, in_box; cbn [domain]; lia|reflexivity].
  Qed.

  Lemma chunk_cover d n i : 0 < n -> i < d -> exists t, t < n /\ In i (chunk d n t).
  Proof.
    intros Hn Hi. unfold chunk. set (cs := chunk_size d n).
    assert (Hc : d <= n * cs).
    { unfold cs, chunk_size. pose proof (Nat.div_mod (d + n - 1) n ltac:(lia)).
      pose proof (Nat.mod_upper_bound (d + n - 1) n ltac:(lia)). lia. }
    assert (0 < cs) by (destruct cs; lia).
    exists (i / cs). split.
    - apply Nat.div_lt_upper_bound; lia.
    - pose proof (Nat.div_mod i cs ltac:(lia)) as DM. pose proof (Nat.mod_upper_bound i cs ltac:(lia)) as MB.
      apply in_seq. nia.
  Qed.
  Lemma chunk_range d n t i : In i (chunk d n t) -> i < d.
  Proof. unfold chunk. intros H. apply in_seq in H. lia. Qed.

  Lemma stage_start s n m : s < 4 -> 0 < n -> (forall c, m c = pre s c) ->
    Inv (pre s) (aft s) (stage_threads nx ny nz true A n s) m.
  Proof.
    intros Hs Hn E. assert (B : between (pre s) (aft s) m) by (intros c; left; apply E).
    split; [exact B|].
    exists (map (fun i => map (resp s) (cells (chunk (domain nx s) n i) (domain ny s) (domain nz s))) (seq 0 n)).
    split.
    - unfold stage_threads. generalize (seq 0 n) as l. induction l as [|t l IH]; cbn [map]; constructor; [|exact IH].
      unfold stage_progs.
      assert (G : forall c, In c (cells (chunk (domain nx s) n t) (domain ny s) (domain nz s)) ->
                   good (pre s) (aft s) m (resp s c) (body nx ny nz true A s c)).
      { intros c Hc. apply body_good; [exact Hs| |exact B]. apply in_cells in Hc. destruct c as [[i j] k].
        unfold in_dom, in_box. destruct Hc as (Hi & Hj & Hk). apply chunk_range in Hi. auto. }
      revert G. generalize (cells (chunk (domain nx s) n t) (domain ny s) (domain nz s)) as l'.
      induction l' as [|c l' IH']; intros G; cbn [map]; constructor; [apply G; now left|].
      apply IH'. intros d Hd. apply G. now right.
    - intros c. destruct (covered s c Hs) as [E'|(d & Hd & ->)]; [left; rewrite E; exact E'|right].
      destruct d as [[i j] k]. unfold in_dom, in_box in Hd. destruct Hd as (Hi & Hj & Hk).
      destruct (chunk_cover _ n i Hn Hi) as (t & Ht & Hit).
      apply in_concat. eexists. split; [apply in_map_iff; exists t; split; [reflexivity|apply in_seq; lia]|].
      apply in_map. apply in_cells. auto.
  Qed.

  Lemma joblib_ok n sched r : 0 < n -> CubeMap_joblib nx ny nz true A n sched = Some r ->
    forall c, r c = aft 3 c.
  Proof.
    intros Hn. unfold CubeMap_joblib.
    assert (Step : forall s m m', s < 4 -> (forall c, m c = pre s c) ->
       (let (ths, m') := run_schedule (sched s) (stage_threads nx ny nz true A n s) m in
        if all_done ths then Some m' else None) = Some m' -> forall c, m' c = aft s c).
    { intros s m m' Hs E H c. pose proof (run_schedule_ok _ _ (sched s) _ m (stage_start s n m Hs Hn E)) as I.
      destruct (run_schedule (sched s) (stage_threads nx ny nz true A n s) m) as [ths m''].
      destruct (all_done ths) eqn:D; [|discriminate]. injection H as <-. eapply Inv_done; eauto. }
    cbn [seq fold_left].
    match goal with |- context [match ?o with Some _ => _ | None => None end] => idtac end.
    set (o1 := let (ths, m') := run_schedule (sched 0) (stage_threads nx ny nz true A n 0) (fun _ => 0%Z) in
               if all_done ths then Some m' else None).
    destruct o1 as [m1|] eqn:E1; [|discriminate]. unfold o1 in E1.
    pose proof (Step 0 _ m1 ltac:(lia) (fun _ => eq_refl) E1) as S1. clear o1 E1.
    set (o2 := let (ths, m') := run_schedule (sched 1) (stage_threads nx ny nz true A n 1) m1 in
               if all_done ths then Some m' else None).
    destruct o2 as [m2|] eqn:E2; [|discriminate]. unfold o2 in E2.
    pose proof (Step 1 _ m2 ltac:(lia) S1 E2) as S2. clear o2 E2.
    set (o3 := let (ths, m') := run_schedule (sched 2) (stage_threads nx ny nz true A n 2) m2 in
               if all_done ths then Some m' else None).
    destruct o3 as [m3|] eqn:E3; [|discriminate]. unfold o3 in E3.
    pose proof (Step 2 _ m3 ltac:(lia) S2 E3) as S3. clear o3 E3.
    intros E4. exact (Step 3 _ r ltac:(lia) S3 E4).
  Qed.

  Lemma sequential_stage s m : s < 4 -> (forall c, m c = pre s c) ->
    forall c, exec_all (stage_progs nx ny nz true A s (seq 0 (domain nx s))) m c = aft s c.
  Proof.
    intros Hs E c. assert (B : between (pre s) (aft s) m) by (intros d; left; apply E).
    unfold stage_progs. set (cl := cells (seq 0 (domain nx s)) (domain ny s) (domain nz s)).
    assert (F : Forall2 (good (pre s) (aft s) m) (map (resp s) cl) (map (body nx ny nz true A s) cl)).
    { assert (G : forall c, In c cl -> good (pre s) (aft s) m (resp s c) (body nx ny nz true A s c)).
      { intros d Hd. apply body_good; [exact Hs| |exact B]. apply in_cells in Hd. destruct d as [[i j] k].
        unfold in_dom, in_box. destruct Hd as (Hi & Hj & Hk). apply in_seq in Hi. repeat split; [lia|exact Hj|exact Hk]. }
      clearbody cl. clear -G. induction cl as [|d cl IH]; cbn [map]; constructor; [apply G; now left|].
      apply IH. intros e He. apply G. now right. }
    destruct (exec_all_good _ _ _ _ m B F) as (B' & L & D).
    destruct (covered s c Hs) as [E'|(d & Hd & ->)].
    - apply L. rewrite E. exact E'.
    - apply D. apply in_map. apply in_cells. destruct d as [[i j] k]. unfold in_dom, in_box in Hd.
      destruct Hd as (Hi & Hj & Hk). repeat split; [apply in_seq; lia|exact Hj|exact Hk].
  Qed.

  Lemma CubeMap_ok c : CubeMap nx ny nz true A c = aft 3 c.
  Proof.
    unfold CubeMap. cbn [seq fold_left].
    repeat (apply sequential_stage; [lia|]; intros ?). reflexivity.
  Qed.

  Lemma after3 c : in_box (2 * nx) (2 * ny) (2 * nz) c -> aft 3 c = complex_map nx ny nz A c.
  Proof.
    intros H. unfold after, complex_map. apply boxb_iff in H. rewrite H. cbn [andb].
    replace (dim c <=? 3) with true; [now rewrite andb_true_r|]. symmetry. apply Nat.leb_le.
    destruct c as [[i j] k]. unfold dim. destruct (Nat.odd i), (Nat.odd j), (Nat.odd k); cbn; lia.
  Qed.

  Lemma both_ext N1 N2 N3 (m m' : mem) v i j k :
    (forall c, in_box N1 N2 N3 c -> m c = m' c) -> i < N1 -> j < N2 -> k < N3 ->
    both m v (pair_x N1 (i, j, k)) = both m' v (pair_x N1 (i, j, k))
    /\ both m v (pair_y N2 (i, j, k)) = both m' v (pair_y N2 (i, j, k))
    /\ both m v (pair_z N3 (i, j, k)) = both m' v (pair_z N3 (i, j, k)).
  Proof.
    intros E Hi Hj Hk.
    assert (Pi := prv_lt N1 i ltac:(lia)); assert (Ni := nxt_lt N1 i ltac:(lia)).
    assert (Pj := prv_lt N2 j ltac:(lia)); assert (Nj := nxt_lt N2 j ltac:(lia)).
    assert (Pk := prv_lt N3 k ltac:(lia)); assert (Nk := nxt_lt N3 k ltac:(lia)).
    unfold both, pair_x, pair_y, pair_z. cbn [forallb].
    rewrite !E by (unfold in_box; auto). auto.
  Qed.

  Lemma torch_ok c : in_box (2 * nx) (2 * ny) (2 * nz) c -> CubeMap_torch nx ny nz true A c = aft 3 c.
  Proof.
    revert c. unfold CubeMap_torch.
    set (m0 := (fun c : idx => let '(i, j, k) := c in _) : mem).
    assert (H0 : forall c, in_box (2 * nx) (2 * ny) (2 * nz) c -> m0 c = aft 0 c).
    { intros [[i j] k] (Hi & Hj & Hk). rewrite after_box by assumption. unfold m0, dim.
      rewrite <- !Nat.negb_odd.
      destruct (Nat.odd i) eqn:Oi; [cbn [Nat.b2n Nat.add Nat.leb negb andb]; now rewrite andb_false_r|].
      destruct (Nat.odd j) eqn:Oj; [cbn [Nat.b2n Nat.add Nat.leb negb andb]; now rewrite andb_false_r|].
      destruct (Nat.odd k) eqn:Ok; [cbn [Nat.b2n Nat.add Nat.leb negb andb]; now rewrite andb_false_r|].
      cbn [negb andb Nat.b2n Nat.add Nat.leb]. rewrite andb_true_r.
      rewrite <- Nat.negb_even in Oi, Oj, Ok. apply negb_false_iff in Oi, Oj, Ok.
      apply Nat.even_spec in Oi as [p ->], Oj as [q ->], Ok as [r ->].
      rewrite !(Nat.mul_comm 2), !Nat.div_mul by lia. now rewrite present_vertex. }
    clearbody m0.
    assert (H1 : forall c, in_box (2 * nx) (2 * ny) (2 * nz) c -> torch_edges (2 * nx) (2 * ny) (2 * nz) true m0 c = aft 1 c).
    { intros [[i j] k] H. pose proof H as (Hi & Hj & Hk). rewrite edge_stage by assumption.
      unfold torch_edges. change (marker true 0) with 1%Z. change (marker true 1) with 2%Z.
      destruct (both_ext _ _ _ m0 (aft 0) 1 i j k H0 Hi Hj Hk) as (-> & -> & ->). now rewrite (H0 _ H). }
    set (m1 := torch_edges _ _ _ _ m0) in *. clearbody m1.
    assert (H2 : forall c, in_box (2 * nx) (2 * ny) (2 * nz) c -> torch_faces (2 * nx) (2 * ny) (2 * nz) true m1 c = aft 2 c).
    { intros [[i j] k] H. pose proof H as (Hi & Hj & Hk). rewrite face_stage by assumption.
      unfold torch_faces. change (marker true 1) with 2%Z. change (marker true 2) with 3%Z.
      destruct (both_ext _ _ _ m1 (aft 1) 2 i j k H1 Hi Hj Hk) as (-> & -> & ->). now rewrite (H1 _ H). }
    set (m2 := torch_faces _ _ _ _ m1) in *. clearbody m2.
    intros [[i j] k] H. pose proof H as (Hi & Hj & Hk). rewrite cube_stage by assumption.
    unfold torch_cubes. change (marker true 2) with 3%Z. change (marker true 3) with 4%Z.
    destruct (both_ext _ _ _ m2 (aft 2) 3 i j k H2 Hi Hj Hk) as (-> & -> & ->). now rewrite (H2 _ H).
  Qed.
End Backends.

(** ** Schedules that finish exist *)
Lemma run_app a b ths m : run_schedule (a ++ b) ths m
  = let (ths', m') := run_schedule a ths m in run_schedule b ths' m'.
Proof.
  unfold run_schedule. rewrite fold_left_app. destruct (fold_left _ a (ths, m)). reflexivity.
Qed.

Lemma finish_prog p ps ths m : exists n m', run_schedule (repeat 0 n) ((p :: ps) :: ths) m = (ps :: ths, m').
Proof.
  revert m. induction p as [[[d v]|]|l k IH]; intros m.
  - exists 1, (upd m d v). reflexivity.
  - exists 1, m. reflexivity.
  - destruct (IH (m l) m) as (n & m' & E). exists (S n), m'. cbn [repeat].
    change (0 :: repeat 0 n) with ([0] ++ repeat 0 n). rewrite run_app. exact E.
Qed.
Lemma finish_thread ps ths m : exists n m', run_schedule (repeat 0 n) (ps :: ths) m = ([] :: ths, m').
Proof.
  revert m. induction ps as [|p ps IH]; intros m; [exists 0, m; reflexivity|].
  destruct (finish_prog p ps ths m) as (n & m1 & E1). destruct (IH m1) as (n2 & m2 & E2).
  exists (n + n2), m2. rewrite repeat_app, run_app, E1. exact E2.
Qed.
Lemma run_shift sched ps ths m : run_schedule (map S sched) (ps :: ths) m
  = let (ths', m') := run_schedule sched ths m in (ps :: ths', m').
Proof.
  unfold run_schedule. revert ths m. induction sched as [|t sched IH]; intros ths m; cbn [map fold_left fst snd]; [reflexivity|].
  cbn [step_at]. destruct (step_at t ths m) as [ths' m']. apply IH.
Qed.
Lemma finish_all ths m : exists sched, all_done (fst (run_schedule sched ths m)) = true.
Proof.
  revert m. induction ths as [|ps ths IH]; intros m; [exists []; reflexivity|].
  destruct (finish_thread ps ths m) as (n & m' & E). destruct (IH m') as [sched D].
  exists (repeat 0 n ++ map S sched). rewrite run_app, E, run_shift.
  destruct (run_schedule sched ths m') as [ths' m'']. exact D.
Qed.

Lemma joblib_finishes nx ny nz multi A n : exists sched r, CubeMap_joblib nx ny nz multi A n sched = Some r.
Proof.
  unfold CubeMap_joblib.
  assert (G : forall k, exists sched r, fold_left (fun om s => match om with None => None | Some m =>
       let (ths, m') := run_schedule (sched s) (stage_threads nx ny nz multi A n s) m in
       if all_done ths then Some m' else None end) (seq 0 k) (Some (fun _ => 0%Z)) = Some r).
  { induction k as [|k (sched & r & E)]; [exists (fun _ => []), (fun _ => 0%Z); reflexivity|].
    destruct (finish_all (stage_threads nx ny nz multi A n k) r) as [sk D].
    exists (fun s => if s =? k then sk else sched s).
    destruct (run_schedule sk (stage_threads nx ny nz multi A n k) r) as [ths m'] eqn:ER.
    exists m'. rewrite seq_S, fold_left_app. cbn [fold_left Nat.add].
    assert (EX : forall l (o : option mem), (forall s, In s l -> s <> k) ->
      fold_left (fun om s => match om with None => None | Some m =>
         let (ths, m') := run_schedule (if s =? k then sk else sched s) (stage_threads nx ny nz multi A n s) m in
         if all_done ths then Some m' else None end) l o
      = fold_left (fun om s => match om with None => None | Some m =>
         let (ths, m') := run_schedule (sched s) (stage_threads nx ny nz multi A n s) m in
         if all_done ths then Some m' else None end) l o).
    { induction l as [|s l IHl]; intros o H; cbn [fold_left]; [reflexivity|].
      replace (s =? k) with false by (symmetry; apply Nat.eqb_neq; apply H; now left).
      apply IHl. intros x Hx. apply H. now right. }
    rewrite EX, E by (intros s Hs; apply in_seq in Hs; lia).
    rewrite Nat.eqb_refl, ER. cbn [fst] in D. now rewrite D. }
  apply (G 4).
Qed.
