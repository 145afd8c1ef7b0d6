(** C103: names are looked up when they are read. *)
From Coq Require Import String List Bool Arith Lia.
From Verif Require Import ScopeModel.
Import ListNotations.
Local Open Scope string_scope.
Local Open Scope list_scope.

(** * Specification *)
(** The names a statement reads before anything else. *)
Definition first_reads (s : stmt) : list string :=
  match s with Do _ r _ => r | If _ r _ _ => r | For _ r _ _ => r | Give r => r | Run _ r _ _ _ => r end.
(** Whether a body can return before its end. *)
Fixpoint gives (s : stmt) : bool :=
  match s with
  | If _ _ a b => existsb gives a || existsb gives b
  | For _ _ _ body => existsb gives body
  | Give _ => true
  | Do _ _ _ | Run _ _ _ _ _ => false
  end.
Definition no_failure (o : oracle) : Prop := forall l a, fails o l a = None.
Definition name_error (r : result) : Prop := r = Raised NameError \/ r = Raised UnboundLocalError.
(** Definite assignment: from the names surely bound before a statement to those surely bound after it; [None]
    if some name may be read unbound. *)
Fixpoint definite (globals : list string) (s : stmt) (loc D : list string) : option (list string) :=
  let fix go (ss : list stmt) (loc D : list string) : option (list string) :=
    match ss with
    | [] => Some D
    | s :: r => match definite globals s loc D with Some D' => go r loc D' | None => None end
    end in
  let readable (reads D : list string) := forallb (fun x => if mem x loc then mem x D else mem x globals) reads in
  match s with
  | Do _ r w => if readable r D then Some (w ++ D) else None
  | If _ r a b => if readable r D then match go a loc D, go b loc D with Some x, Some y => Some (filter (fun v => mem v y) x) | _, _ => None end else None
  | For _ r t bd => if readable r D then match go bd loc (t ++ D) with Some _ => Some D | None => None end else None
  | Give r => if readable r D then Some D else None
  | Run _ r w ps bd => if readable r D then match go bd (ps ++ flat_map binds bd) ps with Some _ => Some (w ++ D) | None => None end else None
  end.
Fixpoint definite_block (globals : list string) (ss : list stmt) (loc D : list string) : option (list string) :=
  match ss with
  | [] => Some D
  | s :: r => match definite globals s loc D with Some D' => definite_block globals r loc D' | None => None end
  end.
Definition definitely_assigned (globals : list string) (f : func) : bool :=
  match definite_block globals (body f) (locals f) (params f) with Some _ => true | None => false end.

(** * Lemmas *)
Lemma mem_In x l : mem x l = true <-> In x l.
Proof.
  unfold mem. rewrite existsb_exists. split.
  - intros [y [H E]]. apply String.eqb_eq in E. subst. exact H.
  - intro H. exists x. split; [exact H|apply String.eqb_refl].
Qed.
Lemma mem_not x l : mem x l = false <-> ~ In x l.
Proof. rewrite <- mem_In. destruct (mem x l); split; congruence. Qed.

Section Nested.
  Variable P : stmt -> Prop.
  Hypothesis HDo : forall l r w, P (Do l r w).
  Hypothesis HIf : forall l r a b, Forall P a -> Forall P b -> P (If l r a b).
  Hypothesis HFor : forall l r t bd, Forall P bd -> P (For l r t bd).
  Hypothesis HGive : forall r, P (Give r).
  Hypothesis HRun : forall l r w ps bd, Forall P bd -> P (Run l r w ps bd).
  Fixpoint stmt_nested (s : stmt) : P s :=
    let fix all (ss : list stmt) : Forall P ss := match ss with [] => Forall_nil P | x :: r => Forall_cons x (stmt_nested x) (all r) end in
    match s with
    | Do l r w => HDo l r w
    | If l r a b => HIf l r a b (all a) (all b)
    | For l r t bd => HFor l r t bd (all bd)
    | Give r => HGive r
    | Run l r w ps bd => HRun l r w ps bd (all bd)
    end.
End Nested.

(** The equations of [exec]. *)
Lemma exec_eq g o s loc at_ bound : exec g o s loc at_ bound =
  match look g loc bound (first_reads s) with
  | Some e => Raised e
  | None =>
      match s with
      | Do l _ w => match fails o l at_ with Some e => Raised (Other e) | None => Next (w ++ bound) end
      | If l _ a b => if test o l at_ then block g o a loc at_ bound else block g o b loc at_ bound
      | For l _ t bd => iterate (fun i b => block g o bd loc (i :: at_) (t ++ b)) (times o l at_) 0 bound
      | Give _ => Returned
      | Run l _ w ps bd =>
          match block g o bd (ps ++ flat_map binds bd) (0 :: at_) ps with
          | Raised e => Raised e
          | Returned | Next _ => match fails o l at_ with Some e => Raised (Other e) | None => Next (w ++ bound) end
          end
      end
  end.
Proof.
  assert (B : forall ss loc at_ bound,
    (fix block (ss : list stmt) (loc : list string) (at_ : list nat) (bound : list string) {struct ss} : result :=
      match ss with [] => Next bound | s :: r => match exec g o s loc at_ bound with Next b => block r loc at_ b | e => e end end) ss loc at_ bound = block g o ss loc at_ bound).
  { induction ss as [|x r IH]; intros; [reflexivity|]. cbn [block]. destruct (exec g o x loc0 at_0 bound0); try reflexivity. apply IH. }
  destruct s; cbn [exec first_reads]; destruct (look g loc bound _); try reflexivity.
  - rewrite !B. reflexivity.
  - assert (E : forall f h, (forall i b, f i b = h i b) -> forall n i b, iterate f n i b = iterate h n i b).
    { intros f h X. induction n as [|n IH]; intros; [reflexivity|]. cbn [iterate]. rewrite X. destruct (h i b); auto. }
    apply E. intros. apply B.
  - rewrite B. reflexivity.
Qed.
Lemma definite_eq g s loc D : definite g s loc D =
  if forallb (fun x => if mem x loc then mem x D else mem x g) (first_reads s) then
    match s with
    | Do _ _ w => Some (w ++ D)
    | If _ _ a b => match definite_block g a loc D, definite_block g b loc D with Some x, Some y => Some (filter (fun v => mem v y) x) | _, _ => None end
    | For _ _ t bd => match definite_block g bd loc (t ++ D) with Some _ => Some D | None => None end
    | Give _ => Some D
    | Run _ _ w ps bd => match definite_block g bd (ps ++ flat_map binds bd) ps with Some _ => Some (w ++ D) | None => None end
    end
  else None.
Proof.
  assert (B : forall ss loc D,
    (fix go (ss : list stmt) (loc D : list string) {struct ss} : option (list string) :=
      match ss with [] => Some D | s :: r => match definite g s loc D with Some D' => go r loc D' | None => None end end) ss loc D = definite_block g ss loc D).
  { induction ss as [|x r IH]; intros; [reflexivity|]. cbn [definite_block]. destruct (definite g x loc0 D0); try reflexivity. apply IH. }
  destruct s; cbn [definite first_reads]; cbv zeta; destruct (forallb _ _); try reflexivity; rewrite ?B; reflexivity.
Qed.

Lemma iterate_Next_inv (I : list string -> Prop) f : (forall i b b', I b -> f i b = Next b' -> I b') -> forall n i b b', I b -> iterate f n i b = Next b' -> I b'.
Proof.
  intros H n. induction n as [|n IH]; intros i b b' Hb E; cbn [iterate] in E; [congruence|].
  destruct (f i b) eqn:F; try discriminate. eapply IH; [|exact E]. eapply H; eauto.
Qed.
Lemma iterate_not (Q : result -> Prop) (I : list string -> Prop) f : (forall i b, I b -> Q (f i b) /\ forall b', f i b = Next b' -> I b') ->
  (forall b, Q (Next b)) -> forall n i b, I b -> Q (iterate f n i b).
Proof.
  intros H N n. induction n as [|n IH]; intros i b Hb; cbn [iterate]; [apply N|].
  destruct (H i b Hb) as [Hq Hn]. destruct (f i b) eqn:F; auto.
Qed.

(** A statement binds nothing but its names. *)
Definition binds_only (g : list string) (o : oracle) (s : stmt) : Prop := forall loc at_ bound b, exec g o s loc at_ bound = Next b -> incl b (bound ++ binds s).
Lemma block_binds_only g o ss : Forall (binds_only g o) ss -> forall loc at_ bound b, block g o ss loc at_ bound = Next b -> incl b (bound ++ flat_map binds ss).
Proof.
  induction 1 as [|s r Hs _ IH]; intros loc at_ bound b E; cbn [block] in E.
  - injection E as <-. apply incl_appl, incl_refl.
  - destruct (exec g o s loc at_ bound) eqn:F; try discriminate. specialize (Hs _ _ _ _ F). specialize (IH _ _ _ _ E). cbn [flat_map].
    intros x Hx. apply IH in Hx. rewrite !in_app_iff in *. destruct Hx as [Hx|Hx]; [apply Hs in Hx; rewrite in_app_iff in Hx|]; tauto.
Qed.
Lemma exec_binds_only g o s : binds_only g o s.
Proof.
  induction s as [l r w|l r a b Ha Hb|l r t bd Hd|r|l r w ps bd Hd] using stmt_nested; intros loc at_ bound b' E; rewrite exec_eq in E; destruct (look g loc bound _); try discriminate E.
  - destruct (fails o l at_); [discriminate|]. injection E as <-. cbn [binds]. intros x Hx. rewrite !in_app_iff in *. tauto.
  - cbn [binds]. destruct (test o l at_); eapply block_binds_only in E; eauto; intros x Hx; apply E in Hx; rewrite !in_app_iff in *; tauto.
  - cbn [binds]. revert E. apply (iterate_Next_inv (fun b => incl b (bound ++ t ++ flat_map binds bd))).
    + intros i b0 b1 Hb0 E. eapply block_binds_only in E; [|exact Hd]. intros x Hx. apply E in Hx. rewrite !in_app_iff in *.
      destruct Hx as [[Hx|Hx]|Hx]; try tauto. apply Hb0 in Hx. rewrite !in_app_iff in Hx. tauto.
    + apply incl_appl, incl_refl.
  - destruct (block g o bd _ _ _); try discriminate; destruct (fails o l at_); try discriminate; injection E as <-; cbn [binds]; intros x Hx; rewrite !in_app_iff in *; tauto.
Qed.
Lemma block_binds g o ss loc at_ bound b : block g o ss loc at_ bound = Next b -> incl b (bound ++ flat_map binds ss).
Proof. apply block_binds_only. apply Forall_forall. intros s _. apply exec_binds_only. Qed.

Lemma iterate_returned f : (forall i b, f i b <> Returned) -> forall n i b, iterate f n i b <> Returned.
Proof. intros H n. induction n as [|n IH]; intros; cbn [iterate]; [discriminate|]. destruct (f i b) eqn:F; [apply IH|exfalso; eapply H; eauto|discriminate]. Qed.
Lemma exec_no_give g o s : gives s = false -> forall loc at_ bound, exec g o s loc at_ bound <> Returned.
Proof.
  assert (B : forall ss, Forall (fun s => gives s = false -> forall loc at_ bound, exec g o s loc at_ bound <> Returned) ss -> existsb gives ss = false -> forall loc at_ bound, block g o ss loc at_ bound <> Returned).
  { induction 1 as [|x r Hx _ IH]; intros E loc at_ bound; cbn [block]; [discriminate|]. cbn [existsb] in E. apply orb_false_iff in E. destruct E as [E1 E2].
    destruct (exec g o x loc at_ bound) eqn:F; [apply IH; exact E2|exfalso; eapply Hx; eauto|discriminate]. }
  induction s as [l r w|l r a b Ha Hb|l r t bd Hd|r|l r w ps bd Hd] using stmt_nested; intros G loc at_ bound; rewrite exec_eq; destruct (look g loc bound _); try discriminate; cbn [gives] in G.
  - destruct (fails o l at_); discriminate.
  - apply orb_false_iff in G. destruct G. destruct (test o l at_); apply B; assumption.
  - apply iterate_returned. intros i b. apply B; assumption.
  - destruct (block g o bd _ _ _); try discriminate; destruct (fails o l at_); discriminate.
Qed.
Lemma block_no_give g o ss : existsb gives ss = false -> forall loc at_ bound, block g o ss loc at_ bound <> Returned.
Proof.
  induction ss as [|x r IH]; intros E loc at_ bound; cbn [block]; [discriminate|]. cbn [existsb] in E. apply orb_false_iff in E. destruct E as [E1 E2].
  destruct (exec g o x loc at_ bound) eqn:F; [apply IH; exact E2|exfalso; eapply exec_no_give; eauto|discriminate].
Qed.
Lemma block_app g o a b loc at_ bound : block g o (a ++ b) loc at_ bound = match block g o a loc at_ bound with Next x => block g o b loc at_ x | r => r end.
Proof. revert bound. induction a as [|s r IH]; intro bound; [reflexivity|]. cbn [app block]. destruct (exec g o s loc at_ bound); try reflexivity. apply IH. Qed.
Lemma look_missing g loc bound reads x : In x reads -> (if mem x loc then mem x bound else mem x g) = false -> look g loc bound reads <> None.
Proof.
  intros H E. induction reads as [|y r IH]; [destruct H|]. destruct H as [->|H]; cbn [look].
  - destruct (mem x loc); rewrite E; discriminate.
  - destruct (mem y loc), (mem y bound), (mem y g); try discriminate; apply IH; exact H.
Qed.
Lemma look_readable g loc bound D reads : incl D bound -> forallb (fun x => if mem x loc then mem x D else mem x g) reads = true -> look g loc bound reads = None.
Proof.
  intros H. induction reads as [|y r IH]; [reflexivity|]. cbn [forallb look]. intro E. apply andb_true_iff in E. destruct E as [E1 E2].
  destruct (mem y loc).
  - apply mem_In, H, mem_In in E1. rewrite E1. auto.
  - rewrite E1. auto.
Qed.

(** * Theorems *)
(** A name that no earlier statement binds and that is neither a parameter nor a usable global keeps the
    function from returning, whatever the inputs. *)
Theorem C103_unbound : forall g o f pre s post x, body f = pre ++ s :: post -> existsb gives pre = false -> In x (first_reads s) ->
  ~ In x (params f) -> ~ In x (flat_map binds pre) -> In x (flat_map binds (body f)) \/ ~ In x g -> exists e, call g o f = Raised e.
Proof.
  intros g o f pre s post x E G R NP NB L. unfold call. rewrite E, block_app.
  destruct (block g o pre (locals f) [] (params f)) eqn:F; [|exfalso; eapply block_no_give; eauto|eauto].
  cbn [block]. rewrite exec_eq.
  assert (X : look g (locals f) bound (first_reads s) <> None).
  { apply (look_missing _ _ _ _ x R). unfold locals. rewrite E in *. destruct (mem x (params f ++ flat_map binds (pre ++ s :: post))) eqn:M.
    - apply mem_not. intro H. apply (block_binds _ _ _ _ _ _ _ F) in H. apply in_app_iff in H. tauto.
    - apply mem_not. apply mem_not in M. rewrite in_app_iff in M. destruct L as [L|L]; [exfalso; tauto|exact L]. }
  destruct (look g (locals f) bound (first_reads s)); [eauto|congruence].
Qed.
Print Assumptions C103_unbound.
Definition surely (g : list string) (o : oracle) (s : stmt) : Prop := forall loc D D' at_ bound, definite g s loc D = Some D' -> incl D bound ->
  ~ name_error (exec g o s loc at_ bound) /\ forall b, exec g o s loc at_ bound = Next b -> incl D' b.
Lemma definite_grows g s : forall loc D D', definite g s loc D = Some D' -> incl D D'.
Proof.
  assert (B : forall ss, Forall (fun s => forall loc D D', definite g s loc D = Some D' -> incl D D') ss -> forall loc D D', definite_block g ss loc D = Some D' -> incl D D').
  { induction 1 as [|x r Hx _ IH]; intros loc D D' E; cbn [definite_block] in E; [injection E as <-; apply incl_refl|].
    destruct (definite g x loc D) eqn:F; [|discriminate]. eapply incl_tran; [eapply Hx; eauto|eapply IH; eauto]. }
  induction s as [l r w|l r a b Ha Hb|l r t bd Hd|r|l r w ps bd Hd] using stmt_nested; intros loc D D' E; rewrite definite_eq in E; destruct (forallb _ _); try discriminate E.
  - injection E as <-. apply incl_appr, incl_refl.
  - destruct (definite_block g a loc D) eqn:A; [|discriminate]. destruct (definite_block g b loc D) eqn:B'; [|discriminate]. injection E as <-.
    intros x Hx. apply filter_In. split; [exact (B a Ha _ _ _ A x Hx)|]. apply mem_In. exact (B b Hb _ _ _ B' x Hx).
  - destruct (definite_block g bd loc (t ++ D)); [|discriminate]. injection E as <-. apply incl_refl.
  - injection E as <-. apply incl_refl.
  - destruct (definite_block g bd _ ps); [|discriminate]. injection E as <-. apply incl_appr, incl_refl.
Qed.
Lemma block_surely g o ss : Forall (surely g o) ss -> forall loc D D' at_ bound, definite_block g ss loc D = Some D' -> incl D bound ->
  ~ name_error (block g o ss loc at_ bound) /\ forall b, block g o ss loc at_ bound = Next b -> incl D' b.
Proof.
  induction 1 as [|x r Hx _ IH]; intros loc D D' at_ bound E I; cbn [definite_block] in E; cbn [block].
  - injection E as <-. split; [intros [X|X]; discriminate X|]. intros b X. injection X as <-. exact I.
  - destruct (definite g x loc D) eqn:F; [|discriminate]. destruct (Hx _ _ _ at_ bound F I) as [H1 H2].
    destruct (exec g o x loc at_ bound) eqn:G.
    + eapply IH; eauto.
    + split; [intros [X|X]; discriminate X|intros b X; discriminate X].
    + split; [exact H1|intros b X; discriminate X].
Qed.
Lemma exec_surely g o s : surely g o s.
Proof.
  induction s as [l r w|l r a b Ha Hb|l r t bd Hd|r|l r w ps bd Hd] using stmt_nested; intros loc D D' at_ bound E I; pose proof (definite_grows _ _ _ _ _ E) as GR;
    rewrite definite_eq in E; destruct (forallb _ _) eqn:RD; try discriminate E; rewrite exec_eq; rewrite (look_readable _ _ _ _ _ I RD).
  - injection E as <-. destruct (fails o l at_); (split; [intros [X|X]; discriminate X|]); intros b X; try discriminate X. injection X as <-. apply incl_app; [apply incl_appl, incl_refl|apply incl_appr; exact I].
  - destruct (definite_block g a loc D) eqn:A; [|discriminate]. destruct (definite_block g b loc D) eqn:B'; [|discriminate]. injection E as <-.
    destruct (test o l at_).
    + destruct (block_surely g o a Ha _ _ _ at_ bound A I) as [H1 H2]. split; [exact H1|]. intros b0 X. intros x Hx. apply filter_In in Hx. apply (H2 _ X). tauto.
    + destruct (block_surely g o b Hb _ _ _ at_ bound B' I) as [H1 H2]. split; [exact H1|]. intros b0 X. intros x Hx. apply filter_In in Hx. apply (H2 _ X). apply mem_In. tauto.
  - destruct (definite_block g bd loc (t ++ D)) eqn:A; [|discriminate]. injection E as <-. pose proof A as A'.
    assert (G : incl (t ++ D) l0).
    { clear - A' g. revert A'. generalize (t ++ D). induction bd as [|x r IH]; intros E H; cbn [definite_block] in H; [injection H as <-; apply incl_refl|].
      destruct (definite g x loc E) eqn:F; [|discriminate]. eapply incl_tran; [eapply definite_grows; eauto|eapply IH; eauto]. }
    assert (S1 : forall i b, incl D b -> ~ name_error (block g o bd loc (i :: at_) (t ++ b)) /\ forall b', block g o bd loc (i :: at_) (t ++ b) = Next b' -> incl D b').
    { intros i b Hb. destruct (block_surely g o bd Hd _ _ _ (i :: at_) (t ++ b) A) as [H1 H2].
      - apply incl_app; [apply incl_appl, incl_refl|apply incl_appr; exact Hb].
      - split; [exact H1|]. intros b' X. apply H2 in X. intros x Hx. apply X, G, in_app_iff. auto. }
    split.
    + apply (iterate_not (fun r => ~ name_error r) (incl D)); auto. intros b [X|X]; discriminate X.
    + intros b X. revert X. apply (iterate_Next_inv (incl D)); [|exact I]. intros i b0 b1 Hb0. apply S1. exact Hb0.
  - injection E as <-. split; [intros [X|X]; discriminate X|intros b X; discriminate X].
  - destruct (definite_block g bd _ ps) eqn:A; [|discriminate]. injection E as <-.
    destruct (block_surely g o bd Hd _ _ _ (0 :: at_) ps A (incl_refl _)) as [H1 _].
    assert (N : forall e, ~ name_error (Raised (Other e))) by (intros e [X|X]; discriminate X).
    destruct (block g o bd _ _ ps) eqn:F; [destruct (fails o l at_)|destruct (fails o l at_)|]; (split; [first [apply N|exact H1|intros [X|X]; discriminate X]|]); intros b X; try discriminate X;
      injection X as <-; (apply incl_app; [apply incl_appl, incl_refl|apply incl_appr; exact I]).
Qed.
(** If every name is assigned on every path to each of its reads, no lookup fails, on any input. *)
Theorem C103_definite : forall g o f, definitely_assigned g f = true -> ~ name_error (call g o f).
Proof.
  intros g o f E. unfold definitely_assigned in E. destruct (definite_block g (body f) (locals f) (params f)) eqn:A; [|discriminate].
  destruct (block_surely g o (body f) (proj2 (Forall_forall _ _) (fun s _ => exec_surely g o s)) _ _ _ [] _ A (incl_refl _)) as [H _].
  unfold call. destruct (block g o (body f) (locals f) [] (params f)); [intros [X|X]; discriminate X|exact H|exact H].
Qed.
Print Assumptions C103_definite.
(** And then, if no operation fails, the function returns. *)
Definition no_other (r : result) : Prop := forall e, r <> Raised (Other e).
Lemma exec_no_other g o s : no_failure o -> forall loc at_ bound, no_other (exec g o s loc at_ bound).
Proof.
  intro NF.
  assert (LK : forall loc bound r e, look g loc bound r <> Some (Other e)).
  { intros loc bound r e. induction r as [|x r IH]; cbn [look]; [discriminate|]. destruct (mem x loc), (mem x bound), (mem x g); congruence. }
  assert (B : forall ss, Forall (fun s => forall loc at_ bound, no_other (exec g o s loc at_ bound)) ss -> forall loc at_ bound, no_other (block g o ss loc at_ bound)).
  { induction 1 as [|x r Hx _ IH]; intros loc at_ bound e; cbn [block]; [discriminate|]. destruct (exec g o x loc at_ bound) eqn:F; [apply IH|discriminate|]. rewrite <- F. apply Hx. }
  induction s as [l r w|l r a b Ha Hb|l r t bd Hd|r|l r w ps bd Hd] using stmt_nested; intros loc at_ bound e; rewrite exec_eq; destruct (look g loc bound _) eqn:LL; try (intro X; injection X as ->; revert LL; apply LK); try discriminate.
  - rewrite NF. discriminate.
  - destruct (test o l at_); apply B; assumption.
  - apply (iterate_not (fun r => r <> Raised (Other e)) (fun _ => True)); auto; [|discriminate]. intros i b _. split; [apply B; exact Hd|auto].
  - destruct (block g o bd _ _ ps) eqn:F; [rewrite NF; discriminate|rewrite NF; discriminate|]. rewrite <- F. apply B. exact Hd.
Qed.
Theorem C103_returns : forall g o f, no_failure o -> call g o f = Returned \/ name_error (call g o f).
Proof.
  intros g o f NF. unfold call.
  assert (B : forall ss loc at_ bound, no_other (block g o ss loc at_ bound)).
  { induction ss as [|x r IH]; intros loc at_ bound e; cbn [block]; [discriminate|]. destruct (exec g o x loc at_ bound) eqn:F; [apply IH|discriminate|]. rewrite <- F. apply exec_no_other. exact NF. }
  destruct (block g o (body f) (locals f) [] (params f)) eqn:F; auto. right. destruct e; [left|right|exfalso; eapply B; eauto]; reflexivity.
Qed.
Print Assumptions C103_returns.

(** ** The library *)
Lemma block_missing g o pre s post x loc at_ bound : existsb gives pre = false -> In x (first_reads s) -> ~ In x bound -> ~ In x (flat_map binds pre) -> In x loc \/ ~ In x g ->
  exists e, block g o (pre ++ s :: post) loc at_ bound = Raised e.
Proof.
  intros G R NP NB L. rewrite block_app. destruct (block g o pre loc at_ bound) as [b| |e] eqn:F; [|exfalso; eapply block_no_give; eauto|eauto].
  cbn [block]. rewrite exec_eq.
  assert (X : look g loc b (first_reads s) <> None).
  { apply (look_missing _ _ _ _ x R). destruct (mem x loc) eqn:M.
    - apply mem_not. intro H. apply (block_binds _ _ _ _ _ _ _ F) in H. apply in_app_iff in H. tauto.
    - apply mem_not. apply mem_not in M. tauto. }
  destruct (look g loc b (first_reads s)); [eauto|congruence].
Qed.
Ltac notin := let H := fresh in intro H; apply mem_In in H; vm_compute in H; discriminate H.
Ltac stuck n x := match goal with |- exists e, call ?g ?o ?f = Raised e =>
  eapply (C103_unbound g o f (firstn n (body f)) (nth n (body f) (Give [])) (skipn (S n) (body f)) x);
  [reflexivity|reflexivity|apply mem_In; reflexivity|notin|notin|first [left; apply mem_In; reflexivity|right; notin]] end.

(** The two methods of Bispectrum never return: the array to be windowed is the local being assigned. *)
Theorem C103_bispectrum_refuted : forall o, (exists e, call bispectrum_globals o bispectrum_k1k2 = Raised e) /\ (exists e, call bispectrum_globals o bispectrum_k = Raised e) /\
  (no_failure o -> call bispectrum_globals o bispectrum_k1k2 = Raised UnboundLocalError /\ call bispectrum_globals o bispectrum_k = Raised UnboundLocalError).
Proof.
  intro o. split; [stuck 2 "input_array"|]. split; [stuck 2 "input_array"|]. intro NF.
  split; unfold call; cbn [block body bispectrum_k1k2 k1k2_with bispectrum_k k_with]; rewrite !exec_eq; cbn [first_reads]; rewrite !NF;
    (replace (look _ _ _ ["time"]) with (@None exc) by reflexivity); rewrite !exec_eq; cbn [first_reads]; rewrite !NF;
    (replace (look _ _ _ ["self"; "np"]) with (@None exc) by reflexivity); rewrite exec_eq; cbn [first_reads]; reflexivity.
Qed.
Print Assumptions C103_bispectrum_refuted.
(** The cause is that one name: reading the converted array instead, no name is ever missing. *)
Theorem C103_bispectrum_cause : forall o, ~ name_error (call bispectrum_globals o (k1k2_with "input_array_nd")) /\ ~ name_error (call bispectrum_globals o (k_with "input_array_nd")) /\
  (no_failure o -> call bispectrum_globals o (k1k2_with "input_array_nd") = Returned /\ call bispectrum_globals o (k_with "input_array_nd") = Returned).
Proof.
  intro o. assert (A : ~ name_error (call bispectrum_globals o (k1k2_with "input_array_nd"))) by (apply C103_definite; reflexivity).
  assert (B : ~ name_error (call bispectrum_globals o (k_with "input_array_nd"))) by (apply C103_definite; reflexivity).
  repeat split; auto; [destruct (C103_returns bispectrum_globals o (k1k2_with "input_array_nd") H)|destruct (C103_returns bispectrum_globals o (k_with "input_array_nd") H)]; tauto.
Qed.
Print Assumptions C103_bispectrum_cause.

(** None of the coupling functions of the module returns, apart from the one that starts another program. *)
Theorem C103_coupling_refuted : forall o f, In f [coupling_coeff; one_source; coupling_coeff_; one_source_; get_xc; get_profile; useprofile] -> exists e, call coupling_globals o f = Raised e.
Proof.
  intros o f H. cbn [In] in H. destruct H as [<-|[<-|[<-|[<-|[<-|[<-|[<-|[]]]]]]]].
  - stuck 7 "xrange".
  - stuck 5 "cm".
  - stuck 5 "cm".
  - stuck 5 "cm".
  - stuck 4 "mass".
  - stuck 2 "cm".
  - unfold call. set (n := 9). rewrite <- (firstn_skipn n (body useprofile)), block_app.
    destruct (block coupling_globals o (firstn n (body useprofile)) (locals useprofile) [] (params useprofile)) as [b| |e] eqn:F; [|exfalso; revert F; apply block_no_give; reflexivity|eauto].
    assert (NX : ~ In "xc_cube" b).
    { intro H. apply (block_binds _ _ _ _ _ _ _ F) in H. apply mem_In in H. vm_compute in H. discriminate H. }
    cbn [skipn n body useprofile read_sed app block]. rewrite exec_eq. destruct (look _ _ b (first_reads _)); [eauto|].
    destruct (times o "redshifts" []) as [|k].
    + cbn [iterate]. rewrite exec_eq. cbn [first_reads].
      destruct (look coupling_globals (locals useprofile) b ["xc_cube"]) eqn:LK; [eauto|]. exfalso. revert LK. apply (look_missing _ _ _ _ "xc_cube"); [left; reflexivity|].
      replace (mem "xc_cube" (locals useprofile)) with true by reflexivity. apply mem_not. exact NX.
    + cbn [iterate block].
      destruct (exec coupling_globals o (If "first" _ _ _) (locals useprofile) [0] _) as [b1| |e] eqn:F1; [|exfalso; revert F1; apply exec_no_give; reflexivity|eauto].
      rewrite exec_eq. destruct (look _ _ b1 (first_reads _)); [eauto|]. cbn [first_reads].
      assert (PR : exists e, block coupling_globals o (body get_profile) (params get_profile ++ flat_map binds (body get_profile)) [0; 0] (params get_profile) = Raised e).
      { apply (block_missing coupling_globals o (firstn 2 (body get_profile)) (nth 2 (body get_profile) (Give [])) (skipn 3 (body get_profile)) "cm"); [reflexivity|apply mem_In; reflexivity|notin|notin|right; notin]. }
      destruct PR as [e ->]. eauto.
Qed.
Print Assumptions C103_coupling_refuted.
(** Reading a list of sources loses no name. *)
Theorem C103_halofile : forall o, ~ name_error (call coupling_globals o read_halofile) /\ (no_failure o -> call coupling_globals o read_halofile = Returned).
Proof.
  intro o. assert (A : ~ name_error (call coupling_globals o read_halofile)) by (apply C103_definite; reflexivity). split; [exact A|]. intro NF.
  destruct (C103_returns coupling_globals o read_halofile NF); tauto.
Qed.
Print Assumptions C103_halofile.
(** The parallel version: given the file of a spectrum but not its arrays, it never returns; given both arrays no
    name is missing. *)
Theorem C103_parallel : forall o, (test o "both" [] = false -> exists e, call coupling_globals o coupling_coeff_MPI = Raised e) /\
  (test o "both" [] = true -> ~ name_error (call coupling_globals o coupling_coeff_MPI)) /\
  (no_failure o -> (call coupling_globals o coupling_coeff_MPI = Returned <-> test o "both" [] = true)).
Proof.
  intro o. set (g := coupling_globals). set (f := coupling_coeff_MPI).
  assert (S1 : test o "both" [] = false -> exists e, call g o f = Raised e).
  { intro T. unfold call. rewrite <- (firstn_skipn 3 (body f)), block_app.
    destruct (block g o (firstn 3 (body f)) (locals f) [] (params f)) as [b| |e] eqn:F; [|exfalso; revert F; apply block_no_give; reflexivity|eauto].
    assert (NX : ~ In "dummy_SED_name" b) by (intro H; apply (block_binds _ _ _ _ _ _ _ F) in H; apply mem_In in H; vm_compute in H; discriminate H).
    cbn [skipn body f coupling_coeff_MPI]. cbn [block]. rewrite exec_eq. destruct (look _ _ b (first_reads _)); [eauto|]. rewrite T. cbn [block].
    set (post := [Do "flname" ["str"; "time"] ["flname"]; Do "run_prog" ["str"; "n_jobs"; "ncells"; "boxsize"; "sourcelist_loc"; "SED_loc"; "z"; "flname"] ["run_prog"]; Do "system" ["os"; "run_prog"] []]).
    assert (Q : exists e, block g o (post ++ skipn 7 (body f)) (locals f) [] b = Raised e).
    { apply (block_missing g o post (nth 7 (body f) (Give [])) (skipn 8 (body f)) "dummy_SED_name"); [reflexivity|apply mem_In; reflexivity|exact NX|notin|left; apply mem_In; reflexivity]. }
    destruct Q as [e Q]. cbn [app post skipn body f coupling_coeff_MPI block] in Q. rewrite Q. eauto. }
  assert (S2 : test o "both" [] = true -> ~ name_error (call g o f)).
  { intro T. unfold call. set (pre := firstn 3 (body f)). set (post := skipn 4 (body f)).
    change (body f) with (pre ++ nth 3 (body f) (Give []) :: post). rewrite block_app.
    destruct (definite_block g pre (locals f) (params f)) as [D|] eqn:DD; [|vm_compute in DD; discriminate DD].
    destruct (block_surely g o pre (proj2 (Forall_forall _ _) (fun s _ => exec_surely g o s)) _ _ _ [] _ DD (incl_refl _)) as [H1 H2].
    destruct (block g o pre (locals f) [] (params f)) as [b| |e] eqn:F; [|intros [X|X]; discriminate X|exact H1]. specialize (H2 b eq_refl).
    cbn [nth body f coupling_coeff_MPI block]. rewrite exec_eq. vm_compute in DD. injection DD as <-.
    rewrite (look_readable _ _ _ _ _ H2) by reflexivity. rewrite T.
    match goal with |- context [block g o ?X _ _ b] => set (mid := X) end.
    match type of H2 with incl ?D b => destruct (definite_block g (mid ++ post) (locals f) D) as [D2|] eqn:D2E; [|vm_compute in D2E; discriminate D2E];
      destruct (block_surely g o (mid ++ post) (proj2 (Forall_forall _ _) (fun s _ => exec_surely g o s)) _ _ _ [] _ D2E H2) as [H3 _] end.
    rewrite block_app in H3; destruct (block g o mid (locals f) [] b) as [b2| |e2]; [|intros [X|X]; discriminate X|exact H3];
      fold post; destruct (block g o post (locals f) [] b2); [intros [X|X]; discriminate X|exact H3|exact H3]. }
  split; [exact S1|]. split; [exact S2|]. intro NF. split.
  - intro R. destruct (test o "both" []); [reflexivity|]. destruct (S1 eq_refl) as [e X]. congruence.
  - intro T. destruct (C103_returns g o f NF) as [X|X]; [exact X|]. exfalso. exact (S2 T X).
Qed.
Print Assumptions C103_parallel.

(** The equilateral bispectrum: without a failing operation it returns for the binnings it knows, and otherwise
    misses the bins. *)
Theorem C103_equilateral : forall o, no_failure o ->
  (call bispectrum_globals o equilateral = Returned <-> test o "linear" [] = true \/ test o "log" [] = true) /\
  (test o "linear" [] = false -> test o "log" [] = false -> call bispectrum_globals o equilateral = Raised UnboundLocalError).
Proof.
  intros o NF. set (g := bispectrum_globals). set (f := equilateral).
  assert (P0 : exists b, block g o (firstn 5 (body f)) (locals f) [] (params f) = Next b /\ definite_block g (firstn 5 (body f)) (locals f) (params f) = Some b).
  { cbn [firstn body f equilateral block]. repeat (rewrite exec_eq; cbn [first_reads]; rewrite ?NF; match goal with |- context [look ?a ?b ?c ?d] => change (look a b c d) with (@None exc) end; cbv iota beta).
    eexists. split; reflexivity. }
  destruct P0 as [b [P0 PD]].
  set (post := skipn 6 (body f)).
  assert (BE : forall loc bound, block g o (body f) loc [] bound = match block g o (firstn 5 (body f)) loc [] bound with Next x => block g o (nth 5 (body f) (Give []) :: post) loc [] x | r => r end)
    by (intros; rewrite <- block_app; reflexivity).
  assert (NO : forall ss loc at_ bound, no_other (block g o ss loc at_ bound)).
  { induction ss as [|x r IH]; intros loc at_ bound e; cbn [block]; [discriminate|]. destruct (exec g o x loc at_ bound) eqn:F; [apply IH|discriminate|]. rewrite <- F. apply exec_no_other. exact NF. }
  assert (OK : forall ss, definite_block g (ss ++ post) (locals f) b <> None -> match block g o (ss ++ post) (locals f) [] b with Next _ => Returned | r => r end = Returned).
  { intros ss H. destruct (definite_block g (ss ++ post) (locals f) b) as [D|] eqn:DD; [|congruence].
    destruct (block_surely g o _ (proj2 (Forall_forall _ _) (fun s _ => exec_surely g o s)) _ _ _ [] b DD (incl_refl _)) as [H1 _].
    destruct (block g o (ss ++ post) (locals f) [] b) as [x| |e] eqn:F; try reflexivity. exfalso. destruct e; [apply H1; left; reflexivity|apply H1; right; reflexivity|eapply NO; exact F]. }
  assert (RD : look g (locals f) b ["binning"] = None).
  { vm_compute in PD. injection PD as <-. reflexivity. }
  assert (KB : mem "kbins" b = false) by (vm_compute in PD; injection PD as <-; reflexivity).
  assert (L1 : test o "linear" [] = true -> call g o f = Returned).
  { intro T. unfold call. rewrite BE, P0. cbn [nth body f equilateral block]. rewrite exec_eq. cbn [first_reads]. rewrite RD, T.
    match goal with |- context [block g o ?X _ [] b] => specialize (OK X); rewrite block_app in OK; apply OK end.
    vm_compute in PD. injection PD as <-. vm_compute. discriminate. }
  assert (L2 : test o "linear" [] = false -> test o "log" [] = true -> call g o f = Returned).
  { intros T U. unfold call. rewrite BE, P0. cbn [nth body f equilateral block]. rewrite exec_eq. cbn [first_reads]. rewrite RD, T. cbn [block]. rewrite exec_eq. cbn [first_reads]. rewrite RD, U.
    match goal with |- context [block g o ?X _ [] b] => specialize (OK X); rewrite block_app in OK end.
    match goal with |- context [block g o ?X _ [] b] => destruct (block g o X (locals f) [] b) end; apply OK; vm_compute in PD; injection PD as <-; vm_compute; discriminate. }
  assert (L3 : test o "linear" [] = false -> test o "log" [] = false -> call g o f = Raised UnboundLocalError).
  { intros T U. unfold call. rewrite BE, P0. cbn [nth body f equilateral block]. rewrite exec_eq. cbn [first_reads]. rewrite RD, T. cbn [block]. rewrite exec_eq. cbn [first_reads]. rewrite RD, U. cbn [block].
    vm_compute in PD. injection PD as <-. cbn [post skipn body f equilateral block].
    repeat (rewrite exec_eq; cbn [first_reads]; rewrite ?NF; match goal with |- context [look ?a ?b ?c ?d] => let r := eval vm_compute in (look a b c d) in change (look a b c d) with r end; cbv iota beta).
    reflexivity. }
  split; [|exact L3]. split.
  - intro R. destruct (test o "linear" []) eqn:T; [auto|]. destruct (test o "log" []) eqn:U; [auto|]. rewrite (L3 eq_refl eq_refl) in R. discriminate R.
  - intros [T|U]; [apply L1; exact T|]. destruct (test o "linear" []) eqn:T; auto.
Qed.
Print Assumptions C103_equilateral.

(** All tests succeed, every loop runs three times and nothing fails; and the same with all tests failing. *)
Definition calm (t : bool) : oracle := Oracle (fun _ _ => t) (fun _ _ => 3) (fun _ _ => None).
Example C103_sat : no_failure (calm true) /\ call bispectrum_globals (calm true) equilateral = Returned /\ call bispectrum_globals (calm false) equilateral = Raised UnboundLocalError /\
  call coupling_globals (calm true) read_halofile = Returned /\ call coupling_globals (calm true) one_source = Raised NameError /\ call coupling_globals (calm true) get_xc = Raised UnboundLocalError /\
  call coupling_globals (calm false) coupling_coeff = Raised NameError /\ call coupling_globals (calm false) useprofile = Raised NameError /\
  call coupling_globals (Oracle (fun _ _ => true) (fun _ _ => 0) (fun _ _ => None)) useprofile = Raised UnboundLocalError /\
  call coupling_globals (calm true) coupling_coeff_MPI = Returned /\ call coupling_globals (calm false) coupling_coeff_MPI = Raised UnboundLocalError /\
  definitely_assigned bispectrum_globals (k_with "input_array_nd") = true /\ definitely_assigned bispectrum_globals bispectrum_k = false.
Proof. unfold no_failure. cbn [fails calm]. repeat split. Qed.
