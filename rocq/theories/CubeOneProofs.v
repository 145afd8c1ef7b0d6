(** The cubical map with a single marker (multi_marker=False): the map is the indicator
    of the complex whatever the order of reads and writes. *)
From Coq Require Import List Arith ZArith Bool Lia.
From Verif Require Import CubeModel CubeSpec CubeProofs.
Import ListNotations.
Local Open Scope nat_scope.

(** Programs that only mark cells in [P], given that only cells in [P] read as 1. *)
Fixpoint sound (P : idx -> Prop) (p : prog) : Prop :=
  match p with
  | Ret None => True
  | Ret (Some (c, v)) => v = 1%Z /\ P c
  | Read c k => sound P (k 0%Z) /\ (P c -> sound P (k 1%Z))
  end.

(** Programs that leave [c] marked, given that the cells in [D] read as 1. *)
Fixpoint marks (D : idx -> Prop) (c : idx) (p : prog) : Prop :=
  match p with
  | Ret None => False
  | Ret (Some (d, v)) => d = c /\ v = 1%Z
  | Read d k => (D d \/ marks D c (k 0%Z)) /\ (d = c \/ marks D c (k 1%Z))
  end.

Definition okmem (P D : idx -> Prop) (m : mem) : Prop :=
  forall c, (m c = 0%Z \/ (m c = 1%Z /\ P c)) /\ (D c -> m c = 1%Z).

Lemma sound_all_eq P cs yes no : sound P no -> ((forall c, In c cs -> P c) -> sound P yes) ->
  sound P (all_eq cs 1 yes no).
Proof.
  revert yes no. induction cs as [|c cs IH]; intros yes no N Y; cbn [all_eq]; [apply Y; intros ? []|].
  cbn [sound Z.eqb Pos.eqb]. split; [exact N|]. intros Pc. apply IH; [exact N|]. intros H. apply Y.
  intros d [<-|I]; auto.
Qed.

Lemma marks_all_eq D c cs yes no : marks D c yes -> ((forall d, In d cs -> D d) \/ marks D c no) ->
  marks D c (all_eq cs 1 yes no).
Proof.
  revert yes no. induction cs as [|d cs IH]; intros yes no Y N; cbn [all_eq]; [exact Y|].
  cbn [marks Z.eqb Pos.eqb]. split.
  - destruct N as [N|N]; [left; apply N; now left|right; exact N].
  - right. apply IH; [exact Y|]. destruct N as [N|N]; [left; intros e I; apply N; now right|now right].
Qed.

Lemma okmem_upd P D m c : okmem P D m -> P c -> okmem P D (upd m c 1).
Proof.
  intros O Pc d. unfold upd. destruct (idx_eqb d c) eqn:E; [|apply O].
  apply idx_eqb_eq in E. subst d. split; [right; split; [reflexivity|exact Pc]|reflexivity].
Qed.

Lemma upd_keeps m c d : m d = 1%Z -> upd m c 1 d = 1%Z.
Proof. intros H. unfold upd. now destruct (idx_eqb d c). Qed.

(** One step of one thread. *)
Lemma step_thread_ok P D ps m ps' m' : okmem P D m -> Forall (sound P) ps ->
  step_thread ps m = (ps', m') ->
  okmem P D m' /\ Forall (sound P) ps' /\ (forall c, m c = 1%Z -> m' c = 1%Z)
  /\ (forall c, Exists (marks D c) ps -> m' c = 1%Z \/ Exists (marks D c) ps').
Proof.
  intros O F E. destruct ps as [|p ps]; cbn [step_thread] in E.
  - injection E as <- <-. repeat split; auto. all: apply O.
  - apply Forall_cons_iff in F as [Fp F]. destruct p as [[[d v]|]|d k].
    + injection E as <- <-. destruct Fp as [-> Pd]. split; [now apply okmem_upd|].
      split; [exact F|]. split; [intros; now apply upd_keeps|].
      intros c X. apply Exists_cons in X as [[<- _]|X]; [left; apply upd_same|now right].
    + injection E as <- <-. split; [exact O|]. split; [exact F|]. split; [auto|].
      intros c X. apply Exists_cons in X as [[]|X]; now right.
    + injection E as <- <-. destruct (O d) as [V Dd]. destruct Fp as [S0 S1].
      split; [exact O|]. split.
      { constructor; [|exact F]. destruct V as [->|[-> Pd]]; auto. }
      split; [auto|]. intros c X. apply Exists_cons in X as [[M0 M1]|X].
      2:{ right. now apply Exists_cons_tl. }
      destruct V as [V|[V Pd]]; rewrite V.
      * right. apply Exists_cons_hd. destruct M0 as [M0|M0]; [|exact M0]. apply Dd in M0. congruence.
      * destruct M1 as [->|M1]; [left; exact V|right; now apply Exists_cons_hd].
Qed.

Definition some_marks (D : idx -> Prop) (c : idx) (ths : threads) : Prop := Exists (Exists (marks D c)) ths.

Lemma step_at_ok P D t : forall ths m ths' m', okmem P D m -> Forall (Forall (sound P)) ths ->
  step_at t ths m = (ths', m') ->
  okmem P D m' /\ Forall (Forall (sound P)) ths' /\ (forall c, m c = 1%Z -> m' c = 1%Z)
  /\ (forall c, some_marks D c ths -> m' c = 1%Z \/ some_marks D c ths').
Proof.
  unfold some_marks. induction t as [|t IH]; intros ths m ths' m' O F E; destruct ths as [|ps ths]; cbn [step_at] in E.
  - injection E as <- <-. split; [exact O|]. split; [exact F|]. split; auto.
  - apply Forall_cons_iff in F as [Fp F]. destruct (step_thread ps m) as [ps1 m1] eqn:E1. injection E as <- <-.
    destruct (step_thread_ok P D ps m ps1 m1 O Fp E1) as (O1 & F1 & K & X1).
    split; [exact O1|]. split; [now constructor|]. split; [exact K|].
    intros c X. apply Exists_cons in X as [X|X].
    + destruct (X1 c X); [now left|right; now apply Exists_cons_hd].
    + right. now apply Exists_cons_tl.
  - injection E as <- <-. split; [exact O|]. split; [exact F|]. split; auto.
  - apply Forall_cons_iff in F as [Fp F]. destruct (step_at t ths m) as [ths1 m1] eqn:E1. injection E as <- <-.
    destruct (IH _ _ _ _ O F E1) as (O1 & F1 & K & X1).
    split; [exact O1|]. split; [now constructor|]. split; [exact K|].
    intros c X. apply Exists_cons in X as [X|X].
    + right. now apply Exists_cons_hd.
    + destruct (X1 c X); [now left|right; now apply Exists_cons_tl].
Qed.

Lemma run_ok P D sched : forall ths m ths' m', okmem P D m -> Forall (Forall (sound P)) ths ->
  run_schedule sched ths m = (ths', m') ->
  okmem P D m' /\ (forall c, m c = 1%Z \/ some_marks D c ths -> m' c = 1%Z \/ some_marks D c ths').
Proof.
  induction sched as [|t sched IH]; intros ths m ths' m' O F E.
  - injection E as <- <-. auto.
  - change (t :: sched) with ([t] ++ sched) in E. rewrite run_app in E.
    change (run_schedule [t] ths m) with (step_at t ths m) in E.
    destruct (step_at t ths m) as [ths1 m1] eqn:E1.
    destruct (step_at_ok P D t _ _ _ _ O F E1) as (O1 & F1 & K & X1).
    destruct (IH _ _ _ _ O1 F1 E) as (O2 & X2). split; [exact O2|].
    intros c X. apply X2. destruct X as [X|X]; [left; now apply K|now apply X1].
Qed.

Lemma done_marks D c ths : all_done ths = true -> ~ some_marks D c ths.
Proof.
  intros H X. unfold some_marks in X. apply Exists_exists in X as (ps & I & X). unfold all_done in H.
  rewrite forallb_forall in H. specialize (H ps I). destruct ps; [|discriminate]. inversion X.
Qed.

(** Running programs one after the other. *)
Lemma exec_ok P D p : forall m, okmem P D m -> sound P p ->
  okmem P D (exec p m) /\ (forall c, m c = 1%Z -> exec p m c = 1%Z) /\ (forall c, marks D c p -> exec p m c = 1%Z).
Proof.
  induction p as [[[d v]|]|d k IH]; intros m O Sp; cbn [exec].
  - destruct Sp as [-> Pd]. split; [now apply okmem_upd|]. split; [intros; now apply upd_keeps|].
    intros c [<- _]. apply upd_same.
  - split; [exact O|]. split; [auto|intros c []].
  - destruct Sp as [S0 S1]. destruct (O d) as [V Dd]. destruct V as [V|[V Pd]]; rewrite V.
    + destruct (IH 0%Z m O S0) as (O' & K & X). split; [exact O'|]. split; [exact K|].
      intros c [[M|M] _]; [apply Dd in M; congruence|now apply X].
    + destruct (IH 1%Z m O (S1 Pd)) as (O' & K & X). split; [exact O'|]. split; [exact K|].
      intros c [_ [<-|M]]; [now apply K|now apply X].
Qed.
Lemma exec_all_ok P D ps : forall m, okmem P D m -> Forall (sound P) ps ->
  okmem P D (exec_all ps m) /\ (forall c, m c = 1%Z \/ Exists (marks D c) ps -> exec_all ps m c = 1%Z).
Proof.
  induction ps as [|p ps IH]; intros m O F; cbn [exec_all fold_left].
  - split; [exact O|]. intros c [H|H]; [exact H|inversion H].
  - apply Forall_cons_iff in F as [Fp F]. destruct (exec_ok P D p m O Fp) as (O1 & K & X).
    destruct (IH _ O1 F) as (O2 & X2). split; [exact O2|]. intros c H. apply X2.
    destruct H as [H|H]; [left; now apply K|]. apply Exists_cons in H as [H|H]; [left; now apply X|now right].
Qed.

Section One.
  Variables (nx ny nz : nat) (A : idx -> bool).
  Local Notation pres := (present nx ny nz A).
  Let P (c : idx) : Prop := pres c = true.
  Let box := in_box (2 * nx) (2 * ny) (2 * nz).
  (** Cells marked before stage [s]: those of the complex of smaller dimension. *)
  Let D (s : nat) (c : idx) : Prop := box c /\ pres c = true /\ dim c < s.

  Lemma cover n i x : i < 2 * n -> In x (corners n i) ->
    In x (corners n (prv (2 * n) i)) \/ In x (corners n (nxt (2 * n) i)).
  Proof.
    intros H I. destruct (Nat.odd i) eqn:O.
    - rewrite (corners_split n i H O) in I. now apply in_app_or in I.
    - left. now apply (corners_sub n i x H O I).
  Qed.

  Lemma P_x i j k : i < 2 * nx -> (forall c, In c (pair_x (2 * nx) (i, j, k)) -> P c) -> P (i, j, k).
  Proof.
    intros H K. unfold P in *. apply pres_iff. intros x y z Hx Hy Hz.
    destruct (cover nx i x H Hx) as [C|C].
    - pose proof (K (prv (2 * nx) i, j, k) (or_introl eq_refl)) as Q. rewrite pres_iff in Q. now apply Q.
    - pose proof (K (nxt (2 * nx) i, j, k) (or_intror (or_introl eq_refl))) as Q. rewrite pres_iff in Q. now apply Q.
  Qed.
  Lemma P_y i j k : j < 2 * ny -> (forall c, In c (pair_y (2 * ny) (i, j, k)) -> P c) -> P (i, j, k).
  Proof.
    intros H K. unfold P in *. apply pres_iff. intros x y z Hx Hy Hz.
    destruct (cover ny j y H Hy) as [C|C].
    - pose proof (K (i, prv (2 * ny) j, k) (or_introl eq_refl)) as Q. rewrite pres_iff in Q. now apply Q.
    - pose proof (K (i, nxt (2 * ny) j, k) (or_intror (or_introl eq_refl))) as Q. rewrite pres_iff in Q. now apply Q.
  Qed.
  Lemma P_z i j k : k < 2 * nz -> (forall c, In c (pair_z (2 * nz) (i, j, k)) -> P c) -> P (i, j, k).
  Proof.
    intros H K. unfold P in *. apply pres_iff. intros x y z Hx Hy Hz.
    destruct (cover nz k z H Hz) as [C|C].
    - pose proof (K (i, j, prv (2 * nz) k) (or_introl eq_refl)) as Q. rewrite pres_iff in Q. now apply Q.
    - pose proof (K (i, j, nxt (2 * nz) k) (or_intror (or_introl eq_refl))) as Q. rewrite pres_iff in Q. now apply Q.
  Qed.

  (** The neighbours of a present cell along an odd axis are present, one dimension lower. *)
  Lemma D_x i j k s : box (i, j, k) -> P (i, j, k) -> dim (i, j, k) = s -> Nat.odd i = true ->
    forall c, In c (pair_x (2 * nx) (i, j, k)) -> D s c.
  Proof.
    intros (Hi & Hj & Hk) Pc E O c I. unfold P in Pc. rewrite (px_odd nx ny nz A i j k Hi O) in Pc.
    apply andb_true_iff in Pc as [P1 P2]. unfold D, box, in_box.
    unfold dim in E. rewrite O in E. cbn [Nat.b2n] in E.
    destruct I as [<-|[<-|[]]]; (split; [repeat split; try assumption; first [apply prv_lt; lia|apply nxt_lt; lia]|split; [assumption|]]);
      unfold dim; rewrite ?odd_prv, ?odd_nxt, O by assumption; cbn [negb Nat.b2n]; lia.
  Qed.
  Lemma D_y i j k s : box (i, j, k) -> P (i, j, k) -> dim (i, j, k) = s -> Nat.odd j = true ->
    forall c, In c (pair_y (2 * ny) (i, j, k)) -> D s c.
  Proof.
    intros (Hi & Hj & Hk) Pc E O c I. unfold P in Pc. rewrite (py_odd nx ny nz A i j k Hj O) in Pc.
    apply andb_true_iff in Pc as [P1 P2]. unfold D, box, in_box.
    unfold dim in E. rewrite O in E. cbn [Nat.b2n] in E.
    destruct I as [<-|[<-|[]]]; (split; [repeat split; try assumption; first [apply prv_lt; lia|apply nxt_lt; lia]|split; [assumption|]]);
      unfold dim; rewrite ?odd_prv, ?odd_nxt, O by assumption; cbn [negb Nat.b2n]; lia.
  Qed.
  Lemma D_z i j k s : box (i, j, k) -> P (i, j, k) -> dim (i, j, k) = s -> Nat.odd k = true ->
    forall c, In c (pair_z (2 * nz) (i, j, k)) -> D s c.
  Proof.
    intros (Hi & Hj & Hk) Pc E O c I. unfold P in Pc. rewrite (pz_odd nx ny nz A i j k Hk O) in Pc.
    apply andb_true_iff in Pc as [P1 P2]. unfold D, box, in_box.
    unfold dim in E. rewrite O in E. cbn [Nat.b2n] in E.
    destruct I as [<-|[<-|[]]]; (split; [repeat split; try assumption; first [apply prv_lt; lia|apply nxt_lt; lia]|split; [assumption|]]);
      unfold dim; rewrite ?odd_prv, ?odd_nxt, O by assumption; cbn [negb Nat.b2n]; lia.
  Qed.

  Local Notation bod := (body nx ny nz false A).
  Definition indom (s : nat) (c : idx) : Prop :=
    let '(i, j, k) := c in i < domain nx s /\ j < domain ny s /\ k < domain nz s.

  Lemma body_sound s c : s < 4 -> indom s c -> sound P (bod s c).
  Proof.
    destruct c as [[i j] k]. intros Hs (Hi & Hj & Hk).
    assert (Rd : forall p q, sound P p -> sound P q -> sound P (Read (i, j, k) (fun v => if Z.eqb v 0 then p else q))).
    { intros p q Sp Sq. cbn [sound Z.eqb]. auto. }
    destruct s as [|[|[|[|s]]]]; [| | | |lia]; cbn [body domain] in *.
    - unfold vertex_body. destruct (A (i, j, k)) eqn:E; cbn [sound]; [|trivial]. split; [reflexivity|].
      unfold P. apply pres_iff. intros x y z. rewrite (Nat.mul_comm i), (Nat.mul_comm j), (Nat.mul_comm k), !corners_even.
      intros [<-|[]] [<-|[]] [<-|[]]. exact E.
    - unfold edge_body, marker. apply Rd; [|exact I].
      apply sound_all_eq; [|intros Q; split; [reflexivity|now apply P_x]].
      apply sound_all_eq; [|intros Q; split; [reflexivity|now apply P_y]].
      apply sound_all_eq; [exact I|intros Q; split; [reflexivity|now apply P_z]].
    - unfold face_body, marker. apply Rd; [|exact I].
      apply sound_all_eq; [|intros Q; split; [reflexivity|]].
      2:{ apply P_x; [exact Hi|]. intros c Ic. apply Q, in_or_app. now left. }
      apply sound_all_eq; [|intros Q; split; [reflexivity|]].
      2:{ apply P_y; [exact Hj|]. intros c Ic. apply Q, in_or_app. now left. }
      apply sound_all_eq; [exact I|intros Q; split; [reflexivity|]].
      apply P_z; [exact Hk|]. intros c Ic. apply Q, in_or_app. now left.
    - unfold cube_body, marker. apply Rd; [|exact I].
      apply sound_all_eq; [exact I|intros Q; split; [reflexivity|]].
      apply P_x; [exact Hi|]. intros c Ic. apply Q, in_or_app. now left.
  Qed.

  Lemma body_marks s c : 0 < s < 4 -> box c -> P c -> dim c = s -> marks (D s) c (bod s c).
  Proof.
    destruct c as [[i j] k]. intros Hs B Pc E.
    assert (Rd : forall p q, marks (D s) (i, j, k) p ->
       marks (D s) (i, j, k) (Read (i, j, k) (fun v => if Z.eqb v 0 then p else q))).
    { intros p q Mp. cbn [marks Z.eqb]. auto. }
    assert (W : marks (D s) (i, j, k) (Ret (Some ((i, j, k), 1%Z)))) by (cbn [marks]; auto).
    pose proof (D_x i j k s B Pc E) as X. pose proof (D_y i j k s B Pc E) as Y. pose proof (D_z i j k s B Pc E) as Z'.
    assert (AP : forall l1 l2, (forall c, In c l1 -> D s c) -> (forall c, In c l2 -> D s c) -> forall c, In c (l1 ++ l2) -> D s c).
    { intros l1 l2 H1 H2 c I. apply in_app_or in I as [I|I]; auto. }
    unfold dim in E. destruct s as [|[|[|[|s]]]]; [lia| | | |lia]; cbn [body].
    - unfold edge_body, marker. apply Rd. apply marks_all_eq; [exact W|].
      destruct (Nat.odd i); [left; now apply X|right].
      apply marks_all_eq; [exact W|]. destruct (Nat.odd j); [left; now apply Y|right].
      apply marks_all_eq; [exact W|]. destruct (Nat.odd k); [left; now apply Z'|cbn in E; lia].
    - unfold face_body, marker. apply Rd. apply marks_all_eq; [exact W|].
      destruct (Nat.odd i), (Nat.odd j), (Nat.odd k); cbn in E; try lia.
      + left. apply AP; auto.
      + right. apply marks_all_eq; [exact W|]. right. apply marks_all_eq; [exact W|]. left. apply AP; auto.
      + right. apply marks_all_eq; [exact W|]. left. apply AP; auto.
    - unfold cube_body, marker. apply Rd. apply marks_all_eq; [exact W|]. left.
      destruct (Nat.odd i), (Nat.odd j), (Nat.odd k); cbn in E; try lia. apply AP; [|apply AP]; auto.
  Qed.

  Lemma vertex_marks c : box c -> P c -> dim c = 0 ->
    exists d, indom 0 d /\ marks (D 0) c (bod 0 d).
  Proof.
    destruct c as [[i j] k]. intros (Hi & Hj & Hk) Pc E. unfold dim in E.
    destruct (Nat.odd i) eqn:Oi, (Nat.odd j) eqn:Oj, (Nat.odd k) eqn:Ok; cbn in E; try lia.
    rewrite <- Nat.negb_even in Oi, Oj, Ok. apply negb_false_iff in Oi, Oj, Ok.
    apply Nat.even_spec in Oi as [p ->], Oj as [q ->], Ok as [r ->].
    exists (p, q, r). split; [unfold indom, domain; lia|]. cbn [body]. unfold vertex_body.
    unfold P in Pc. rewrite pres_iff in Pc. rewrite !corners_even in Pc.
    rewrite (Pc p q r) by (now left). cbn [marks]. split; [|reflexivity]. f_equal; [f_equal|]; lia.
  Qed.

  Lemma stage_marks s c : s < 4 -> box c -> P c -> dim c = s -> exists d, indom s d /\ marks (D s) c (bod s d).
  Proof.
    intros Hs B Pc E. destruct s as [|s]; [now apply vertex_marks|].
    exists c. split; [|apply body_marks; auto; lia].
    destruct c as [[i j] k]. exact B.
  Qed.

  (** Every stage, run in any order, turns "marked below dimension [s]" into "marked up to
      dimension [s]". *)
  Lemma next_ok s m : okmem P (D s) m -> (forall c, box c -> P c -> dim c = s -> m c = 1%Z) -> okmem P (D (S s)) m.
  Proof.
    intros O H c. destruct (O c) as [V K]. split; [exact V|]. intros (B & Pc & L).
    destruct (Nat.eq_dec (dim c) s) as [E|E]; [now apply H|]. apply K. repeat split; auto. lia.
  Qed.

  Lemma progs_sound s is : s < 4 -> (forall i, In i is -> i < domain nx s) ->
    Forall (sound P) (stage_progs nx ny nz false A s is).
  Proof.
    intros Hs H. apply Forall_forall. intros p I. unfold stage_progs in I. apply in_map_iff in I as (c & <- & I).
    apply body_sound; [exact Hs|]. apply in_cells in I. destruct c as [[i j] k]. destruct I as (Hi & Hj & Hk).
    unfold indom. auto.
  Qed.

  Lemma joblib_stage n s sched m ths m' : 0 < n -> s < 4 -> okmem P (D s) m ->
    run_schedule sched (stage_threads nx ny nz false A n s) m = (ths, m') -> all_done ths = true ->
    okmem P (D (S s)) m'.
  Proof.
    intros Hn Hs O R Dn.
    assert (F : Forall (Forall (sound P)) (stage_threads nx ny nz false A n s)).
    { apply Forall_forall. intros ps I. unfold stage_threads in I. apply in_map_iff in I as (t & <- & _).
      apply progs_sound; [exact Hs|]. intros i. apply chunk_range. }
    destruct (run_ok P (D s) sched _ _ _ _ O F R) as (O' & X). apply next_ok; [exact O'|].
    intros c B Pc E. destruct (stage_marks s c Hs B Pc E) as (d & Hd & M).
    destruct (X c) as [Y|Y]; [right|exact Y|exfalso; exact (done_marks _ _ _ Dn Y)].
    unfold some_marks, stage_threads. destruct d as [[i j] k]. destruct Hd as (Hi & Hj & Hk).
    destruct (chunk_cover _ n i Hn Hi) as (t & Ht & It).
    apply Exists_exists. eexists. split; [apply in_map_iff; exists t; split; [reflexivity|apply in_seq; lia]|].
    apply Exists_exists. eexists. split; [|exact M]. unfold stage_progs. apply in_map. apply in_cells. auto.
  Qed.

  Lemma sequential_one s m : s < 4 -> okmem P (D s) m ->
    okmem P (D (S s)) (exec_all (stage_progs nx ny nz false A s (seq 0 (domain nx s))) m).
  Proof.
    intros Hs O.
    assert (F : Forall (sound P) (stage_progs nx ny nz false A s (seq 0 (domain nx s)))).
    { apply progs_sound; [exact Hs|]. intros i I. apply in_seq in I. lia. }
    destruct (exec_all_ok P (D s) _ m O F) as (O' & X). apply next_ok; [exact O'|].
    intros c B Pc E. apply X. right. destruct (stage_marks s c Hs B Pc E) as (d & Hd & M).
    apply Exists_exists. eexists. split; [|exact M]. unfold stage_progs. apply in_map. apply in_cells.
    destruct d as [[i j] k]. destruct Hd as (Hi & Hj & Hk). split; [apply in_seq; lia|auto].
  Qed.

  Lemma start_ok : okmem P (D 0) (fun _ => 0%Z).
  Proof. intros c. split; [now left|]. intros (_ & _ & L). lia. Qed.

  Lemma final_ok m c : okmem P (D 4) m -> box c -> m c = if pres c then 1%Z else 0%Z.
  Proof.
    intros O B. destruct (O c) as [V K]. destruct (pres c) eqn:E.
    - apply K. repeat split; auto. destruct c as [[i j] k]. unfold dim.
      destruct (Nat.odd i), (Nat.odd j), (Nat.odd k); cbn; lia.
    - destruct V as [V|[_ V]]; [exact V|]. unfold P in V. congruence.
  Qed.

  Lemma CubeMap_one c : box c -> CubeMap nx ny nz false A c = if pres c then 1%Z else 0%Z.
  Proof.
    apply final_ok. unfold CubeMap. cbn [seq fold_left].
    do 4 (apply sequential_one; [lia|]). exact start_ok.
  Qed.

  Lemma joblib_one n sched r c : 0 < n -> CubeMap_joblib nx ny nz false A n sched = Some r -> box c ->
    r c = if pres c then 1%Z else 0%Z.
  Proof.
    intros Hn H. apply final_ok. revert H. unfold CubeMap_joblib.
    assert (G : forall k o, k <= 4 -> fold_left (fun om s => match om with None => None | Some m =>
       let (ths, m') := run_schedule (sched s) (stage_threads nx ny nz false A n s) m in
       if all_done ths then Some m' else None end) (seq 0 k) (Some (fun _ => 0%Z)) = Some o -> okmem P (D k) o).
    { induction k as [|k IH]; intros o Hk E; [injection E as <-; exact start_ok|].
      rewrite seq_S, fold_left_app in E. cbn [fold_left Nat.add] in E.
      destruct (fold_left _ (seq 0 k) _) as [m|] eqn:F; [|discriminate].
      specialize (IH m ltac:(lia) eq_refl).
      destruct (run_schedule (sched k) _ m) as [ths m'] eqn:R. destruct (all_done ths) eqn:Dn; [|discriminate].
      injection E as <-. eapply joblib_stage; eauto; lia. }
    apply G. lia.
  Qed.

  (** torch: each stage looks at the map as it was before the stage. *)
  Lemma torch_stage s (m : mem) (rule : idx -> bool) : s < 4 ->
    (forall c, box c -> (m c = 0%Z \/ (m c = 1%Z /\ P c)) /\ (D s c -> m c = 1%Z)) ->
    (forall c, box c -> rule c = true -> P c) ->
    (forall c, box c -> P c -> dim c = s -> m c = 0%Z -> rule c = true) ->
    forall c, box c -> let v := if Z.eqb (m c) 0 && rule c then 1%Z else m c in
    (v = 0%Z \/ (v = 1%Z /\ P c)) /\ (D (S s) c -> v = 1%Z).
  Proof.
    intros Hs O R1 R2 c B v. destruct (O c B) as [V K]. subst v.
    destruct (Z.eqb_spec (m c) 0) as [E|E]; cbn [andb].
    - destruct (rule c) eqn:R; [split; [right; split; [reflexivity|now apply R1]|reflexivity]|].
      split; [exact V|]. intros (_ & Pc & L). destruct (Nat.eq_dec (dim c) s) as [E'|E'].
      + rewrite (R2 c B Pc E' E) in R. discriminate.
      + apply K. repeat split; auto. lia.
    - split; [exact V|]. intros _. destruct V as [V|[V _]]; [congruence|exact V].
  Qed.

  Lemma both_iff m cs : both m 1 cs = true <-> forall c, In c cs -> m c = 1%Z.
  Proof.
    unfold both. rewrite forallb_forall. split; intros H c I.
    - now apply Z.eqb_eq, H.
    - now apply Z.eqb_eq, H.
  Qed.

  Lemma pair_box i j k : box (i, j, k) ->
    (forall c, In c (pair_x (2 * nx) (i, j, k)) -> box c)
    /\ (forall c, In c (pair_y (2 * ny) (i, j, k)) -> box c)
    /\ (forall c, In c (pair_z (2 * nz) (i, j, k)) -> box c).
  Proof.
    intros (Hi & Hj & Hk). unfold box, in_box.
    repeat split; intros c [<-|[<-|[]]]; repeat split; auto; first [apply prv_lt; lia|apply nxt_lt; lia].
  Qed.

  Lemma torch_one c : box c -> CubeMap_torch nx ny nz false A c = if pres c then 1%Z else 0%Z.
  Proof.
    revert c. unfold CubeMap_torch. set (m0 := (fun c : idx => let '(i, j, k) := c in _) : mem).
    assert (H0 : forall c, box c -> (m0 c = 0%Z \/ (m0 c = 1%Z /\ P c)) /\ (D 1 c -> m0 c = 1%Z)).
    { intros [[i j] k] B. unfold m0. change (marker false 0) with 1%Z.
      destruct (Nat.even i) eqn:Ei, (Nat.even j) eqn:Ej, (Nat.even k) eqn:Ek; cbn [andb].
      1:{ apply Nat.even_spec in Ei as [p ->], Ej as [q ->], Ek as [r ->].
          rewrite !(Nat.mul_comm 2), !Nat.div_mul by lia. rewrite !(Nat.mul_comm _ 2).
          destruct (A (p, q, r)) eqn:E.
          - split; [right; split; [reflexivity|]|reflexivity]. unfold P. apply pres_iff. rewrite !corners_even.
            intros x y z [<-|[]] [<-|[]] [<-|[]]. exact E.
          - split; [now left|]. intros (_ & Q & _). rewrite pres_iff, !corners_even in Q.
            rewrite (Q p q r) in E by (now left). discriminate. }
      all: split; [now left|]; intros (_ & _ & L); unfold dim in L;
        rewrite <- !Nat.negb_even, ?Ei, ?Ej, ?Ek in L; cbn in L; lia. }
    clearbody m0.
    assert (PQ : forall (m : mem) s, (forall c, box c -> (m c = 0%Z \/ (m c = 1%Z /\ P c)) /\ (D s c -> m c = 1%Z)) ->
       forall cs, (forall c, In c cs -> box c) -> both m 1 cs = true -> forall c, In c cs -> P c).
    { intros m s O cs Bs Bo c I. rewrite both_iff in Bo. destruct (O c (Bs c I)) as [[V|[_ V]] _]; [|exact V].
      rewrite (Bo c I) in V. discriminate. }
    assert (DQ : forall (m : mem) s, (forall c, box c -> (m c = 0%Z \/ (m c = 1%Z /\ P c)) /\ (D s c -> m c = 1%Z)) ->
       forall cs, (forall c, In c cs -> D s c) -> both m 1 cs = true).
    { intros m s O cs Ds. apply both_iff. intros c I. pose proof (Ds c I) as Dc. apply O; [apply Dc|exact Dc]. }
    set (m1 := torch_edges _ _ _ _ m0).
    assert (H1 : forall c, box c -> (m1 c = 0%Z \/ (m1 c = 1%Z /\ P c)) /\ (D 2 c -> m1 c = 1%Z)).
    { apply (torch_stage 1 m0 _ ltac:(lia) H0).
      - intros [[i j] k] B R. destruct (pair_box _ _ _ B) as (Bx & By & Bz). pose proof B as (Hi & Hj & Hk).
        apply orb_true_iff in R as [R|R]; [apply orb_true_iff in R as [R|R]|].
        + apply P_x; [exact Hi|]. exact (PQ m0 1 H0 _ Bx R).
        + apply P_y; [exact Hj|]. exact (PQ m0 1 H0 _ By R).
        + apply P_z; [exact Hk|]. exact (PQ m0 1 H0 _ Bz R).
      - intros [[i j] k] B Pc E _. pose proof (D_x i j k 1 B Pc E) as X. pose proof (D_y i j k 1 B Pc E) as Y.
        pose proof (D_z i j k 1 B Pc E) as Z'. unfold dim in E.
        destruct (Nat.odd i); [change (marker false 0) with 1%Z; rewrite (DQ m0 1 H0 _ (X eq_refl)); reflexivity|].
        destruct (Nat.odd j); [change (marker false 0) with 1%Z; rewrite (DQ m0 1 H0 _ (Y eq_refl)); now rewrite orb_true_r|].
        destruct (Nat.odd k); [change (marker false 0) with 1%Z; rewrite (DQ m0 1 H0 _ (Z' eq_refl)); now rewrite orb_true_r|].
        cbn in E. lia. }
    clearbody m1. set (m2 := torch_faces _ _ _ _ m1).
    assert (H2 : forall c, box c -> (m2 c = 0%Z \/ (m2 c = 1%Z /\ P c)) /\ (D 3 c -> m2 c = 1%Z)).
    { apply (torch_stage 2 m1 _ ltac:(lia) H1).
      - intros [[i j] k] B R. destruct (pair_box _ _ _ B) as (Bx & By & Bz). pose proof B as (Hi & Hj & Hk).
        apply orb_true_iff in R as [R|R]; [apply orb_true_iff in R as [R|R]|]; apply andb_true_iff in R as [R _].
        + apply P_x; [exact Hi|]. exact (PQ m1 2 H1 _ Bx R).
        + apply P_y; [exact Hj|]. exact (PQ m1 2 H1 _ By R).
        + apply P_z; [exact Hk|]. exact (PQ m1 2 H1 _ Bz R).
      - intros [[i j] k] B Pc E _. pose proof (D_x i j k 2 B Pc E) as X. pose proof (D_y i j k 2 B Pc E) as Y.
        pose proof (D_z i j k 2 B Pc E) as Z'. unfold dim in E. change (marker false 1) with 1%Z.
        destruct (Nat.odd i), (Nat.odd j), (Nat.odd k); cbn in E; try lia.
        + rewrite (DQ m1 2 H1 _ (X eq_refl)), (DQ m1 2 H1 _ (Y eq_refl)). reflexivity.
        + rewrite (DQ m1 2 H1 _ (X eq_refl)), (DQ m1 2 H1 _ (Z' eq_refl)). cbn [andb]. now rewrite orb_true_r.
        + rewrite (DQ m1 2 H1 _ (Y eq_refl)), (DQ m1 2 H1 _ (Z' eq_refl)). cbn [andb]. now rewrite orb_true_r. }
    clearbody m2. set (m3 := torch_cubes _ _ _ _ m2).
    assert (H3 : forall c, box c -> (m3 c = 0%Z \/ (m3 c = 1%Z /\ P c)) /\ (D 4 c -> m3 c = 1%Z)).
    { apply (torch_stage 3 m2 _ ltac:(lia) H2).
      - intros [[i j] k] B R. destruct (pair_box _ _ _ B) as (Bx & By & Bz). pose proof B as (Hi & Hj & Hk).
        apply andb_true_iff in R as [R _]. apply andb_true_iff in R as [R _].
        apply P_x; [exact Hi|]. exact (PQ m2 3 H2 _ Bx R).
      - intros [[i j] k] B Pc E _. pose proof (D_x i j k 3 B Pc E) as X. pose proof (D_y i j k 3 B Pc E) as Y.
        pose proof (D_z i j k 3 B Pc E) as Z'. unfold dim in E. change (marker false 2) with 1%Z.
        destruct (Nat.odd i), (Nat.odd j), (Nat.odd k); cbn in E; try lia.
        rewrite (DQ m2 3 H2 _ (X eq_refl)), (DQ m2 3 H2 _ (Y eq_refl)), (DQ m2 3 H2 _ (Z' eq_refl)). reflexivity. }
    clearbody m3. intros c B. destruct (H3 c B) as [V K]. destruct (pres c) eqn:E.
    - apply K. repeat split; auto. destruct c as [[i j] k]. unfold dim.
      destruct (Nat.odd i), (Nat.odd j), (Nat.odd k); cbn; lia.
    - destruct V as [V|[_ V]]; [exact V|]. unfold P in V. congruence.
  Qed.
End One.

(** Any partial run can be completed. *)
Lemma joblib_completes nx ny nz multi A n (start : nat -> list nat) :
  exists more r, CubeMap_joblib nx ny nz multi A n (fun s => start s ++ more s) = Some r.
Proof.
  unfold CubeMap_joblib.
  assert (G : forall k, exists more r, fold_left (fun om s => match om with None => None | Some m =>
       let (ths, m') := run_schedule (start s ++ more s) (stage_threads nx ny nz multi A n s) m in
       if all_done ths then Some m' else None end) (seq 0 k) (Some (fun _ => 0%Z)) = Some r).
  { induction k as [|k (more & r & E)]; [exists (fun _ => []), (fun _ => 0%Z); reflexivity|].
    destruct (run_schedule (start k) (stage_threads nx ny nz multi A n k) r) as [ths1 m1] eqn:E1.
    destruct (finish_all ths1 m1) as [sk Dn].
    exists (fun s => if s =? k then sk else more s).
    destruct (run_schedule sk ths1 m1) as [ths m'] eqn:ER.
    exists m'. rewrite seq_S, fold_left_app. cbn [fold_left Nat.add].
    assert (EX : forall l (o : option mem), (forall s, In s l -> s <> k) ->
      fold_left (fun om s => match om with None => None | Some m =>
         let (ths, m') := run_schedule (start s ++ (if s =? k then sk else more s)) (stage_threads nx ny nz multi A n s) m in
         if all_done ths then Some m' else None end) l o
      = fold_left (fun om s => match om with None => None | Some m =>
         let (ths, m') := run_schedule (start s ++ more s) (stage_threads nx ny nz multi A n s) m in
         if all_done ths then Some m' else None end) l o).
    { induction l as [|s l IHl]; intros o H; cbn [fold_left]; [reflexivity|].
      replace (s =? k) with false by (symmetry; apply Nat.eqb_neq; apply H; now left).
      apply IHl. intros x Hx. apply H. now right. }
    rewrite EX, E by (intros s Hs; apply in_seq in Hs; lia).
    rewrite Nat.eqb_refl, run_app, E1, ER. cbn [fst] in Dn. now rewrite Dn. }
  apply (G 4).
Qed.
