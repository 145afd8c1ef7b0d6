(** Proofs about the friends-of-friends search. *)
From Coq Require Import List Arith ZArith Bool Lia.
From Coq Require Import Relations.Relation_Operators Logic.FinFun.
From Verif Require Import FofModel FofSpec.
Import ListNotations.
Local Open Scope nat_scope.

Lemma coord_eqb_eq a b : coord_eqb a b = true <-> a = b.
Proof. unfold coord_eqb. destruct (list_eq_dec Z.eq_dec a b); split; congruence. Qed.
Lemma coord_eqb_refl a : coord_eqb a a = true.
Proof. now apply coord_eqb_eq. Qed.
Lemma coord_eqb_neq a b : a <> b -> coord_eqb a b = false.
Proof. intros H. destruct (coord_eqb a b) eqn:E; [|reflexivity]. now apply coord_eqb_eq in E. Qed.
Lemma coord_dec (a b : coord) : a = b \/ a <> b.
Proof. destruct (list_eq_dec Z.eq_dec a b); auto. Qed.

Lemma mem_coord_in c l : mem_coord c l = true <-> In c l.
Proof.
  unfold mem_coord. rewrite existsb_exists. split.
  - intros (x & H & E). apply coord_eqb_eq in E. now subst.
  - intros H. exists c. split; [assumption|apply coord_eqb_refl].
Qed.

Lemma set_same m c g : set_label m c g c = g.
Proof. unfold set_label. now rewrite coord_eqb_refl. Qed.
Lemma set_other m c g d : d <> c -> set_label m c g d = m d.
Proof. intros H. unfold set_label. now rewrite coord_eqb_neq. Qed.

Definition countl (m : labels) (g : nat) (l : list coord) : nat :=
  length (filter (fun c => Nat.eqb (m c) g) l).

Lemma countl_set_notin m c g k l : ~ In c l -> countl (set_label m c g) k l = countl m k l.
Proof.
  unfold countl. induction l as [|x l IH]; intros H; [reflexivity|]. cbn [filter].
  rewrite set_other by (intros ->; apply H; now left).
  destruct (Nat.eqb (m x) k); cbn [length]; rewrite IH; auto; intros G; apply H; now right.
Qed.
Lemma countl_set_new m c g l : NoDup l -> In c l -> m c = 0 -> g <> 0 ->
  countl (set_label m c g) g l = S (countl m g l) /\ S (countl (set_label m c g) 0 l) = countl m 0 l.
Proof.
  intros ND H E G. induction ND as [|x l Hx ND IH]; [contradiction|]. unfold countl in *. cbn [filter].
  destruct H as [->|H].
  - rewrite set_same. rewrite Nat.eqb_refl. rewrite E.
    replace (Nat.eqb g 0) with false by (symmetry; now apply Nat.eqb_neq).
    replace (Nat.eqb 0 g) with false by (symmetry; apply Nat.eqb_neq; lia).
    cbn [length Nat.eqb].
    pose proof (countl_set_notin m c g g l Hx) as A. pose proof (countl_set_notin m c g 0 l Hx) as B.
    unfold countl in A, B. rewrite A, B. auto.
  - destruct IH as [I1 I2]; [assumption|].
    rewrite set_other by (intros ->; contradiction).
    destruct (Nat.eqb (m x) g), (Nat.eqb (m x) 0); cbn [length]; lia.
Qed.
Lemma countl_ext m m' k l : (forall c, In c l -> (m c = k <-> m' c = k)) -> countl m k l = countl m' k l.
Proof.
  unfold countl. induction l as [|x l IH]; intros H; [reflexivity|]. cbn [filter].
  assert (E : Nat.eqb (m x) k = Nat.eqb (m' x) k).
  { specialize (H x (or_introl eq_refl)). destruct (Nat.eqb_spec (m x) k), (Nat.eqb_spec (m' x) k); tauto. }
  rewrite E. destruct (Nat.eqb (m' x) k); cbn [length]; rewrite IH; auto; intros; apply H; now right.
Qed.

Lemma filter_len_le {T} (f : T -> bool) l : length (filter f l) <= length l.
Proof. induction l as [|x l IH]; cbn [filter length]; [lia|]. destruct (f x); cbn [length]; lia. Qed.

Section Search.
  Variable nbrs : coord -> list coord.
  Variable poss : list coord.
  Hypothesis nbrs_sym : forall a b, In b (nbrs a) -> In a (nbrs b).
  Hypothesis poss_nd : NoDup poss.

  Definition reach : coord -> coord -> Prop :=
    clos_refl_trans coord (fun a b => In a poss /\ In b poss /\ In b (nbrs a)).
  Lemma reach_sym a b : reach a b -> reach b a.
  Proof.
    intros H. induction H as [a b (A & B & C)|a|a b c _ H1 _ H2].
    - apply rt_step. auto.
    - apply rt_refl.
    - eapply rt_trans; eauto.
  Qed.

  Section Drain.
    Variables (g : nat) (p : coord) (m0 : labels).
    Hypothesis g_pos : 0 < g.
    Hypothesis p_poss : In p poss.

    Record Inv (except : coord -> Prop) (s : state) : Prop := {
      i_poss : forall c, lab s c <> 0 -> In c poss;
      i_reach : forall c, lab s c = g -> reach p c;
      i_old : forall c, lab s c <> g -> lab s c = m0 c;
      i_keep : forall c, m0 c <> 0 -> lab s c = m0 c;
      i_closed : forall c, lab s c = g -> In c (queue s) \/ except c
                 \/ forall d, In d (nbrs c) -> In d poss -> lab s d <> 0;
      i_queue : forall c, In c (queue s) -> lab s c = g;
      i_size : size s = countl (lab s) g poss;
      i_p : lab s p = g
    }.
    Definition measure (s : state) : nat := length (queue s) + countl (lab s) 0 poss.

    Lemma visit_inv p0 s t : (forall c, m0 c < g) -> Inv (eq p0) s -> lab s p0 = g -> In t (nbrs p0) ->
      Inv (eq p0) (visit poss g s t) /\ measure (visit poss g s t) = measure s
      /\ (forall c, lab s c <> 0 -> lab (visit poss g s t) c = lab s c)
      /\ (In t poss -> lab (visit poss g s t) t <> 0).
    Proof.
      intros Hm I Hp0 Ht. unfold visit.
      destruct (mem_coord t poss && Nat.eqb (lab s t) 0) eqn:E.
      - apply andb_true_iff in E as [E1 E2]. apply mem_coord_in in E1. apply Nat.eqb_eq in E2.
        destruct (countl_set_new (lab s) t g poss poss_nd E1 E2 ltac:(lia)) as [C1 C2].
        split; [|split; [|split]].
        + destruct I as [A B C D F G H J]. constructor; cbn [lab queue size].
          * intros c. destruct (coord_dec c t) as [->|N]; [intros _; assumption|]. rewrite set_other by assumption. apply A.
          * intros c. destruct (coord_dec c t) as [->|N]; [|rewrite set_other by assumption; apply B].
            intros _. eapply rt_trans; [apply B, Hp0|]. apply rt_step. repeat split; [|assumption|assumption].
            apply A. lia.
          * intros c. destruct (coord_dec c t) as [->|N]; [rewrite set_same; congruence|]. rewrite set_other by assumption. apply C.
          * intros c Hc. destruct (coord_dec c t) as [->|N]; [|rewrite set_other by assumption; now apply D].
            rewrite D in E2 by assumption. contradiction.
          * intros c. destruct (coord_dec c t) as [->|N].
            -- intros _. left. apply in_or_app. right. now left.
            -- rewrite set_other by assumption. intros Hc. destruct (F c Hc) as [K|[K|K]].
               ++ left. apply in_or_app. now left.
               ++ right. now left.
               ++ right. right. intros d Hd Hd'. destruct (coord_dec d t) as [->|N']; [rewrite set_same; lia|].
                  rewrite set_other by assumption. now apply K.
          * intros c Hc. apply in_app_or in Hc as [Hc|[<-|[]]]; [|apply set_same].
            destruct (coord_dec c t) as [->|N]; [apply set_same|]. rewrite set_other by assumption. now apply G.
          * rewrite C1, H. reflexivity.
          * destruct (coord_dec p t) as [->|N]; [apply set_same|]. now rewrite set_other.
        + unfold measure. cbn [lab queue]. rewrite app_length. cbn [length]. lia.
        + intros c Hc. cbn [lab]. apply set_other. intros ->. lia.
        + intros _. cbn [lab]. rewrite set_same. lia.
      - split; [assumption|]. split; [reflexivity|]. split; [auto|]. intros Hp.
        apply mem_coord_in in Hp. rewrite Hp in E. cbn [andb] in E. now apply Nat.eqb_neq in E.
    Qed.

    Lemma fold_visit_inv p0 ts : (forall c, m0 c < g) -> forall s, Inv (eq p0) s -> lab s p0 = g ->
      (forall t, In t ts -> In t (nbrs p0)) ->
      let s' := fold_left (visit poss g) ts s in
      Inv (eq p0) s' /\ measure s' = measure s /\ (forall c, lab s c <> 0 -> lab s' c = lab s c)
      /\ (forall t, In t ts -> In t poss -> lab s' t <> 0).
    Proof.
      intros Hm. induction ts as [|t ts IH]; intros s I Hp0 Hts; cbn [fold_left].
      - cbv zeta. split; [assumption|]. split; [reflexivity|]. split; [auto|]. intros t [].
      - destruct (visit_inv p0 s t Hm I Hp0 (Hts t (or_introl eq_refl))) as (I1 & M1 & K1 & T1).
        assert (Hp1 : lab (visit poss g s t) p0 = g) by (rewrite K1; lia).
        destruct (IH _ I1 Hp1 (fun t' H => Hts t' (or_intror H))) as (I2 & M2 & K2 & T2). cbv zeta.
        split; [assumption|]. split; [lia|]. split.
        + intros c Hc. rewrite K2; [now apply K1|]. rewrite K1; assumption.
        + intros t' [<-|Ht'] Hp; [|now apply T2]. rewrite K2 by now apply T1. now apply T1.
    Qed.

    Lemma search_inv p0 q s : (forall c, m0 c < g) -> Inv (fun _ => False) s -> queue s = p0 :: q ->
      let s' := recursive_search nbrs poss g p0 (St (lab s) q (size s)) in
      Inv (fun _ => False) s' /\ S (measure s') = measure s.
    Proof.
      intros Hm I Hq. cbv zeta. unfold recursive_search.
      set (s1 := St (lab s) q (size s)).
      assert (Hp0 : lab s p0 = g) by (apply (i_queue _ _ I); rewrite Hq; now left).
      assert (I1 : Inv (eq p0) s1).
      { destruct I as [A B C D F G H J]. constructor; cbn [lab queue size s1]; auto.
        - intros c Hc. destruct (F c Hc) as [K|[[]|K]]; [|auto]. rewrite Hq in K. destruct K as [->|K]; auto.
        - intros c Hc. apply G. rewrite Hq. now right. }
      destruct (fold_visit_inv p0 (nbrs p0) Hm s1 I1 Hp0 (fun t H => H)) as (I2 & M2 & K2 & T2).
      split.
      - destruct I2 as [A B C D F G H J]. constructor; auto.
        intros c Hc. destruct (F c Hc) as [K|[K|K]]; [now left| |right; now right].
        subst c. right. right. assumption.
      - rewrite M2. unfold measure. cbn [lab queue s1]. rewrite Hq. reflexivity.
    Qed.

    Lemma drain_inv fuel : (forall c, m0 c < g) -> forall late s, Inv (fun _ => False) s -> measure s <= fuel ->
      ~ In true late ->
      exists s' late', drain nbrs poss fuel late g s = Some (s', late') /\ Inv (fun _ => False) s'
        /\ queue s' = [] /\ ~ In true late'.
    Proof.
      intros Hm. induction fuel as [|fuel IH]; intros late s I M L; cbn [drain]; destruct (queue s) as [|p0 q] eqn:Hq.
      - exists s, late. auto.
      - unfold measure in M. rewrite Hq in M. cbn [length] in M. lia.
      - exists s, late. auto.
      - destruct (search_inv p0 q s Hm I Hq) as [I2 M2].
        assert (L' : ~ In true (tl late)) by (destruct late; [exact L|intros H; apply L; now right]).
        destruct late as [|[|] late]; [|exfalso; apply L; now left|]; (apply IH; [assumption|lia|assumption]).
    Qed.
  End Drain.

  Record Glob (m : labels) (g : nat) (sizes : list nat) : Prop := {
    g_poss : forall c, m c <> 0 -> In c poss;
    g_lt : forall c, m c < g;
    g_reach : forall c d, m c <> 0 -> m c = m d -> reach c d;
    g_closed : forall c d, m c <> 0 -> In d (nbrs c) -> In d poss -> m d = m c;
    g_len : S (length sizes) = g;
    g_sizes : forall k, 1 <= k < g -> nth (k - 1) sizes 0 = countl m k poss;
    g_used : forall k, 1 <= k < g -> exists c, m c = k
  }.

  Lemma groups_inv iter : (forall c, In c iter -> In c poss) -> forall late m g sizes, 0 < g ->
    Glob m g sizes -> ~ In true late ->
    exists m' sizes', groups nbrs poss late iter m [] g sizes = Some (m', sizes')
      /\ (exists g', Glob m' g' sizes') /\ (forall c, m c <> 0 -> m' c = m c) /\ (forall c, In c iter -> m' c <> 0).
  Proof.
    induction iter as [|p iter IH]; intros Hi late m g sizes Hg G L; cbn [groups].
    - exists m, sizes. split; [reflexivity|]. split; [now exists g|]. split; [auto|intros c []].
    - destruct (Nat.eqb_spec (m p) 0) as [E|E].
      + assert (Hp : In p poss) by (apply Hi; now left).
        set (s0 := St (set_label m p g) ([] ++ [p]) 1).
        assert (I0 : Inv g p m (fun _ => False) s0).
        { destruct G as [A B C D F H U].
          destruct (countl_set_new m p g poss poss_nd Hp E ltac:(lia)) as [C1 _].
          assert (C0 : countl m g poss = 0).
          { unfold countl. replace (filter (fun c => Nat.eqb (m c) g) poss) with (@nil coord); [reflexivity|].
            symmetry. clear -B. induction poss as [|x l IHl]; [reflexivity|]. cbn [filter].
            specialize (B x) as Bx. destruct (Nat.eqb_spec (m x) g); [lia|assumption]. }
          constructor; cbn [lab queue size s0].
          - intros c. destruct (coord_dec c p) as [->|N]; [auto|]. rewrite set_other by assumption. apply A.
          - intros c. destruct (coord_dec c p) as [->|N]; [intros _; apply rt_refl|]. rewrite set_other by assumption.
            intros Hc. specialize (B c). lia.
          - intros c. destruct (coord_dec c p) as [->|N]; [rewrite set_same; congruence|]. now rewrite set_other by assumption.
          - intros c Hc. apply set_other. intros ->. contradiction.
          - intros c. destruct (coord_dec c p) as [->|N]; [intros _; left; now left|]. rewrite set_other by assumption.
            intros Hc. specialize (B c). lia.
          - intros c [<-|[]]. apply set_same.
          - rewrite C1, C0. reflexivity.
          - apply set_same. }
        assert (M0 : measure s0 <= S (length (@nil coord) + length poss)).
        { unfold measure. cbn [s0 lab queue app length]. unfold countl.
          pose proof (filter_len_le (fun c => Nat.eqb (set_label m p g c) 0) poss). lia. }
        destruct (drain_inv g p m Hg Hp (S (length (@nil coord) + length poss)) (g_lt _ _ _ G) late s0 I0 M0 L) as (s & late' & -> & I & Q & L').
        rewrite Q. destruct G as [A B C D F H U]. destruct I as [a b c0 d f g0 h j].
        assert (Old : forall x, lab s x <> g -> m x = lab s x) by (intros; symmetry; now apply c0).
        assert (Cl : forall x y, lab s x <> 0 -> In y (nbrs x) -> In y poss -> lab s y = lab s x).
        { intros x y Hx Hy Hy'. destruct (Nat.eq_dec (lab s x) g) as [Ex|Ex].
          - destruct (f x Ex) as [K|[[]|K]]; [rewrite Q in K; contradiction|].
            specialize (K y Hy Hy'). destruct (Nat.eq_dec (lab s y) g) as [Ey|Ey]; [congruence|].
            exfalso. assert (m y <> 0) by (rewrite Old; assumption).
            assert (Hxp : In x poss) by (apply a; lia).
            specialize (D y x H0 (nbrs_sym _ _ Hy) Hxp). apply Ey.
            rewrite <- (Old y Ey), <- D. rewrite <- (d x); [exact Ex|]. now rewrite D.
          - rewrite <- (Old x Ex). rewrite <- (D x y); [|rewrite Old; assumption|assumption|assumption].
            apply d. rewrite (D x y); [rewrite Old; assumption|rewrite Old; assumption|assumption|assumption]. }
        destruct (IH (fun c H => Hi c (or_intror H)) late' (lab s) (S g) (sizes ++ [size s])) as (m' & sizes' & -> & Gl & K & T).
        * lia.
        * constructor.
          -- exact a.
          -- intros x. destruct (Nat.eq_dec (lab s x) g) as [Ex|Ex]; [lia|]. rewrite <- Old by assumption. specialize (B x). lia.
          -- intros x y Hx Exy. destruct (Nat.eq_dec (lab s x) g) as [Ex|Ex].
             ++ eapply rt_trans; [apply reach_sym, b, Ex|]. apply b. congruence.
             ++ apply C; rewrite !Old by congruence; assumption.
          -- exact Cl.
          -- rewrite app_length. cbn [length]. lia.
          -- intros k Hk. destruct (Nat.eq_dec k g) as [->|Nk].
             ++ rewrite app_nth2 by lia. replace (g - 1 - length sizes) with 0 by lia. cbn [nth]. exact h.
             ++ rewrite app_nth1 by lia. rewrite H by lia. apply countl_ext. intros x Hx. split; intros Ex.
                ** rewrite d; [exact Ex|lia].
                ** rewrite Old; [exact Ex|lia].
          -- intros k Hk. destruct (Nat.eq_dec k g) as [->|Nk]; [now exists p|].
             destruct (U k ltac:(lia)) as [x Hx]. exists x. rewrite d; [exact Hx|lia].
        * exact L'.
        * exists m', sizes'. split; [reflexivity|]. split; [exact Gl|]. split.
          -- intros x Hx. rewrite K; [now apply d|]. rewrite d; assumption.
          -- intros x [<-|Hx]; [|now apply T]. rewrite K; lia.
      + destruct (IH (fun c H => Hi c (or_intror H)) late m g sizes Hg G L) as (m' & sizes' & -> & Gl & K & T).
        exists m', sizes'. split; [reflexivity|]. split; [exact Gl|]. split; [exact K|].
        intros x [<-|Hx]; [|now apply T]. rewrite K; assumption.
  Qed.

  Lemma search_correct late : ~ In true late ->
    exists m sizes, groups nbrs poss late poss (fun _ => 0) [] 1 [] = Some (m, sizes)
      /\ (forall c, m c <> 0 <-> In c poss)
      /\ (forall c d, In c poss -> In d poss -> (m c = m d <-> reach c d))
      /\ (forall c, m c <= length sizes)
      /\ (forall k, 1 <= k <= length sizes -> nth (k - 1) sizes 0 = countl m k poss /\ exists c, m c = k).
  Proof.
    intros L.
    assert (G0 : Glob (fun _ => 0) 1 []).
    { constructor; try (intros; lia); reflexivity || (intros; congruence). }
    destruct (groups_inv poss (fun c H => H) late _ 1 [] ltac:(lia) G0 L) as (m & sizes & E & [g G] & _ & T).
    exists m, sizes. split; [exact E|]. destruct G as [A B C D F H U].
    split; [intros c; split; [apply A|apply T]|]. split; [|split].
    - intros c d Hc Hd. split; [intros Ecd; apply C; [now apply T|assumption]|].
      intros R. clear Hd. induction R as [a b (Ha & Hb & Hab)|a|a b c' R1 IH1 R2 IH2]; [|reflexivity|].
      + symmetry. apply D; auto.
      + rewrite IH1 by assumption. apply IH2. clear -R1 Hc.
        induction R1 as [x y (Hx & Hy & _)|x|x y z _ I1 _ I2]; auto.
    - intros c. specialize (B c). lia.
    - intros k Hk. split; [apply H; lia|apply U; lia].
  Qed.
End Search.

(** ** Neighbourhoods *)
Lemma options_spec a b : In b (options a) <->
  (Forall2 (fun x y => Z.abs (x - y) <= 1)%Z a b /\ differ a b = 1).
Proof.
  revert b. induction a as [|x a IH]; intros b; cbn [options].
  - split; [intros []|]. intros [H E]. inversion H; subst. discriminate.
  - assert (refl : forall l, Forall2 (fun x y => Z.abs (x - y) <= 1)%Z l l).
    { induction l; constructor; [lia|assumption]. }
    assert (d0 : forall l, differ l l = 0).
    { induction l as [|z l IHl]; cbn [differ]; [reflexivity|]. now rewrite Z.eqb_refl. }
    assert (d0' : forall l l', Forall2 (fun x y => Z.abs (x - y) <= 1)%Z l l' -> differ l l' = 0 -> l = l').
    { intros l l' H. induction H as [|u v l l' _ H IHl]; [reflexivity|]. cbn [differ].
      destruct (Z.eqb_spec u v) as [->|]; [|discriminate]. cbn. intros E. now rewrite IHl. }
    cbn [In]. rewrite in_map_iff. split.
    + intros [<-|[<-|(b' & <- & H)]]; cbn [differ].
      * split; [constructor; [lia|apply refl]|]. rewrite d0. destruct (Z.eqb_spec x (x + -1)); lia.
      * split; [constructor; [lia|apply refl]|]. rewrite d0. destruct (Z.eqb_spec x (x + 1)); lia.
      * apply IH in H as [H1 H2]. split; [constructor; [lia|assumption]|]. rewrite Z.eqb_refl. exact H2.
    + intros [H E]. inversion H as [|? y ? b' Hxy Hb]; subst. cbn [differ] in E.
      destruct (Z.eqb_spec x y) as [->|N].
      * right. right. exists b'. split; [reflexivity|]. apply IH. auto.
      * assert (a = b') by (apply d0'; [assumption|lia]). subst b'.
        assert (y = x + -1 \/ y = x + 1)%Z as [->| ->] by lia; auto.
Qed.

Lemma options_r_spec a : forall r b, In b (options_r r a) <-> neighbours r a b.
Proof.
  unfold neighbours. induction a as [|x a IH]; intros r b; cbn [options_r].
  - split; [intros [<-|[]]; split; [constructor|cbn; lia]|]. intros [H _]. inversion H. now left.
  - rewrite in_app_iff, in_map_iff. split.
    + intros [(b' & <- & H)|H].
      * apply IH in H as [H1 H2]. split; [constructor; [lia|assumption]|]. cbn [differ]. now rewrite Z.eqb_refl.
      * destruct r as [|r]; [contradiction|]. rewrite in_app_iff, !in_map_iff in H.
        destruct H as [(b' & <- & H)|(b' & <- & H)]; apply IH in H as [H1 H2]; (split; [constructor; [lia|assumption]|]);
          cbn [differ]; match goal with |- context [Z.eqb ?u ?v] => destruct (Z.eqb_spec u v) end; lia.
    + intros [H E]. inversion H as [|? y ? b' Hxy Hb]; subst. cbn [differ] in E.
      destruct (Z.eqb_spec x y) as [->|N].
      * left. exists b'. split; [reflexivity|]. apply IH. auto.
      * right. destruct r as [|r]; [lia|]. rewrite in_app_iff, !in_map_iff.
        assert (y = x + -1 \/ y = x + 1)%Z as [->| ->] by lia; [left|right]; exists b'; (split; [reflexivity|]);
          apply IH; (split; [assumption|lia]).
Qed.

Lemma near_sym a b : Forall2 (fun x y => Z.abs (x - y) <= 1)%Z a b -> Forall2 (fun x y => Z.abs (x - y) <= 1)%Z b a.
Proof. induction 1; constructor; [lia|assumption]. Qed.
Lemma differ_sym a b : differ a b = differ b a.
Proof.
  revert b. induction a as [|x a IH]; intros [|y b]; cbn [differ]; try reflexivity.
  rewrite IH. now rewrite Z.eqb_sym.
Qed.

Lemma all_coords_spec shape c : In c (all_coords shape) <-> in_shape shape c.
Proof.
  unfold in_shape. revert c. induction shape as [|n shape IH]; intros c; cbn [all_coords].
  - split; [intros [<-|[]]; constructor|]. intros H. inversion H. now left.
  - rewrite in_flat_map. split.
    + intros (i & Hi & H). apply in_map_iff in H as (c' & <- & H). apply in_seq in Hi.
      constructor; [lia|]. now apply IH.
    + intros H. inversion H as [|? x ? c' Hx Hc]; subst. exists (Z.to_nat x). split; [apply in_seq; lia|].
      apply in_map_iff. exists c'. split; [f_equal; lia|]. now apply IH.
Qed.
Lemma NoDup_app_disjoint {T} (l1 l2 : list T) : NoDup l1 -> NoDup l2 -> (forall x, In x l1 -> ~ In x l2) -> NoDup (l1 ++ l2).
Proof.
  intros N1 N2 D. induction N1 as [|x l1 Hx N1 IH]; [exact N2|]. cbn. constructor.
  - rewrite in_app_iff. intros [H|H]; [contradiction|]. apply (D x); [now left|assumption].
  - apply IH. intros y Hy. apply D. now right.
Qed.
Lemma all_coords_nodup shape : NoDup (all_coords shape).
Proof.
  induction shape as [|n shape IH]; cbn [all_coords]; [repeat constructor; intros []|].
  generalize (seq_NoDup n 0). generalize (seq 0 n) as l. induction l as [|i l IHl]; intros ND; [constructor|].
  cbn [flat_map]. inversion ND as [|? ? Hi ND']; subst. apply NoDup_app_disjoint.
  - apply Injective_map_NoDup; [|exact IH]. intros u v E. now injection E.
  - now apply IHl.
  - intros x Hx Hx'. apply in_map_iff in Hx as (c & <- & _). apply in_flat_map in Hx' as (i' & Hi' & H).
    apply in_map_iff in H as (c' & E & _). injection E as E _. apply Hi. replace i with i' by lia. assumption.
Qed.

Lemma where_spec shape A c : In c (where_above shape A) <-> cell_of shape A c.
Proof. unfold where_above, cell_of. now rewrite filter_In, all_coords_spec. Qed.
Lemma where_nodup shape A : NoDup (where_above shape A).
Proof. apply NoDup_filter, all_coords_nodup. Qed.

(** From the search to the specification. *)
Lemma reach_connected r nbrs shape A :
  (forall a b, In b (nbrs a) -> neighbours r a b) ->
  (forall a b, neighbours r a b -> a = b \/ In b (nbrs a)) ->
  forall c d, reach nbrs (where_above shape A) c d <-> connected r (cell_of shape A) c d.
Proof.
  intros H1 H2 c d. split; intros R.
  - induction R as [a b (Ha & Hb & Hab)|a|a b e _ I1 _ I2].
    + apply rt_step. rewrite <- !where_spec. auto.
    + apply rt_refl.
    + eapply rt_trans; eauto.
  - induction R as [a b (Ha & Hb & Hab)|a|a b e _ I1 _ I2].
    + apply where_spec in Ha, Hb. destruct (H2 a b Hab) as [->|K]; [apply rt_refl|apply rt_step; auto].
    + apply rt_refl.
    + eapply rt_trans; eauto.
Qed.

Lemma labelling_of_search r nbrs shape A late :
  (forall a b, In b (nbrs a) -> neighbours r a b) ->
  (forall a b, neighbours r a b -> a = b \/ In b (nbrs a)) ->
  (forall a b, In b (nbrs a) -> In a (nbrs b)) ->
  ~ In true late ->
  exists m sizes, groups nbrs (where_above shape A) late (where_above shape A) (fun _ => 0) [] 1 [] = Some (m, sizes)
    /\ labelling r shape A m sizes.
Proof.
  intros H1 H2 Hs L.
  destruct (search_correct nbrs (where_above shape A) Hs (where_nodup shape A) late L) as (m & sizes & E & P1 & P2 & P3 & P4).
  exists m, sizes. split; [exact E|]. unfold labelling. split; [|split; [|split]].
  - intros c. rewrite P1. apply where_spec.
  - intros c d Hc Hd. rewrite <- (reach_connected r nbrs) by assumption. apply P2; now apply where_spec.
  - exact P3.
  - intros g Hg. destruct (P4 g Hg) as [E4 [c Hc]].
    exists (filter (fun c => Nat.eqb (m c) g) (where_above shape A)).
    assert (F : forall c, In c (filter (fun c => Nat.eqb (m c) g) (where_above shape A)) <-> m c = g).
    { intros x. rewrite filter_In, Nat.eqb_eq. split; [tauto|]. intros Ex. split; [|assumption]. apply P1. lia. }
    split; [apply NoDup_filter, where_nodup|]. split.
    + intros En. apply F in Hc. rewrite En in Hc. contradiction.
    + split; [symmetry; exact E4|exact F].
Qed.

Lemma neighbours_sym r a b : neighbours r a b -> neighbours r b a.
Proof. intros [H1 H2]. split; [now apply near_sym|now rewrite differ_sym]. Qed.

Lemma FoF_list_ok shape A late : ~ In true late ->
  exists m sizes, FoF_search_list shape A late = Some (m, sizes) /\ labelling 1 shape A m sizes.
Proof.
  apply labelling_of_search.
  - intros a b H. apply options_spec in H as [H1 H2]. split; [assumption|lia].
  - intros a b [H1 H2]. destruct (Nat.eq_dec (differ a b) 1) as [E|E].
    + right. apply options_spec. auto.
    + left. assert (E0 : differ a b = 0) by lia. clear H2 E. induction H1 as [|x y l l' _ H IH]; [reflexivity|].
      cbn [differ] in E0. destruct (Z.eqb_spec x y) as [->|]; [|lia]. f_equal. apply IH. lia.
  - intros a b H. apply options_spec in H as [H1 H2]. apply options_spec. split; [now apply near_sym|now rewrite differ_sym].
Qed.
Lemma label_ok r shape A :
  exists m sizes, label r shape A = Some (m, sizes) /\ labelling r shape A m sizes.
Proof.
  apply labelling_of_search.
  - intros a b. apply options_r_spec.
  - intros a b H. right. now apply options_r_spec.
  - intros a b. rewrite !options_r_spec. apply neighbours_sym.
  - intros [].
Qed.

(** The number of labels is the number of components. *)
Lemma connected_cell r A c d : connected r A c d -> A c -> A d.
Proof. induction 1 as [x y (Hx & Hy & _)|x|x y z _ I1 _ I2]; auto. Qed.
Lemma connected_sym r A c d : connected r A c d -> connected r A d c.
Proof.
  induction 1 as [x y (Hx & Hy & Hxy)|x|x y z _ I1 _ I2].
  - apply rt_step. split; [assumption|]. split; [assumption|]. now apply neighbours_sym.
  - apply rt_refl.
  - eapply rt_trans; eauto.
Qed.
Lemma labelling_components r shape A m sizes : labelling r shape A m sizes -> components r shape A (length sizes).
Proof.
  intros (H1 & H2 & H3 & H4).
  assert (R : forall n, n <= length sizes -> exists reps, length reps = n /\ map m reps = seq 1 n).
  { induction n as [|n IH]; intros Hn; [exists []; auto|].
    destruct IH as (reps & L & M); [lia|]. destruct (H4 (S n) ltac:(lia)) as (cs & _ & Hne & _ & Hcs).
    destruct cs as [|c cs]; [contradiction|]. exists (reps ++ [c]). rewrite app_length, map_app, M, seq_S. cbn [map length].
    split; [lia|]. f_equal. f_equal. now apply Hcs; left. }
  destruct (R (length sizes) (le_n _)) as (reps & L & M). exists reps.
  assert (Hin : forall c, In c reps -> 1 <= m c <= length sizes).
  { intros c Hc. apply (in_map m) in Hc. rewrite M in Hc. apply in_seq in Hc. lia. }
  assert (Hc : forall c, In c reps -> cell_of shape A c) by (intros c Hc; apply H1; specialize (Hin c Hc); lia).
  split; [exact L|]. split; [|split; [exact Hc|split]].
  - apply (NoDup_map_inv m). rewrite M. apply seq_NoDup.
  - intros c d Ic Id K. apply H2 in K; [|auto|auto].
    assert (NDm : NoDup (map m reps)) by (rewrite M; apply seq_NoDup).
    clear -K Ic Id NDm. induction reps as [|x reps IH]; [contradiction|]. cbn [map] in NDm.
    inversion NDm as [|? ? Hx ND]; subst. destruct Ic as [->|Ic], Id as [->|Id]; auto.
    + exfalso. apply Hx. rewrite K. now apply in_map.
    + exfalso. apply Hx. rewrite <- K. now apply in_map.
  - intros c Hcc. assert (Hm : In (m c) (map m reps)).
    { rewrite M. apply in_seq. specialize (H3 c). apply H1 in Hcc. lia. }
    apply in_map_iff in Hm as (d & E & Hd). exists d. split; [assumption|]. apply H2; auto.
Qed.
Lemma components_unique_le r shape A n n' : components r shape A n -> components r shape A n' -> n <= n'.
Proof.
  intros (reps & <- & ND & C & D & E) (reps' & <- & ND' & C' & D' & E').
  assert (G : exists f, length f = length reps /\ Forall2 (fun c d => In d reps' /\ connected r (cell_of shape A) c d) reps f).
  { assert (C2 : forall c, In c reps -> cell_of shape A c) by exact C. clear ND C D E.
    induction reps as [|x reps IH]; [exists []; auto|].
    destruct IH as (f & L & F); [intros; apply C2; now right|].
    destruct (E' x (C2 x (or_introl eq_refl))) as (d & Hd & K). exists (d :: f). cbn. split; [lia|]. constructor; auto. }
  destruct G as (f & L & F). rewrite <- L. apply NoDup_incl_length.
  - assert (D2 : forall c d, In c reps -> In d reps -> connected r (cell_of shape A) c d -> c = d) by exact D.
    clear -ND F D2. induction F as [|c d reps f [Hd K] F IH]; [constructor|].
    inversion ND as [|? ? Hc ND2]; subst. constructor.
    + intros Hin. assert (G : exists c', In c' reps /\ connected r (cell_of shape A) c' d).
      { clear -F Hin. induction F as [|a b reps f [Hb K] F IH]; [contradiction|]. destruct Hin as [->|Hin].
        - exists a. split; [now left|assumption].
        - destruct (IH Hin) as (c' & H & K'). exists c'. split; [now right|assumption]. }
      destruct G as (c' & Hc' & K'). apply Hc. replace c with c'; [assumption|].
      apply D2; [now right|now left|]. eapply rt_trans; [exact K'|now apply connected_sym].
    + apply IH; [assumption|]. intros a b Ha Hb. apply D2; now right.
  - intros d Hd. clear -F Hd. induction F as [|a b reps f [Hb K] F IH]; [contradiction|]. destruct Hd as [->|Hd]; auto.
Qed.
Lemma components_unique r shape A n n' : components r shape A n -> components r shape A n' -> n = n'.
Proof. intros H H'. apply Nat.le_antisymm; eapply components_unique_le; eauto. Qed.
Lemma label_num_ok r shape A : exists n, label_num r shape A = Some n /\ components r shape A n.
Proof.
  destruct (label_ok r shape A) as (m & sizes & E & L). unfold label_num. rewrite E.
  exists (length sizes). split; [reflexivity|]. eapply labelling_components; eauto.
Qed.
