(** Proofs about the light-cone loop. *)
From Coq Require Import List Arith ZArith QArith Qabs Qround Bool Lia Lqa.
From Verif Require Import LcModel LcSpec.
Import ListNotations.
Local Open Scope nat_scope.

Lemma Qltb_lt a b : Qltb a b = true <-> (a < b)%Q.
Proof.
  unfold Qltb. rewrite negb_true_iff. split; intros H.
  - apply Qnot_le_lt. intros G. apply Qle_bool_iff in G. congruence.
  - destruct (Qle_bool b a) eqn:E; [|reflexivity]. apply Qle_bool_iff in E. lra.
Qed.
Lemma Qltb_ge a b : Qltb a b = false <-> (b <= a)%Q.
Proof.
  unfold Qltb. rewrite negb_false_iff. apply Qle_bool_iff.
Qed.

Lemma list_max_none l : list_max l = None <-> l = [].
Proof. destruct l as [|x l]; cbn; [easy|]. destruct (list_max l); split; discriminate. Qed.
Lemma list_min_none l : list_min l = None <-> l = [].
Proof. destruct l as [|x l]; cbn; [easy|]. destruct (list_min l); split; discriminate. Qed.
Lemma list_max_spec l m : list_max l = Some m -> In m l /\ forall x, In x l -> (x <= m)%Q.
Proof.
  revert m. induction l as [|x l IH]; intros m; cbn [list_max]; [discriminate|].
  destruct (list_max l) as [m'|] eqn:E.
  - destruct (IH m' eq_refl) as [I1 I2]. destruct (Qltb x m') eqn:C; intros H; injection H as <-.
    + apply Qltb_lt in C. split; [now right|]. intros y [<-|Hy]; [lra|now apply I2].
    + apply Qltb_ge in C. split; [now left|]. intros y [<-|Hy]; [lra|]. specialize (I2 y Hy). lra.
  - apply list_max_none in E as ->. intros H. injection H as <-. split; [now left|]. intros y [<-|[]]. lra.
Qed.
Lemma list_min_spec l m : list_min l = Some m -> In m l /\ forall x, In x l -> (m <= x)%Q.
Proof.
  revert m. induction l as [|x l IH]; intros m; cbn [list_min]; [discriminate|].
  destruct (list_min l) as [m'|] eqn:E.
  - destruct (IH m' eq_refl) as [I1 I2]. destruct (Qltb m' x) eqn:C; intros H; injection H as <-.
    + apply Qltb_lt in C. split; [now right|]. intros y [<-|Hy]; [lra|now apply I2].
    + apply Qltb_ge in C. split; [now left|]. intros y [<-|Hy]; [lra|]. specialize (I2 y Hy). lra.
  - apply list_min_none in E as ->. intros H. injection H as <-. split; [now left|]. intros y [<-|[]]. lra.
Qed.

Lemma bracket_low_some fz z l : bracket_low fz z = Some l -> is_low fz z l.
Proof.
  intros H. apply list_max_spec in H as [H1 H2]. apply filter_In in H1 as [H1 H3]. apply Qle_bool_iff in H3.
  split; [assumption|]. split; [assumption|]. intros x Hx Hxz. apply H2. apply filter_In. split; [assumption|].
  now apply Qle_bool_iff.
Qed.
Lemma bracket_high_some fz z h : bracket_high fz z = Some h -> is_high fz z h.
Proof.
  intros H. apply list_min_spec in H as [H1 H2]. apply filter_In in H1 as [H1 H3]. apply Qltb_lt in H3.
  split; [assumption|]. split; [assumption|]. intros x Hx Hxz. apply H2. apply filter_In. split; [assumption|].
  now apply Qltb_lt.
Qed.
Lemma bracket_low_none fz z : bracket_low fz z = None <-> forall x, In x fz -> (z < x)%Q.
Proof.
  unfold bracket_low. rewrite list_max_none. split.
  - intros E x Hx. apply Qnot_le_lt. intros G. apply Qle_bool_iff in G.
    assert (K : In x (filter (fun x => Qle_bool x z) fz)) by now apply filter_In. rewrite E in K. contradiction.
  - intros H. induction fz as [|x l IH]; [reflexivity|]. cbn [filter].
    destruct (Qle_bool x z) eqn:E; [|apply IH; intros; apply H; now right].
    apply Qle_bool_iff in E. specialize (H x (or_introl eq_refl)). lra.
Qed.
Lemma bracket_high_none fz z : bracket_high fz z = None <-> forall x, In x fz -> (x <= z)%Q.
Proof.
  unfold bracket_high. rewrite list_min_none. split.
  - intros E x Hx. apply Qnot_lt_le. intros G. apply Qltb_lt in G.
    assert (K : In x (filter (fun x => Qltb z x) fz)) by now apply filter_In. rewrite E in K. contradiction.
  - intros H. induction fz as [|x l IH]; [reflexivity|]. cbn [filter].
    destruct (Qltb z x) eqn:E; [|apply IH; intros; apply H; now right].
    apply Qltb_lt in E. specialize (H x (or_introl eq_refl)). lra.
Qed.

(** argmin *)
Lemma argmin_from_spec l : forall i best bv,
  let r := argmin_from i best bv l in
  (r = best /\ (forall j x, nth_error l j = Some x -> (bv <= x)%Q)) \/
  (exists j x, r = i + j /\ nth_error l j = Some x /\ (x < bv)%Q
     /\ (forall j' x', nth_error l j' = Some x' -> (x <= x')%Q)
     /\ (forall j' x', j' < j -> nth_error l j' = Some x' -> (x < x')%Q)).
Proof.
  induction l as [|y l IH]; intros i best bv; cbn [argmin_from].
  - left. split; [reflexivity|]. intros [|j] x; discriminate.
  - destruct (Qltb y bv) eqn:C.
    + apply Qltb_lt in C. right. destruct (IH (S i) i y) as [[E H]|(j & x & E & Hj & Hx & H1 & H2)].
      * exists 0, y. cbv zeta in *. rewrite E. repeat split; [lia|assumption| |intros; lia].
        intros [|j'] x' H'; [injection H' as <-; lra|]. now apply (H j').
      * exists (S j), x. cbv zeta in *. rewrite E. repeat split; [lia|exact Hj|lra| |].
        -- intros [|j'] x' H'; [injection H' as <-; lra|]. now apply (H1 j').
        -- intros [|j'] x' L H'; [injection H' as <-; lra|]. apply (H2 j'); [lia|assumption].
    + apply Qltb_ge in C. destruct (IH (S i) best bv) as [[E H]|(j & x & E & Hj & Hx & H1 & H2)].
      * left. cbv zeta in *. split; [exact E|]. intros [|j'] x' H'; [injection H' as <-; lra|]. now apply (H j').
      * right. exists (S j), x. cbv zeta in *. rewrite E. repeat split; [lia|exact Hj|assumption| |].
        -- intros [|j'] x' H'; [injection H' as <-; lra|]. now apply (H1 j').
        -- intros [|j'] x' L H'; [injection H' as <-; lra|]. apply (H2 j'); [lia|assumption].
Qed.
Lemma argmin_spec l : l <> [] -> exists x, nth_error l (argmin l) = Some x
  /\ (forall j y, nth_error l j = Some y -> (x <= y)%Q)
  /\ (forall j y, j < argmin l -> nth_error l j = Some y -> (x < y)%Q).
Proof.
  destruct l as [|x0 l]; [easy|]. intros _. cbn [argmin].
  destruct (argmin_from_spec l 1 0 x0) as [[E H]|(j & x & E & Hj & Hx & H1 & H2)]; cbv zeta in *; rewrite E.
  - exists x0. split; [reflexivity|]. split; [|intros; lia].
    intros [|j] y Hy; [injection Hy as <-; lra|now apply (H j)].
  - exists x. split; [exact Hj|]. split.
    + intros [|j'] y Hy; [injection Hy as <-; lra|now apply (H1 j')].
    + intros [|j'] y L Hy; [injection Hy as <-; assumption|]. apply (H2 j'); [lia|assumption].
Qed.
Lemma nearest_spec fz z : fz <> [] -> exists x, nth_error fz (nearest fz z) = Some x
  /\ (forall y, In y fz -> (Qabs (x - z) <= Qabs (y - z))%Q)
  /\ (forall j y, j < nearest fz z -> nth_error fz j = Some y -> (Qabs (x - z) < Qabs (y - z))%Q).
Proof.
  intros N. unfold nearest. set (f := fun x => Qabs (x - z)).
  destruct (argmin_spec (map f fz)) as (v & E & H1 & H2); [destruct fz; [easy|discriminate]|].
  destruct (nth_error fz (argmin (map f fz))) as [x|] eqn:Ex.
  - exists x. split; [reflexivity|]. assert (Ev : v = f x) by (rewrite (map_nth_error f _ _ Ex) in E; now injection E).
    subst v. split.
    + intros y Hy. apply In_nth_error in Hy as [j Hj]. apply (H1 j). now apply (map_nth_error f).
    + intros j y L Hj. apply (H2 j); [assumption|]. now apply (map_nth_error f).
  - apply nth_error_None in Ex. assert (nth_error (map f fz) (argmin (map f fz)) = None) by (apply nth_error_None; now rewrite map_length).
    congruence.
Qed.

Lemma Qabs_zero x : (Qabs x <= 0 -> x == 0)%Q.
Proof. intros H. pose proof (Qle_Qabs x). pose proof (Qle_Qabs (- x)). rewrite Qabs_opp in H1. lra. Qed.

Section Loop.
  Context {data slice : Type}.
  Variable interp : data -> data -> Q -> Q -> Q -> nat -> slice.
  Variable fz : list Q.
  Variable files : list data.
  Hypothesis len : length fz = length files.

  Lemma read_ok z : In z fz -> exists d, read fz files z = Some d /\ snapshot fz files z d.
  Proof.
    intros Hz. destruct (nearest_spec fz z) as (x & Ex & H1 & H2); [intros ->; contradiction|].
    unfold read. destruct (nth_error files (nearest fz z)) as [d|] eqn:Ed.
    - exists d. split; [reflexivity|]. exists (nearest fz z), x.
      assert (X : (x == z)%Q).
      { specialize (H1 z Hz). assert (Qabs (z - z) == 0)%Q by (setoid_replace (z - z)%Q with 0%Q by lra; reflexivity).
        assert (Qabs (x - z) <= 0)%Q by lra. apply Qabs_zero in H0. lra. }
      split; [assumption|]. split; [assumption|]. split; [assumption|].
      intros j zj L Hj E. specialize (H2 j zj L Hj).
      assert (Qabs (zj - z) == 0)%Q by (setoid_replace (zj - z)%Q with 0%Q by lra; reflexivity).
      pose proof (Qabs_nonneg (x - z)). lra.
    - exfalso. apply nth_error_None in Ed. rewrite <- len in Ed. apply nth_error_None in Ed. congruence.
  Qed.
  Lemma snapshot_eq z z' d : (z == z')%Q -> snapshot fz files z d -> snapshot fz files z' d.
  Proof.
    intros E (i & zi & H1 & H2 & H3 & H4). exists i, zi. repeat split; [assumption|lra|assumption|].
    intros j zj L Hj K. apply (H4 j zj L Hj). lra.
  Qed.

  Lemma is_low_unique z l l' : is_low fz z l -> is_low fz z l' -> (l == l')%Q.
  Proof. intros (A & B & C) (A' & B' & C'). specialize (C l' A' B'). specialize (C' l A B). lra. Qed.
  Lemma is_high_unique z l l' : is_high fz z l -> is_high fz z l' -> (l == l')%Q.
  Proof. intros (A & B & C) (A' & B' & C'). specialize (C l' A' B'). specialize (C' l A B). lra. Qed.

  (** State after the slice at [z]: the high snapshot is right; the low one under [P]. *)
  Definition st_ok (reuse low : bool) (z : Q) (s : @lstate data) : Prop :=
    exists l h a b, s = L (Some l) (Some h) (Some a) (Some b) /\ is_low fz z l /\ is_high fz z h
      /\ snapshot fz files h b /\ (low = true -> snapshot fz files l a).

  Lemma differs_spec o z : differs o z = true <-> forall x, o = Some x -> ~ (x == z)%Q.
  Proof.
    destruct o as [x|]; cbn; [|split; [discriminate 2|reflexivity]]. rewrite negb_true_iff. split.
    - intros H y E. injection E as <-. intros K. apply Qeq_bool_iff in K. congruence.
    - intros H. destruct (Qeq_bool x z) eqn:E; [|reflexivity]. apply Qeq_bool_iff in E. now apply H in E.
  Qed.

  Lemma first_step reuse z k s' o : lstep interp fz files reuse start z k = Some (s', o) ->
    st_ok reuse true z s' /\ slice_ok interp fz files z k o.
  Proof.
    unfold lstep. destruct (bracket_low fz z) as [l|] eqn:El; [|discriminate].
    destruct (bracket_high fz z) as [h|] eqn:Eh; [|discriminate]. cbn [start zl zh dlow dhigh differs].
    apply bracket_low_some in El. apply bracket_high_some in Eh.
    destruct (read_ok l (proj1 El)) as (a & Ea & Sa). destruct (read_ok h (proj1 Eh)) as (b & Eb & Sb).
    rewrite Ea, Eb. intros H. injection H as <- <-. split.
    - exists l, h, a, b. repeat split; auto; apply El || apply Eh.
    - exists l, h, a, b. auto.
  Qed.

  Lemma next_step reuse low z z' k s s' o : st_ok reuse low z s ->
    lstep interp fz files reuse s z' k = Some (s', o) ->
    st_ok reuse false z' s' /\
    (low = true -> reuse = false \/ ((z <= z')%Q /\ no_skip fz z z') ->
       st_ok reuse true z' s' /\ slice_ok interp fz files z' k o) /\
    (reuse = true -> forall l l', is_low fz z l -> is_low fz z' l' -> ~ (l == l')%Q ->
       exists h h' a b, is_high fz z h /\ is_high fz z' h' /\ snapshot fz files h a /\ snapshot fz files h' b
         /\ exists l'', (l'' == l')%Q /\ o = interp b a h' l'' z' k).
  Proof.
    intros (l & h & a & b & -> & Hl & Hh & Sb & Sa). unfold lstep.
    destruct (bracket_low fz z') as [l'|] eqn:El; [|discriminate].
    destruct (bracket_high fz z') as [h'|] eqn:Eh; [|discriminate]. cbn [zl zh dlow dhigh].
    apply bracket_low_some in El. apply bracket_high_some in Eh.
    destruct (read_ok l' (proj1 El)) as (a' & Ea' & Sa'). destruct (read_ok h' (proj1 Eh)) as (b' & Eb' & Sb').
    set (dl := if differs (Some l) l' then if reuse then Some b else read fz files l' else Some a).
    set (dh := if differs (Some h) h' then read fz files h' else Some b).
    assert (Hdh : exists b'', dh = Some b'' /\ snapshot fz files h' b'').
    { unfold dh. destruct (differs (Some h) h') eqn:D; [exists b'; auto|]. exists b. split; [reflexivity|].
      apply snapshot_eq with h; [|assumption]. destruct (Qeq_dec h h') as [E|E]; [assumption|].
      exfalso. assert (differs (Some h) h' = true); [|congruence]. apply differs_spec. intros x Ex. injection Ex as <-. exact E. }
    destruct Hdh as (b'' & Edh & Sb''). rewrite Edh.
    destruct dl as [a''|] eqn:Edl; [|discriminate]. intros H. injection H as <- <-.
    split; [exists l', h', a'', b''; repeat split; try assumption; try (apply El || apply Eh); discriminate|]. split.
    - intros -> Hc. specialize (Sa eq_refl).
      assert (Sa'' : snapshot fz files l' a'').
      { subst dl. destruct (differs (Some l) l') eqn:D.
        - assert (ND : ~ (l == l')%Q) by (rewrite differs_spec in D; now apply D).
          destruct reuse.
          + injection Edl as <-. destruct Hc as [|[Hz Hns]]; [discriminate|].
            apply snapshot_eq with h; [|assumption].
            destruct Hl as (Il & Ll & Ml). destruct Hh as (Ih & Lh & Mh). destruct El as (Il' & Ll' & Ml').
            assert (l <= l')%Q by (apply Ml'; [assumption|lra]).
            assert (z < l')%Q by (apply Qnot_le_lt; intros G; specialize (Ml l' Il' G); lra).
            assert (h <= l')%Q by (apply Mh; assumption).
            apply Hns; try assumption; split; lra.
          + rewrite Ea' in Edl. injection Edl as <-. assumption.
        - injection Edl as <-. apply snapshot_eq with l; [|assumption]. destruct (Qeq_dec l l') as [E|E]; [assumption|].
          exfalso. assert (differs (Some l) l' = true); [|congruence]. apply differs_spec. intros x Ex. injection Ex as <-. exact E. }
      split; [exists l', h', a'', b''; auto|exists l', h', a'', b''; auto].
    - intros -> m m' Hm Hm' Hne. exists h, h', b, b''. split; [assumption|]. split; [assumption|]. split; [assumption|].
      split; [assumption|]. exists l'. split; [now apply (is_low_unique z')|].
      subst dl. replace (differs (Some l) l') with true in Edl; [injection Edl as <-; reflexivity|].
      symmetry. apply differs_spec. intros x Ex. injection Ex as <-. intros K. apply Hne.
      pose proof (is_low_unique z _ _ Hm Hl). pose proof (is_low_unique z' _ _ Hm' El). lra.
  Qed.

  Lemma loop_correct reuse zs : forall z k s out, st_ok reuse true z s ->
    (reuse = false \/ chain (fun x y => (x <= y)%Q /\ no_skip fz x y) (z :: zs)) ->
    lloop interp fz files reuse s zs k = Some out ->
    length out = length zs /\
    forall i z' o, nth_error zs i = Some z' -> nth_error out i = Some o -> slice_ok interp fz files z' (k + i) o.
  Proof.
    induction zs as [|z' zs IH]; intros z k s out S C; cbn [lloop].
    - intros H. injection H as <-. split; [reflexivity|]. intros [|i]; discriminate.
    - destruct (lstep interp fz files reuse s z' k) as [[s' o]|] eqn:E; [|discriminate].
      destruct (next_step reuse true z z' k s s' o S E) as (_ & H & _).
      destruct H as [S' O]; [reflexivity|destruct C as [C|C]; [now left|right; apply (C 0); reflexivity]|].
      destruct (lloop interp fz files reuse s' zs (Datatypes.S k)) as [out'|] eqn:E'; [|discriminate].
      cbn [option_map]. intros H. injection H as <-.
      destruct (IH z' (Datatypes.S k) s' out' S') as [L1 L2]; [|exact E'|].
      { destruct C as [C|C]; [now left|]. right. intros i x y. apply (C (Datatypes.S i)). }
      split; [cbn; lia|]. intros [|i] w p Hw Hp.
      + injection Hw as <-. injection Hp as <-. now rewrite Nat.add_0_r.
      + replace (k + Datatypes.S i) with (Datatypes.S k + i) by lia. now apply L2.
  Qed.

  Lemma loop_stale zs : forall z k s out, (exists low, st_ok true low z s) ->
    lloop interp fz files true s zs k = Some out ->
    forall i z1 z2 o l1 l2, nth_error (z :: zs) i = Some z1 -> nth_error zs i = Some z2 -> nth_error out i = Some o ->
      is_low fz z1 l1 -> is_low fz z2 l2 -> ~ (l1 == l2)%Q ->
      exists h h' a b, is_high fz z1 h /\ is_high fz z2 h' /\ snapshot fz files h a /\ snapshot fz files h' b
         /\ exists l'', (l'' == l2)%Q /\ o = interp b a h' l'' z2 (k + i).
  Proof.
    induction zs as [|z' zs IH]; intros z k s out [low S]; cbn [lloop].
    - intros H i z1 z2 o l1 l2 _ H2. destruct i; discriminate.
    - destruct (lstep interp fz files true s z' k) as [[s' o]|] eqn:E; [|discriminate].
      destruct (next_step true low z z' k s s' o S E) as (S' & _ & H).
      destruct (lloop interp fz files true s' zs (Datatypes.S k)) as [out'|] eqn:E'; [|discriminate].
      cbn [option_map]. intros K. injection K as <-.
      intros [|i] z1 z2 p l1 l2 H1 H2 H3 HL1 HL2 Hne.
      + injection H1 as <-. injection H2 as <-. injection H3 as <-. rewrite Nat.add_0_r. now apply (H eq_refl l1 l2).
      + replace (k + Datatypes.S i) with (Datatypes.S k + i) by lia.
        apply (IH z' (Datatypes.S k) s' out' (ex_intro _ false S') E' i z1 z2 p l1 l2); assumption.
  Qed.

  Lemma loop_defined reuse zs : forall k s, (s = start \/ exists low z, st_ok reuse low z s) ->
    (lloop interp fz files reuse s zs k = None <->
     exists z, In z zs /\ ((forall x, In x fz -> (z < x)%Q) \/ (forall x, In x fz -> (x <= z)%Q))).
  Proof.
    induction zs as [|z zs IH]; intros k s S; cbn [lloop].
    - split; [discriminate|]. intros (z & [] & _).
    - destruct (lstep interp fz files reuse s z k) as [[s' o]|] eqn:E.
      + assert (S' : exists low z, st_ok reuse low z s').
        { destruct S as [->|(low & z0 & S)].
          - exists true, z. now apply first_step in E.
          - exists false, z. now apply (next_step reuse low z0) in E. }
        rewrite (IH (Datatypes.S k) s' (or_intror S')) || idtac.
        specialize (IH (Datatypes.S k) s' (or_intror S')).
        destruct (lloop interp fz files reuse s' zs (Datatypes.S k)) as [out|]; cbn [option_map].
        * split; [discriminate|]. intros (w & [<-|Hw] & H).
          -- exfalso. unfold lstep in E. destruct (bracket_low fz z) eqn:El; [|discriminate].
             destruct (bracket_high fz z) eqn:Eh; [|discriminate].
             destruct H as [H|H]; [apply bracket_low_none in H|apply bracket_high_none in H]; congruence.
          -- exfalso. assert (K : Some out = None) by (apply IH; now exists w). discriminate.
        * split; [|reflexivity]. intros _. destruct (proj1 IH eq_refl) as (w & Hw & H). exists w. split; [now right|assumption].
      + split; [|reflexivity]. intros _. exists z. split; [now left|].
        unfold lstep in E. destruct (bracket_low fz z) as [l|] eqn:El; [|left; now apply bracket_low_none].
        destruct (bracket_high fz z) as [h|] eqn:Eh; [|right; now apply bracket_high_none].
        exfalso. apply bracket_low_some in El. apply bracket_high_some in Eh.
        destruct (read_ok l (proj1 El)) as (a & Ea & _). destruct (read_ok h (proj1 Eh)) as (b & Eb & _).
        destruct S as [->|(low & z0 & l0 & h0 & a0 & b0 & -> & _)]; cbn [start zl zh dlow dhigh] in E.
        * cbn [differs] in E. rewrite Ea, Eb in E. discriminate.
        * rewrite Ea, Eb in E. destruct (differs (Some l0) l), (differs (Some h0) h), reuse; discriminate.
  Qed.
End Loop.

(** ** Output redshifts *)
Lemma freq_next_inv a z : (0 < a)%Q -> (0 < 1 + z)%Q ->
  (0 < 1 + freq_next a z)%Q /\ (1 / (1 + freq_next a z) == 1 / (1 + z) + a)%Q.
Proof.
  intros Ha Hz. unfold freq_next.
  assert (P : (0 < a * (1 + z))%Q) by (rewrite <- (Qmult_0_l (1 + z)); apply Qmult_lt_compat_r; assumption).
  assert (E : (1 + (z - a * (1 + z)) / (1 + a * (1 + z)) == (1 + z) / (1 + a * (1 + z)))%Q).
  { field. intros K. lra. }
  split.
  - rewrite E. apply Qlt_shift_div_l; lra.
  - rewrite E. field. split; intros K; lra.
Qed.

Lemma inv_lt x y : (0 < 1 + x)%Q -> (0 < 1 + y)%Q -> ((1 / (1 + y) < 1 / (1 + x))%Q <-> (x < y)%Q).
Proof.
  intros Hx Hy. split; intros H.
  - apply Qnot_le_lt. intros L. apply (Qlt_irrefl (1 / (1 + y))). eapply Qlt_le_trans; [exact H|].
    apply Qle_shift_div_l; [assumption|]. 
    setoid_replace (1 / (1 + x) * (1 + y))%Q with ((1 + y) / (1 + x))%Q by (field; intros K; lra).
    apply Qle_shift_div_r; [assumption|]. lra.
  - apply Qlt_shift_div_l; [assumption|].
    setoid_replace (1 / (1 + y) * (1 + x))%Q with ((1 + x) / (1 + y))%Q by (field; intros K; lra).
    apply Qlt_shift_div_r; [assumption|]. lra.
Qed.

Lemma freq_loop_ok a z_low : (0 < a)%Q -> (0 < 1 + z_low)%Q -> forall fuel z, (0 < 1 + z)%Q ->
  (1 / (1 + z_low) <= 1 / (1 + z) + inject_Z (Z.of_nat fuel) * a)%Q ->
  exists l, freq_loop fuel a z_low z = Some l /\ (z_low < z -> exists l', l = z :: l')%Q
    /\ (forall k zk, nth_error l k = Some zk ->
         (0 < 1 + zk)%Q /\ (z_low < zk)%Q /\ (1 / (1 + zk) == 1 / (1 + z) + inject_Z (Z.of_nat k) * a)%Q)
    /\ (1 / (1 + z_low) <= 1 / (1 + z) + inject_Z (Z.of_nat (length l)) * a)%Q.
Proof.
  intros Ha Hl. induction fuel as [|fuel IH]; intros z Hz Hf; cbn [freq_loop]; destruct (Qltb z_low z) eqn:C.
  - exfalso. apply Qltb_lt in C. apply inv_lt in C; [|assumption|assumption].
    change (inject_Z (Z.of_nat 0)) with 0%Q in Hf. lra.
  - exists []. apply Qltb_ge in C. split; [reflexivity|]. split; [intros; lra|]. split; [intros [|k]; discriminate|]. exact Hf.
  - apply Qltb_lt in C. destruct (freq_next_inv a z Ha Hz) as [P E].
    destruct (IH (freq_next a z) P) as (l & -> & _ & H1 & H2).
    { rewrite E. rewrite Nat2Z.inj_succ in Hf. unfold Z.succ in Hf. rewrite inject_Z_plus in Hf. 
      change (inject_Z 1) with 1%Q in Hf. lra. }
    exists (z :: l). split; [reflexivity|]. split; [intros _; now exists l|]. split.
    + intros [|k] zk Hk.
      * injection Hk as <-. split; [assumption|]. split; [assumption|]. change (inject_Z (Z.of_nat 0)) with 0%Q. lra.
      * destruct (H1 k zk Hk) as (A & B & D). split; [assumption|]. split; [assumption|]. rewrite D, E.
        rewrite Nat2Z.inj_succ. unfold Z.succ. rewrite inject_Z_plus. change (inject_Z 1) with 1%Q. lra.
    + cbn [length]. rewrite Nat2Z.inj_succ. unfold Z.succ. rewrite inject_Z_plus. change (inject_Z 1) with 1%Q.
      rewrite E in H2. lra.
  - exists []. apply Qltb_ge in C. split; [reflexivity|]. split; [intros; lra|]. split; [intros [|k]; discriminate|].
    cbn [length]. change (inject_Z (Z.of_nat 0)) with 0%Q.
    destruct (Qlt_le_dec z z_low) as [L|L]; [apply inv_lt in L; [lra|assumption|assumption]|].
    assert (X : (z == z_low)%Q) by lra. rewrite X. lra.
Qed.

Lemma archimedean (a x : Q) : (0 < a)%Q -> exists n, (x <= inject_Z (Z.of_nat n) * a)%Q.
Proof.
  intros Ha. exists (Z.to_nat (Qround.Qceiling (x / a))).
  assert (H : (x / a <= inject_Z (Z.of_nat (Z.to_nat (Qround.Qceiling (x / a)))))%Q).
  { eapply Qle_trans; [apply Qround.Qle_ceiling|]. rewrite <- Zle_Qle. lia. }
  apply Qle_trans with (x / a * a)%Q; [|apply Qmult_le_compat_r; lra].
  assert (E : (x / a * a == x)%Q) by (field; intros K; lra). lra.
Qed.

Lemma dist_next_gt w nu0 z : (0 < nu0)%Q -> (0 < 1 + z)%Q -> (0 < w z)%Q -> (w z < 1 + z)%Q ->
  (z + w z <= dist_next w nu0 z)%Q.
Proof.
  intros H0 Hz Hw Hw'. unfold dist_next.
  assert (P : (0 < 1 + z - w z)%Q) by lra.
  setoid_replace (nu0 / (nu0 / (1 + z) - nu0 * w z / ((1 + z) * (1 + z))))%Q with ((1 + z) * (1 + z) / (1 + z - w z))%Q.
  - assert (E : ((1 + z) * (1 + z) / (1 + z - w z) - 1 == z + w z + w z * w z / (1 + z - w z))%Q).
    { field. intros K. lra. }
    rewrite E. assert (0 <= w z * w z / (1 + z - w z))%Q.
    { apply Qle_shift_div_l; [assumption|]. rewrite Qmult_0_l. apply Qmult_le_0_compat; lra. }
    lra.
  - field. split; [intros K; lra|]. split; [intros K; lra|].
    intros K. assert (K' : (nu0 * (1 + z - w z) == 0)%Q) by (rewrite <- K; ring).
    apply Qmult_integral in K' as [K'|K']; lra.
Qed.

Lemma dist_loop_ok w nu0 z_high w0 z_low : (0 < nu0)%Q -> (0 < w0)%Q -> (0 < 1 + z_low)%Q ->
  (forall z, z_low <= z < z_high -> w0 <= w z < 1 + z)%Q ->
  forall fuel z, (z_low <= z)%Q -> (z_high <= z + inject_Z (Z.of_nat fuel) * w0)%Q ->
  exists l, dist_loop fuel w nu0 z_high z = Some l /\ (z < z_high -> exists l', l = z :: l')%Q
    /\ (forall zk, In zk l -> (z <= zk < z_high)%Q)
    /\ (forall k x y, nth_error l k = Some x -> nth_error l (S k) = Some y -> y = dist_next w nu0 x /\ (x + w x <= y)%Q).
Proof.
  intros H0 Hw0 Hl Hw. induction fuel as [|fuel IH]; intros z Hz Hf; cbn [dist_loop]; destruct (Qltb z z_high) eqn:C.
  - exfalso. apply Qltb_lt in C. change (inject_Z (Z.of_nat 0)) with 0%Q in Hf. lra.
  - apply Qltb_ge in C. exists []. split; [reflexivity|]. split; [intros; lra|]. split; [intros zk []|intros [|k]; discriminate].
  - apply Qltb_lt in C. assert (W : (w0 <= w z < 1 + z)%Q) by (apply Hw; split; assumption).
    assert (G : (z + w z <= dist_next w nu0 z)%Q) by (apply dist_next_gt; lra).
    destruct (IH (dist_next w nu0 z)) as (l & E & H1 & H2 & H3).
    { lra. }
    { rewrite Nat2Z.inj_succ in Hf. unfold Z.succ in Hf. rewrite inject_Z_plus in Hf. change (inject_Z 1) with 1%Q in Hf. lra. }
    rewrite E. exists (z :: l). split; [reflexivity|]. split; [intros _; now exists l|]. split.
    + intros zk [<-|Hk]; [lra|]. specialize (H2 zk Hk). lra.
    + intros [|k] x y Hx Hy.
      * injection Hx as <-. cbn [nth_error] in Hy. destruct l as [|y' l]; [discriminate|]. injection Hy as <-.
        destruct (Qlt_le_dec (dist_next w nu0 z) z_high) as [L|L].
        -- destruct (H1 L) as [l' El]. injection El as -> _. auto.
        -- exfalso. specialize (H2 y' (or_introl eq_refl)). lra.
      * apply (H3 k x y Hx Hy).
  - apply Qltb_ge in C. exists []. split; [reflexivity|]. split; [intros; lra|]. split; [intros zk []|intros [|k]; discriminate].
Qed.
