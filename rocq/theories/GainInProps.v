(** C89: which gain models are understood, and what they are understood as. *)
From Coq Require Import String List Arith Reals Lra Lia Bool.
From Verif Require Import RLib UvGridModel GeoModel GainModel GainInModel.
Import ListNotations.
Local Open Scope R_scope.

(** * Specification *)
(** The gain model [m] gives n antennas (or more) the first column [rs] and the second column [is]: a known name in any capitalisation, else 'real' and
    'imag', else 'amplitude' and 'phase', or the columns of an array. *)
Inductive describes (normal uniform : nat -> R -> R -> nat -> list R) (n : nat) : gain_model -> list R -> list R -> Prop :=
| by_gaussian : forall d s mu std, d_name d = Some s -> lower s = "random_gaussian"%string -> d_mu d = Some mu -> d_std d = Some std ->
    describes normal uniform n (Dict d) (normal 0%nat mu std n) (normal 1%nat mu std n)
| by_uniform : forall d s lo hi, d_name d = Some s -> lower s = "random_uniform"%string -> d_min d = Some lo -> d_max d = Some hi ->
    describes normal uniform n (Dict d) (uniform 0%nat lo hi n) (uniform 1%nat lo hi n)
| by_parts : forall d f g, d_name d = None -> d_real d = Some f -> d_imag d = Some g -> describes normal uniform n (Dict d) (f n) (g n)
| by_polar : forall d f g, d_name d = None -> d_real d = None -> d_amplitude d = Some f -> d_phase d = Some g -> describes normal uniform n (Dict d) (f n) (g n)
| by_table : forall rows, describes normal uniform n (TwoColumns rows) (map fst rows) (map snd rows).

Lemma columns_describes : forall normal uniform m n rs is, columns normal uniform m n = Gives (rs, is) <-> describes normal uniform n m rs is.
Proof.
  intros normal uniform m n rs is. split.
  - intro E. destruct m as [d|rows| |]; cbn [columns] in E; try discriminate.
    + destruct (d_name d) as [s|] eqn:N.
      * destruct (String.eqb_spec (lower s) "random_gaussian") as [G|G].
        { destruct (d_mu d) as [a|] eqn:A, (d_std d) as [b|] eqn:B; try discriminate. injection E as <- <-. eapply by_gaussian; eassumption. }
        destruct (String.eqb_spec (lower s) "random_uniform") as [U|U]; [|discriminate].
        destruct (d_min d) as [a|] eqn:A, (d_max d) as [b|] eqn:B; try discriminate. injection E as <- <-. eapply by_uniform; eassumption.
      * destruct (d_real d) as [f|] eqn:F.
        { destruct (d_imag d) as [g|] eqn:G; [|discriminate]. injection E as <- <-. eapply by_parts; eassumption. }
        destruct (d_phase d) as [g|] eqn:G; [|discriminate]. destruct (d_amplitude d) as [f|] eqn:A; [|discriminate]. injection E as <- <-. eapply by_polar; eassumption.
    + injection E as <- <-. apply by_table.
  - intros D. destruct D as [d s a b N G A B|d s a b N G A B|d f g N F G|d f g N F A G|rows]; cbn [columns].
    + rewrite N, G, A, B. reflexivity.
    + rewrite N, G, A, B. reflexivity.
    + rewrite N, F, G. reflexivity.
    + rewrite N, F, G, A. reflexivity.
    + reflexivity.
Qed.
Lemma in_pairs : forall {A} (l : list A) x y, In (x, y) (pairs l) <-> exists i j, (i < j)%nat /\ nth_error l i = Some x /\ nth_error l j = Some y.
Proof.
  intros A l x y. unfold pairs. induction l as [|a l IH].
  - split; [intros []|]. intros (i & j & _ & E & _). destruct i; discriminate.
  - rewrite in_app_iff, in_map_iff, IH. split.
    + intros [(b & E & I)|(i & j & L & Ei & Ej)].
      * injection E as <- <-. apply In_nth_error in I. destruct I as (k & K). exists 0%nat, (S k). repeat split; (lia || exact K).
      * exists (S i), (S j). repeat split; (lia || assumption).
    + intros (i & j & L & Ei & Ej). destruct j as [|j]; [lia|]. destruct i as [|i].
      * left. cbn in Ei. injection Ei as ->. exists y. split; [reflexivity|]. cbn in Ej. eapply nth_error_In, Ej.
      * right. exists i, j. repeat split; (lia || assumption).
Qed.
Lemma length_pairs : forall {A} (l : list A), (2 * length (pairs l) = length l * (length l - 1))%nat.
Proof.
  intros A l. unfold pairs. induction l as [|a l IH]; [reflexivity|]. cbn [length]. rewrite app_length, map_length. match type of IH with (2 * ?L = _)%nat => set (M := L) in * end. clearbody M. destruct (length l) as [|m]; nia.
Qed.
Lemma nth_error_combine : forall {A B} (l : list A) (l' : list B) i a b, nth_error (combine l l') i = Some (a, b) <-> nth_error l i = Some a /\ nth_error l' i = Some b.
Proof.
  intros A B. induction l as [|x l IH]; intros l' i a b; [split; [destruct i; discriminate|intros [E _]; destruct i; discriminate]|].
  destruct l' as [|y l']; [split; [destruct i; discriminate|intros [_ E]; destruct i; discriminate]|].
  destruct i as [|i]; cbn [combine nth_error]; [|apply IH]. split; [intro E; injection E as -> ->; split; reflexivity|intros [E F]; injection E as ->; injection F as ->; reflexivity].
Qed.

(** * Theorems *)
(** With at least two antennas: the gain model is usable iff it describes two columns with a gain for every antenna. Then there is one row for every pair
    i < j of antennas, with the four products of the columns. *)
Theorem C89_gain_model : forall P normal uniform (diff : P -> P -> baseline) m ants, (2 <= length ants)%nat ->
  let n := length ants in
  ((exists rows, unpacked (with_gains normal uniform diff m ants) = Gives rows) <-> exists rs is, describes normal uniform n m rs is /\ (n <= length rs)%nat /\ (n <= length is)%nat) /\
  (forall rs is, describes normal uniform n m rs is -> (n <= length rs)%nat -> (n <= length is)%nat ->
     exists rows, unpacked (with_gains normal uniform diff m ants) = Gives rows /\ (2 * length rows = n * (n - 1))%nat /\
     forall b g, In (b, g) rows <-> exists i j p q, (i < j)%nat /\ nth_error ants i = Some p /\ nth_error ants j = Some q /\ b = diff p q /\
       g = Products (nth i rs 0 * nth j rs 0) (nth i is 0 * nth j is 0) (nth i rs 0 * nth j is 0) (nth i is 0 * nth j rs 0)).
Proof.
  intros P normal uniform diff m ants N n.
  assert (F : forall rs is, describes normal uniform n m rs is -> (n <= length rs)%nat -> (n <= length is)%nat ->
     with_gains normal uniform diff m ants = Gives (rows_of diff (combine ants (combine rs is)))).
  { intros rs is D Lr Li. apply columns_describes in D. unfold with_gains. fold n. rewrite D. unfold antenna_rows. cbn [fst snd]. fold n.
    rewrite (proj2 (Nat.ltb_ge (length rs) n) Lr), (proj2 (Nat.ltb_ge (length is) n) Li). cbn [orb]. rewrite andb_false_r. reflexivity. }
  split; [split|].
  - intros (rows & E). unfold with_gains in E. fold n in E. destruct (columns normal uniform m n) as [e| |[rs is]] eqn:C; try discriminate. cbn [unpacked] in E. exists rs, is. split; [apply columns_describes; exact C|].
    unfold antenna_rows in E. cbn [fst snd] in E. fold n in E. rewrite (proj2 (Nat.leb_le 2 n) N) in E. cbn [andb] in E.
    destruct (length rs <? n)%nat eqn:A; [discriminate|]. destruct (length is <? n)%nat eqn:B; [discriminate|]. apply Nat.ltb_ge in A, B. split; assumption.
  - intros (rs & is & D & Lr & Li). exists (rows_of diff (combine ants (combine rs is))). rewrite (F rs is D Lr Li). reflexivity.
  - intros rs is D Lr Li. exists (rows_of diff (combine ants (combine rs is))). rewrite (F rs is D Lr Li). split; [reflexivity|]. split.
    + unfold rows_of. rewrite map_length, length_pairs, combine_length, combine_length. fold n. rewrite (Nat.min_l n) by lia. reflexivity.
    + intros b g. unfold rows_of. rewrite in_map_iff. split.
      * intros (((p & gp) & (q & gq)) & E & I). cbn [fst snd] in E. apply in_pairs in I. destruct I as (i & j & L & Ei & Ej).
        destruct gp as [r1 i1], gq as [r2 i2]. apply nth_error_combine in Ei, Ej. destruct Ei as [Pi Ei], Ej as [Pj Ej]. apply nth_error_combine in Ei, Ej. destruct Ei as [Ri Ii], Ej as [Rj Ij].
        injection E as <- <-. exists i, j, p, q. rewrite (nth_error_nth _ _ 0 Ri), (nth_error_nth _ _ 0 Ii), (nth_error_nth _ _ 0 Rj), (nth_error_nth _ _ 0 Ij). repeat split; assumption.
      * intros (i & j & p & q & L & Pi & Pj & Eb & Eg). exists ((p, (nth i rs 0, nth i is 0)), (q, (nth j rs 0, nth j is 0))). cbn [fst snd]. split; [rewrite Eb, Eg; reflexivity|].
        assert (Ii : (i < n)%nat) by (apply nth_error_Some; rewrite Pi; discriminate). assert (Ij : (j < n)%nat) by (apply nth_error_Some; rewrite Pj; discriminate).
        apply in_pairs. exists i, j. split; [exact L|]. split; apply nth_error_combine; (split; [assumption|]); apply nth_error_combine; split; apply nth_error_nth'; lia.
Qed.
Print Assumptions C89_gain_model.
Definition named (s : string) : gain_dict := GainDict (Some s) (Some 1) (Some (1 / 2)) None None (Some (fun n => repeat 1 n)) (Some (fun n => repeat 0 n)) None None.
Example C89_gain_model_sat : let normal := fun (_ : nat) mu (_ : R) n => repeat mu n in
  (2 <= length [1; 2; 3])%nat /\ describes normal normal 3 (Dict (named "Random_Gaussian")) (repeat 1 3) (repeat 1 3).
Proof. intro normal. split; [cbn; lia|]. apply (by_gaussian normal normal 3 (named "Random_Gaussian") "Random_Gaussian" 1 (1 / 2)); reflexivity. Qed.

(** A name decides alone: entries for other kinds of gains beside it are ignored, and an unknown name raises although they are there. *)
Theorem C89_name_first : forall P normal uniform (diff : P -> P -> baseline) ants d s, d_name d = Some s ->
  (forall f g a p, with_gains normal uniform diff (Dict (GainDict (Some s) (d_mu d) (d_std d) (d_min d) (d_max d) f g a p)) ants = with_gains normal uniform diff (Dict d) ants) /\
  (lower s <> "random_gaussian"%string -> lower s <> "random_uniform"%string -> unpacked (with_gains normal uniform diff (Dict d) ants) = Fails "UnboundLocalError").
Proof.
  intros P normal uniform diff ants d s N. split.
  - intros f g a p. unfold with_gains. cbn [columns d_name d_mu d_std d_min d_max]. rewrite N. reflexivity.
  - intros G U. unfold with_gains. cbn [columns]. rewrite N. destruct (String.eqb_spec (lower s) "random_gaussian"); [contradiction|]. destruct (String.eqb_spec (lower s) "random_uniform"); [contradiction|]. reflexivity.
Qed.
Print Assumptions C89_name_first.
Example C89_name_first_sat : d_name (named "gaussian") = Some "gaussian"%string /\ lower "gaussian" <> "random_gaussian"%string /\ lower "gaussian" <> "random_uniform"%string.
Proof. repeat split; discriminate. Qed.
(** The documented array of complex gains and the documented function always raise, and so does a dictionary without a known key. *)
Theorem C89_documented_refuted : forall P normal uniform (diff : P -> P -> baseline) ants,
  unpacked (with_gains normal uniform diff ComplexArray ants) = Fails "IndexError" /\ unpacked (with_gains normal uniform diff Function ants) = Fails "TypeError" /\
  forall d, d_name d = None -> d_real d = None -> d_phase d = None -> unpacked (with_gains normal uniform diff (Dict d) ants) = Fails "TypeError".
Proof. intros P normal uniform diff ants. split; [reflexivity|]. split; [reflexivity|]. intros d N A B. unfold with_gains. cbn [columns]. rewrite N, A, B. reflexivity. Qed.
Print Assumptions C89_documented_refuted.
Example C89_documented_sat : let d := GainDict None None None None None None (Some (fun n => repeat 1 n)) (Some (fun n => repeat 1 n)) None in d_name d = None /\ d_real d = None /\ d_phase d = None.
Proof. repeat split. Qed.

(** Amplitudes and phases are used as if they were real and imaginary parts... *)
Theorem C89_polar_as_parts : forall P normal uniform (diff : P -> P -> baseline) ants f g,
  with_gains normal uniform diff (Dict (GainDict None None None None None None None (Some f) (Some g))) ants =
  with_gains normal uniform diff (Dict (GainDict None None None None None (Some f) (Some g) None None)) ants.
Proof. reflexivity. Qed.
Print Assumptions C89_polar_as_parts.
Lemma combine_repeat : forall {A B} (a : A) (b : B) n, combine (repeat a n) (repeat b n) = repeat (a, b) n.
Proof. intros A B a b. induction n as [|n IH]; [reflexivity|]. cbn. rewrite IH. reflexivity. Qed.
(** ... so that for antennas of amplitude one and the same phase the rows are those of the complex gains exp(i phase) iff the phase is zero. *)
Theorem C89_polar_refuted : forall P normal uniform (diff : P -> P -> baseline) ants phase, (2 <= length ants)%nat ->
  with_gains normal uniform diff (Dict (GainDict None None None None None None None (Some (repeat 1)) (Some (repeat phase)))) ants =
  with_gains normal uniform diff (TwoColumns (repeat (cos phase, sin phase) (length ants))) ants <-> phase = 0.
Proof.
  intros P normal uniform diff ants phase N. unfold with_gains. cbn [columns d_name d_real d_phase d_amplitude both]. unfold antenna_rows. cbn [fst snd]. rewrite !map_length, !repeat_length, !Nat.ltb_irrefl. cbn [orb]. rewrite andb_false_r.
  assert (M1 : map fst (repeat (cos phase, sin phase) (length ants)) = repeat (cos phase) (length ants)) by (generalize (length ants); intro k; induction k as [|k IH]; [reflexivity|cbn; rewrite IH; reflexivity]).
  assert (M2 : map snd (repeat (cos phase, sin phase) (length ants)) = repeat (sin phase) (length ants)) by (generalize (length ants); intro k; induction k as [|k IH]; [reflexivity|cbn; rewrite IH; reflexivity]).
  rewrite M1, M2, !combine_repeat. split.
  - destruct ants as [|a [|b ants]]; cbn [length] in N; try lia. intro E. apply (f_equal (fun a : answer (list (baseline * products)) => match a with Gives (r :: _) => (rr (snd r), ii (snd r)) | _ => (0, 0) end)) in E. cbn in E. injection E as E1 E2. pose proof (sin2_cos2 phase) as S1. unfold Rsqr in S1. nra.
  - intros ->. rewrite cos_0, sin_0. reflexivity.
Qed.
Print Assumptions C89_polar_refuted.
Example C89_polar_refuted_sat : (2 <= length [1; 2])%nat /\ PI <> 0.
Proof. split; [cbn; lia|]. pose proof PI_RGT_0. lra. Qed.
