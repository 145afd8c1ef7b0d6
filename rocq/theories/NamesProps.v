(** C92: what file names decide. *)
From Coq Require Import String Ascii.
From Coq Require Import List ZArith Reals Lra Lia Bool Permutation Sorting.Sorted.
From Verif Require Import NamesModel.
Import ListNotations.
Local Open Scope R_scope.

(** * Specification *)
Definition num_char (c : ascii) : Prop := c = "."%char \/ (48 <= nat_of_ascii c <= 57)%nat.
Definition all_num (s : str) : Prop := forall c, In c s -> num_char c.
Definition none_num (s : str) : Prop := forall c, In c s -> ~ num_char c.
(** The maximal stretches of digits and dots of a text, in order. *)
Inductive numbers : str -> list str -> Prop :=
| no_numbers : forall s, none_num s -> numbers s []
| a_number : forall a r s rs, none_num a -> r <> [] -> all_num r -> (forall c t, s = c :: t -> ~ num_char c) -> numbers s rs -> numbers (a ++ r ++ s) (r :: rs).
(** The first among the longest. *)
Definition first_longest (rs : list str) (r : str) : Prop :=
  exists a b, rs = a ++ r :: b /\ (forall x, In x a -> (length x < length r)%nat) /\ (forall x, In x b -> (length x <= length r)%nat).
Definition occurs (pat s : str) : Prop := exists a b, s = a ++ pat ++ b.
Definition no_slash (s : str) : Prop := ~ In "/"%char s.
Definition no_dot (s : str) : Prop := ~ In "."%char s.

Lemma numeric_iff : forall c, numeric c = true <-> num_char c.
Proof.
  intro c. unfold numeric, digit, dot, num_char. rewrite orb_true_iff, andb_true_iff, !Nat.leb_le, Ascii.eqb_eq. tauto.
Qed.
Lemma numeric_false : forall c, numeric c = false <-> ~ num_char c.
Proof. intro c. rewrite <- numeric_iff. destruct (numeric c); split; congruence. Qed.

(** * The runs of a name *)
Lemma fold_non : forall a st, none_num a -> a <> [] -> fold_left run_step a st = (fst st, true).
Proof.
  intros a. induction a as [|c a IH]; intros st H N; [contradiction|]. cbn [fold_left]. assert (E : run_step st c = (fst st, true)) by (destruct st as [ns f]; unfold run_step; rewrite (proj2 (numeric_false c) (H c (or_introl eq_refl))); reflexivity).
  rewrite E. destruct a as [|d a]; [reflexivity|]. rewrite IH; [reflexivity| |discriminate]. intros x I. apply H. right; exact I.
Qed.
Lemma fold_num : forall r h ns, all_num r -> fold_left run_step r (h :: ns, false) = ((rev r ++ h) :: ns, false).
Proof.
  induction r as [|c r IH]; intros h ns H; [reflexivity|]. cbn [fold_left]. unfold run_step at 2. rewrite (proj2 (numeric_iff c) (H c (or_introl eq_refl))). rewrite IH by (intros x I; apply H; right; exact I). cbn [rev]. rewrite <- app_assoc. reflexivity.
Qed.
Lemma fold_num_start : forall r ns, all_num r -> r <> [] -> fold_left run_step r (ns, true) = (rev r :: ns, false).
Proof.
  intros [|c r] ns H N; [contradiction|]. cbn [fold_left]. unfold run_step at 2. rewrite (proj2 (numeric_iff c) (H c (or_introl eq_refl))). rewrite fold_num by (intros x I; apply H; right; exact I). reflexivity.
Qed.
Lemma fold_numbers : forall s rs, numbers s rs -> forall ns f, (f = true \/ forall c t, s = c :: t -> ~ num_char c) -> fst (fold_left run_step s (ns, f)) = rev (map (@rev ascii) rs) ++ ns.
Proof.
  induction 1 as [s H|a r s rs Ha Nr Hr Hs Hn IH]; intros ns f G.
  - destruct s as [|c s]; [reflexivity|]. rewrite fold_non by (assumption || discriminate). reflexivity.
  - rewrite !fold_left_app. assert (E : fold_left run_step a (ns, f) = (ns, true)).
    { destruct a as [|c a]; [|rewrite fold_non by (assumption || discriminate); reflexivity]. cbn. destruct G as [->|G]; [reflexivity|]. destruct r as [|c r]; [contradiction|]. exfalso. apply (G c (r ++ s) eq_refl). apply Hr. left; reflexivity. }
    rewrite E, fold_num_start by assumption. rewrite IH by (right; exact Hs). cbn [map rev]. rewrite <- app_assoc. reflexivity.
Qed.
Lemma numbers_exist : forall s, exists rs, numbers s rs.
Proof.
  induction s as [|c s (rs & IH)]; [exists []; constructor; intros c []|]. destruct (numeric c) eqn:E.
  - apply numeric_iff in E. destruct s as [|d s].
    + exists [[c]]. apply (a_number [] [c] [] []); [intros x []|discriminate|intros x [<-|[]]; exact E|intros; discriminate|constructor; intros x []].
    + destruct (numeric d) eqn:D.
      * apply numeric_iff in D. inversion IH as [u Hu|a r u rs' Ha Nr Hr Hs Hn Q]; subst; [exfalso; apply (Hu d (or_introl eq_refl)), D|]. destruct a as [|x a]; [|cbn in Q; injection Q as -> _; exfalso; apply (Ha d (or_introl eq_refl)), D].
        exists ((c :: r) :: rs'). change (c :: [] ++ r ++ u) with ([] ++ (c :: r) ++ u). apply a_number; [intros x []|discriminate|intros x [<-|I]; [exact E|apply Hr, I]|exact Hs|exact Hn].
      * apply numeric_false in D. exists ([c] :: rs). apply (a_number [] [c] (d :: s) rs); [intros x []|discriminate|intros x [<-|[]]; exact E|intros x t Q; injection Q as <- _; exact D|exact IH].
  - apply numeric_false in E. exists rs. inversion IH as [u Hu|a r u rs' Ha Nr Hr Hs Hn Q]; subst.
    + constructor. intros x [<-|I]; [exact E|apply Hu, I].
    + change (c :: a ++ r ++ u) with ((c :: a) ++ r ++ u). apply a_number; try assumption. intros x [<-|I]; [exact E|apply Ha, I].
Qed.
(** The loop over the characters finds exactly the maximal stretches of digits and dots. *)
Theorem C92_runs : forall s rs, numbers s rs <-> runs s = rs.
Proof.
  assert (A : forall s rs, numbers s rs -> runs s = rs). { intros s rs H. unfold runs. rewrite (fold_numbers s rs H [] true (or_introl eq_refl)), app_nil_r, map_rev, rev_involutive, map_map. rewrite <- (map_id rs) at 2. apply map_ext. intro. apply rev_involutive. }
  intros s rs. split; [apply A|]. intros <-. destruct (numbers_exist s) as (rs & H). rewrite (A _ _ H). exact H.
Qed.
Print Assumptions C92_runs.

Lemma longest_spec : forall (ns : list str) m, (m <= length ns)%nat -> let b := fold_left (fun best i => if (length (nth best ns []) <? length (nth i ns []))%nat then i else best) (seq 0 m) 0%nat in
  (m = 0 \/ b < m)%nat /\ (forall i, (i < m)%nat -> (length (nth i ns []) <= length (nth b ns []))%nat) /\ (forall i, (i < b)%nat -> (length (nth i ns []) < length (nth b ns []))%nat).
Proof.
  intros ns m. induction m as [|m IH]; intro H; [cbn; split; [left; reflexivity|split; intros; lia]|]. rewrite seq_S, fold_left_app. cbn [fold_left]. specialize (IH ltac:(lia)). cbv zeta in IH. set (b := fold_left _ (seq 0 m) 0%nat) in *. destruct IH as (I1 & I2 & I3). rewrite Nat.add_0_l.
  destruct (length (nth b ns []) <? length (nth m ns []))%nat eqn:E; [apply Nat.ltb_lt in E|apply Nat.ltb_ge in E].
  - split; [right; lia|]. split; intros i Hi; [destruct (Nat.eq_dec i m) as [-> |]; [lia|specialize (I2 i ltac:(lia)); lia]|specialize (I2 i Hi); lia].
  - split; [right; destruct I1 as [-> |]; cbn in *; lia|]. split; [|exact I3]. intros i Hi. destruct (Nat.eq_dec i m) as [-> |]; [exact E|apply I2; lia].
Qed.
Lemma split_nth : forall {A} (l : list A) b d, (b < length l)%nat -> l = firstn b l ++ nth b l d :: skipn (S b) l.
Proof. intros A l. induction l as [|x l IH]; intros b d B; [cbn in B; lia|]. destruct b as [|b]; [reflexivity|]. cbn [firstn nth app]. cbn [skipn]. f_equal. apply IH. cbn in B. lia. Qed.
Lemma longest_first : forall ns, ns <> [] -> first_longest ns (nth (longest_idx ns) ns []).
Proof.
  intros ns N. pose proof (longest_spec ns (length ns) (le_n _)) as H. cbv zeta in H. fold (longest_idx ns) in H. set (b := longest_idx ns) in *. destruct H as (H1 & H2 & H3). assert (B : (b < length ns)%nat) by (destruct ns; [contradiction|cbn in *; lia]).
  exists (firstn b ns), (skipn (S b) ns). split; [|split].
  - exact (split_nth ns b [] B).
  - intros x I. apply In_nth with (d := []) in I. destruct I as (i & Hi & <-). assert (E : nth i (firstn b ns) [] = nth i ns []) by (rewrite (split_nth ns b [] B) at 2; rewrite app_nth1 by exact Hi; reflexivity). rewrite E. apply H3. rewrite firstn_length in Hi. lia.
  - intros x I. assert (J : In x ns) by (rewrite <- (firstn_skipn (S b) ns); apply in_or_app; right; exact I). apply In_nth with (d := []) in J. destruct J as (i & Hi & <-). apply H2, Hi.
Qed.

(** * The redshift of a name *)
Lemma decimal_nonneg : forall s acc, (0 <= acc)%Z -> (0 <= fold_left (fun acc c => if digit c then (10 * acc + digit_val c)%Z else acc) s acc)%Z.
Proof. induction s as [|c s IH]; intros acc H; [exact H|]. cbn [fold_left]. apply IH. destruct (digit c); [|exact H]. unfold digit_val. lia. Qed.
Lemma float_nonneg : forall s z, float s = Some z -> 0 <= z.
Proof.
  intros s z H. unfold float in H. destruct (existsb digit s && _); [|discriminate]. injection H as <-. assert (P : 0 < 10 ^ length (tl (from dot s))) by (apply pow_lt; lra). unfold Rdiv. apply Rmult_le_pos; [apply IZR_le, decimal_nonneg; lia|left; apply Rinv_0_lt_compat, P].
Qed.
Lemma first_longest_unique : forall rs r r', first_longest rs r -> first_longest rs r' -> r = r'.
Proof.
  assert (W : forall (a b a' b' : list str) r r', a ++ r :: b = a' ++ r' :: b' -> (length a <= length a')%nat -> (forall x, In x b -> (length x <= length r)%nat) -> (forall x, In x a' -> (length x < length r')%nat) -> r = r').
  { induction a as [|x a IH]; intros b a' b' r r' E H G1 G2; destruct a' as [|y a']; cbn in *; try lia.
    - congruence.
    - injection E as <- ->. pose proof (G2 r (or_introl eq_refl)). assert (length r' <= length r)%nat by (apply G1, in_or_app; right; left; reflexivity). lia.
    - injection E as <- E. eapply IH; eauto; lia. }
  intros rs r r' (a & b & E & A & B) (a' & b' & E' & A' & B'). rewrite E in E'. destruct (Nat.le_ge_cases (length a) (length a')) as [H|H]; [eapply W; eauto|symmetry; eapply (W a' b' a b r' r); eauto].
Qed.
(** The result is decided by the first longest stretch of digits and dots in the base name without its extension; -1 means there is none. *)
Theorem C92_redshift : forall name rs, numbers (root (basename name)) rs ->
  (determine_redshift name = NoNumber <-> rs = []) /\ (determine_redshift name = NoNumber <-> none_num (root (basename name))) /\
  (forall r, first_longest rs r -> determine_redshift name = match float r with Some z => Redshift z | None => BadNumber end) /\
  (rs <> [] -> exists r, first_longest rs r) /\ (forall z, determine_redshift name = Redshift z -> 0 <= z).
Proof.
  intros name rs H. pose proof (proj1 (C92_runs _ _) H) as E. unfold determine_redshift. rewrite E. cbv zeta.
  assert (A : (match rs with [] => NoNumber | _ :: _ => match float (nth (longest_idx rs) rs []) with Some z => Redshift z | None => BadNumber end end) = NoNumber <-> rs = []) by (destruct rs; [tauto|]; destruct (float _); split; discriminate).
  split; [exact A|]. split; [rewrite A; split; [intros ->; inversion H; assumption|intro N; inversion H as [|a r s rs' Ha Nr Hr Hs Hn Q]; [reflexivity|]; subst; destruct r as [|c r]; [contradiction|]; exfalso; apply (N c); [rewrite <- Q; apply in_or_app; right; left; reflexivity|apply Hr; left; reflexivity]]|].
  split; [|split].
  - intros r Hr. assert (N : rs <> []) by (intros ->; destruct Hr as ([|] & b & Q & _); discriminate Q). rewrite (first_longest_unique rs r _ Hr (longest_first rs N)). destruct rs; [contradiction|reflexivity].
  - intro N. eexists. apply longest_first, N.
  - intros z Q. destruct rs; [discriminate|]. destruct (float _) eqn:F; [|discriminate]. injection Q as <-. eapply float_nonneg, F.
Qed.
Print Assumptions C92_redshift.

Lemma upto_app : forall {A} (p : A -> bool) a c b, (forall x, In x a -> p x = false) -> p c = true -> upto p (a ++ c :: b) = a.
Proof. intros A p a. induction a as [|x a IH]; intros c b H P; cbn; [rewrite P; reflexivity|]. rewrite (H x (or_introl eq_refl)). f_equal. apply IH; [intros y I; apply H; right; exact I|exact P]. Qed.
Lemma upto_none : forall {A} (p : A -> bool) a, (forall x, In x a -> p x = false) -> upto p a = a.
Proof. intros A p a. induction a as [|x a IH]; intros H; cbn; [reflexivity|]. rewrite (H x (or_introl eq_refl)). f_equal. apply IH. intros y I; apply H; right; exact I. Qed.
Lemma from_app : forall {A} (p : A -> bool) a c b, (forall x, In x a -> p x = false) -> p c = true -> from p (a ++ c :: b) = c :: b.
Proof. intros A p a. induction a as [|x a IH]; intros c b H P; cbn; [rewrite P; reflexivity|]. rewrite (H x (or_introl eq_refl)). apply IH; [intros y I; apply H; right; exact I|exact P]. Qed.
(** The directory never matters; neither does the extension, which is what follows the last dot unless only dots precede it. *)
Theorem C92_basename : forall d b, no_slash b -> basename (d ++ "/"%char :: b) = b /\ basename b = b.
Proof.
  intros d b H. assert (N : forall x, In x (rev b) -> slash x = false) by (intros x I; apply in_rev in I; unfold slash; apply Ascii.eqb_neq; intros ->; contradiction). split; unfold basename.
  - rewrite rev_app_distr. cbn [rev]. rewrite <- app_assoc. cbn [app]. rewrite (upto_app slash (rev b) "/"%char (rev d) N eq_refl). apply rev_involutive.
  - rewrite upto_none by exact N. apply rev_involutive.
Qed.
Print Assumptions C92_basename.
Example C92_basename_sat : exists (b : str), no_slash b.
Proof. exists (L "xfrac.bin"%string). cbn. intros H. repeat (destruct H as [H|H]; [discriminate|]). exact H. Qed.
Theorem C92_root : forall a e, no_dot e -> ((exists c, In c a /\ c <> "."%char) -> root (a ++ "."%char :: e) = a) /\ ((forall c, In c a -> c = "."%char) -> root (a ++ "."%char :: e) = a ++ "."%char :: e) /\ root e = e.
Proof.
  intros a e H. assert (N : forall x, In x (rev e) -> dot x = false) by (intros x I; apply in_rev in I; unfold dot; apply Ascii.eqb_neq; intros ->; contradiction).
  assert (F : rev (tl (from dot (rev (a ++ "."%char :: e)))) = a) by (rewrite rev_app_distr; cbn [rev]; rewrite <- app_assoc; cbn [app]; rewrite (from_app dot (rev e) "."%char (rev a) N eq_refl); cbn [tl]; apply rev_involutive).
  assert (X : existsb dot (a ++ "."%char :: e) = true) by (apply existsb_exists; exists "."%char; split; [apply in_or_app; right; left; reflexivity|reflexivity]).
  unfold root. rewrite F, X. split; [|split].
  - intros (c & I & C). assert (Q : forallb dot a = false) by (apply not_true_is_false; intro Q; rewrite forallb_forall in Q; apply C, Ascii.eqb_eq, Q, I). rewrite Q. reflexivity.
  - intro Q. assert (Q' : forallb dot a = true) by (apply forallb_forall; intros c I; rewrite (Q c I); reflexivity). rewrite Q'. reflexivity.
  - assert (E : existsb dot e = false) by (apply not_true_is_false; intro Q; apply existsb_exists in Q; destruct Q as (c & I & D); apply H; apply Ascii.eqb_eq in D; subst; exact I). rewrite E. reflexivity.
Qed.
Print Assumptions C92_root.
Example C92_root_sat : exists (e : str), no_dot e.
Proof. exists (L "bin"%string). cbn. intros H. repeat (destruct H as [H|H]; [discriminate|]). exact H. Qed.

(** A name of the form <directory>/<base> with no slash in the base. *)
Definition at_dir (d : str) (b : str) : str := d ++ "/"%char :: b.
Lemma float_nonempty : forall s z, float s = Some z -> s <> [].
Proof. intros s z H ->. discriminate H. Qed.
Lemma num_no_slash : forall s, all_num s -> no_slash s.
Proof. intros s H I. destruct (H _ I) as [E|E]; [discriminate E|cbn in E; lia]. Qed.
Ltac lit := match goal with |- no_slash _ => let I := fresh in intro I; repeat (destruct I as [I|I]; [discriminate I|]); destruct I | |- no_dot _ => let I := fresh in intro I; repeat (destruct I as [I|I]; [discriminate I|]); destruct I
  | |- none_num _ => let c := fresh in let I := fresh in intros c I; repeat (destruct I as [<-|I]; [apply numeric_false; reflexivity|]); destruct I end.
Lemma no_slash_app : forall a b, no_slash a -> no_slash b -> no_slash (a ++ b).
Proof. intros a b A B I. apply in_app_or in I. destruct I; contradiction. Qed.
Lemma single : forall (s : str) z, float s = Some z -> length s = 1%nat -> exists c, s = [c] /\ digit c = true.
Proof. intros s z H E. destruct s as [|c [|? ?]]; try discriminate E. exists c. split; [reflexivity|]. unfold float in H. cbn [existsb] in H. destruct (digit c); [reflexivity|discriminate H]. Qed.

Lemma float_three : float ["3"%char] = Some 3.
Proof. unfold float. replace (existsb digit ["3"%char] && (length (filter dot ["3"%char]) <=? 1)%nat) with true by (vm_compute; reflexivity). f_equal. replace (decimal ["3"%char]) with 3%Z by (vm_compute; reflexivity). replace (length (tl (from dot ["3"%char]))) with 0%nat by (vm_compute; reflexivity). rewrite pow_O. lra. Qed.
Lemma tagged : forall d pre t num ext z, no_slash pre -> none_num pre -> no_slash t -> none_num t -> t <> [] -> no_slash ext -> no_dot ext -> pre <> [] -> all_num num -> float num = Some z ->
  determine_redshift (at_dir d (pre ++ "3"%char :: t ++ num ++ "."%char :: ext)) = Redshift (if (2 <=? length num)%nat then z else 3).
Proof.
  intros d pre t num ext z P1 P2 T1 T2 T3 X1 X2 P3 Hn F. pose proof (float_nonempty _ _ F) as N0.
  assert (B : basename (at_dir d (pre ++ "3"%char :: t ++ num ++ "."%char :: ext)) = pre ++ "3"%char :: t ++ num ++ "."%char :: ext).
  { apply C92_basename. apply no_slash_app; [exact P1|]. intros [E|I]; [discriminate E|]. revert I. apply no_slash_app; [exact T1|]. apply no_slash_app; [apply num_no_slash, Hn|]. intros [E|I]; [discriminate E|contradiction]. }
  assert (R : root (pre ++ "3"%char :: t ++ num ++ "."%char :: ext) = pre ++ ["3"%char] ++ t ++ num ++ []).
  { replace (pre ++ "3"%char :: t ++ num ++ "."%char :: ext) with ((pre ++ ["3"%char] ++ t ++ num ++ []) ++ "."%char :: ext) by (rewrite app_nil_r, <- !app_assoc; reflexivity). apply C92_root; [exact X2|]. exists "3"%char. split; [apply in_or_app; right; left; reflexivity|discriminate]. }
  assert (NB : numbers (root (basename (at_dir d (pre ++ "3"%char :: t ++ num ++ "."%char :: ext)))) [["3"%char]; num]).
  { rewrite B, R. apply a_number; [exact P2|discriminate|intros c [<-|[]]; right; cbn; lia|intros c u E; destruct t as [|c' t]; [contradiction|]; cbn in E; injection E as <- _; apply T2; left; reflexivity|]. apply a_number; [exact T2|exact N0|exact Hn|intros; discriminate|constructor; intros c []]. }
  destruct (C92_redshift _ _ NB) as (_ & _ & G & _). destruct (2 <=? length num)%nat eqn:L2; [apply Nat.leb_le in L2|apply Nat.leb_gt in L2].
  - rewrite (G num); [rewrite F; reflexivity|]. exists [["3"%char]], []. split; [reflexivity|]. split; [intros x [<-|[]]; cbn; lia|intros x []].
  - rewrite (G ["3"%char]); [rewrite float_three; reflexivity|]. exists [], [num]. split; [reflexivity|]. split; [intros x []|intros x [<-|[]]; cbn; lia].
Qed.
(** Ionised fraction and temperature files "xfrac3d_<number>.bin", "Temper3D_<number>.bin": the number if it has at least two characters; the 3 of "3d" otherwise. *)
Theorem C92_xfrac_name : forall d num z, all_num num -> float num = Some z -> determine_redshift (at_dir d (L "xfrac3d_" ++ num ++ L ".bin")) = Redshift (if (2 <=? length num)%nat then z else 3).
Proof. intros d num z H F. apply (tagged d (L "xfrac") (L "d_") num (L "bin") z); try assumption; try discriminate; lit. Qed.
Theorem C92_temper_name : forall d num z, all_num num -> float num = Some z -> determine_redshift (at_dir d (L "Temper3D_" ++ num ++ L ".bin")) = Redshift (if (2 <=? length num)%nat then z else 3).
Proof. intros d num z H F. apply (tagged d (L "Temper") (L "D_") num (L "bin") z); try assumption; try discriminate; lit. Qed.
Print Assumptions C92_xfrac_name.
Example C92_xfrac_name_sat : exists (num : str) (z : R), all_num num /\ float num = Some z.
Proof. exists (L "8.250"%string), (IZR 8250 / 10 ^ 3). split; [|reflexivity]. intros c H. cbn in H. repeat (destruct H as [<-|H]; [first [left; reflexivity|right; vm_compute; lia]|]). destruct H. Qed.
Print Assumptions C92_temper_name.
Example C92_temper_name_sat : exists (num : str) (z : R), all_num num /\ float num = Some z.
Proof. exists (L "8.250"%string), (IZR 8250 / 10 ^ 3). split; [|reflexivity]. intros c H. cbn in H. repeat (destruct H as [<-|H]; [first [left; reflexivity|right; vm_compute; lia]|]). destruct H. Qed.
(** So "xfrac3d_9.bin" is taken to be at redshift 3, like every other single digit. *)
Theorem C92_single_digit_refuted : forall d c, digit c = true -> c <> "3"%char -> exists z, float [c] = Some z /\ z <> 3 /\ determine_redshift (at_dir d (L "xfrac3d_" ++ [c] ++ L ".bin")) = Redshift 3.
Proof.
  intros d c H N. assert (D : dot c = false) by (unfold dot; apply Ascii.eqb_neq; intros ->; discriminate H). assert (F : float [c] = Some (IZR (digit_val c))). { unfold float. cbn [existsb filter from tl]. rewrite H, D. cbn. rewrite H. do 2 f_equal. unfold Rdiv. rewrite Rinv_1, Rmult_1_r. destruct (digit_val c); reflexivity. }
  exists (IZR (digit_val c)). split; [exact F|]. split.
  - intro E. apply (eq_IZR _ 3) in E. apply N. unfold digit in H. apply andb_true_iff in H. destruct H as [H1 H2]. apply Nat.leb_le in H1, H2. unfold digit_val in E. assert (nat_of_ascii c = 51%nat) by lia. rewrite <- (ascii_nat_embedding c). rewrite H. reflexivity.
  - apply (C92_xfrac_name d [c] (IZR (digit_val c))); [|exact F]. intros x [<-|[]]. apply numeric_iff. unfold numeric. rewrite H. reflexivity.
Qed.
Print Assumptions C92_single_digit_refuted.
(** Without an extension the decimals are taken for one: only the integer part counts, and only if it has two digits. *)
Theorem C92_no_extension_refuted : forall d a b z, (forall c, In c (a ++ b) -> digit c = true) -> float a = Some z ->
  determine_redshift (at_dir d (L "xfrac3d_" ++ a ++ L "." ++ b)) = Redshift (if (2 <=? length a)%nat then z else 3).
Proof.
  intros d a b z H F. apply (tagged d (L "xfrac") (L "d_") a b z); try assumption; try discriminate; try lit.
  - apply num_no_slash. intros c I. apply numeric_iff. unfold numeric. rewrite H by (apply in_or_app; right; exact I). reflexivity.
  - intro I. assert (Q : digit "."%char = true) by (apply H, in_or_app; right; exact I). discriminate Q.
  - intros c I. apply numeric_iff. unfold numeric. rewrite H by (apply in_or_app; left; exact I). reflexivity.
Qed.
Print Assumptions C92_no_extension_refuted.
Example C92_no_extension_refuted_sat : exists (a : list ascii) (b : list ascii) (z : R), ((forall c, In c (a ++ b) -> digit c = true)) /\ float a = Some z.
Proof. exists (L "8"%string), (L "25"%string), (IZR 8 / 10 ^ 0). split; [|reflexivity]. intros c H. cbn in H. repeat (destruct H as [<-|H]; [reflexivity|]). destruct H. Qed.
Lemma leading : forall d num t ext z, all_num num -> float num = Some z -> no_slash t -> none_num t -> t <> [] -> no_slash ext -> no_dot ext -> determine_redshift (at_dir d (num ++ t ++ "."%char :: ext)) = Redshift z.
Proof.
  intros d num t ext z Hn F T1 T2 T3 X1 X2.
  assert (B : basename (at_dir d (num ++ t ++ "."%char :: ext)) = num ++ t ++ "."%char :: ext).
  { apply C92_basename. apply no_slash_app; [apply num_no_slash, Hn|]. apply no_slash_app; [exact T1|]. intros [E|I]; [discriminate E|contradiction]. }
  assert (R : root (num ++ t ++ "."%char :: ext) = num ++ t).
  { rewrite app_assoc. apply C92_root; [exact X2|]. destruct t as [|c t]; [contradiction|]. exists c. split; [apply in_or_app; right; left; reflexivity|]. intros ->. apply (T2 "."%char (or_introl eq_refl)). left; reflexivity. }
  assert (NB : numbers (root (basename (at_dir d (num ++ t ++ "."%char :: ext)))) [num]).
  { rewrite B, R. apply (a_number [] num t []); [intros c []|eapply float_nonempty, F|exact Hn|intros c u ->; apply T2; left; reflexivity|constructor; exact T2]. }
  destruct (C92_redshift _ _ NB) as (_ & _ & G & _). rewrite (G num), F; [reflexivity|]. exists [], []. split; [reflexivity|]. split; intros x [].
Qed.
(** Density, velocity and source files start with the number: it is always found. *)
Theorem C92_leading_names : forall d num z, all_num num -> float num = Some z -> determine_redshift (at_dir d (num ++ L "n_all.dat")) = Redshift z /\ determine_redshift (at_dir d (num ++ L "v_all.dat")) = Redshift z /\
  determine_redshift (at_dir d (num ++ L "-coarsest_wsubgrid_sources.dat")) = Redshift z.
Proof. intros d num z H F. split; [|split]; [apply (leading d num (L "n_all") (L "dat") z)|apply (leading d num (L "v_all") (L "dat") z)|apply (leading d num (L "-coarsest_wsubgrid_sources") (L "dat") z)]; try assumption; try discriminate; lit. Qed.
Print Assumptions C92_leading_names.
Example C92_leading_names_sat : exists (num : str) (z : R), all_num num /\ float num = Some z.
Proof. exists (L "8.250"%string), (IZR 8250 / 10 ^ 3). split; [|reflexivity]. intros c H. cbn in H. repeat (destruct H as [<-|H]; [first [left; reflexivity|right; vm_compute; lia]|]). destruct H. Qed.

(** * Directory listings *)
Lemma last_piece_app : forall p a c b, p c = true -> (forall x, In x b -> p x = false) -> last_piece p (a ++ c :: b) = b.
Proof. intros p a c b P N. unfold last_piece. rewrite rev_app_distr. cbn [rev]. rewrite <- app_assoc. cbn [app]. rewrite upto_app; [apply rev_involutive| |exact P]. intros x I. apply N, in_rev, I. Qed.
Lemma firstn_app_left : forall {A} (a b : list A), firstn (length a) (a ++ b) = a.
Proof. intros. rewrite firstn_app, firstn_all, Nat.sub_diag. cbn. apply app_nil_r. Qed.
Lemma before_num : forall num t, all_num num -> before (L "n_") (num ++ L "n_" ++ t) = num.
Proof.
  induction num as [|c num IH]; intros t H; [reflexivity|]. change ((c :: num) ++ L "n_" ++ t) with (c :: (num ++ L "n_" ++ t)). cbn [before]. assert (E : prefixb (L "n_") (c :: num ++ L "n_" ++ t) = false).
  { cbn [prefixb L list_ascii_of_string]. destruct (Ascii.eqb "n" c) eqn:Q; [|reflexivity]. apply Ascii.eqb_eq in Q. subst c. exfalso. destruct (H "n"%char (or_introl eq_refl)) as [Z|Z]; [discriminate Z|cbn in Z; lia]. }
  rewrite E. f_equal. apply IH. intros x I. apply H. right; exact I.
Qed.
Lemma before_last_app : forall pat a b t, before_last pat b = Some t -> before_last pat (a ++ b) = Some (a ++ t).
Proof. intros pat a. induction a as [|c a IH]; intros b t H; [exact H|]. cbn [app before_last]. rewrite (IH b t H). reflexivity. Qed.
(** The three listing functions cut the number out of the names their patterns select, whatever the directory. *)
Theorem C92_listing_fields : forall d num, all_num num -> xfrac_field (at_dir d (L "xfrac3d_" ++ num ++ L ".bin")) = num /\ dens_field (at_dir d (num ++ L "n_all.dat")) = num /\ source_field (at_dir d (num ++ L "-coarsest_wsubgrid_sources.dat")) = num.
Proof.
  intros d num H. assert (US : forall x, In x (num ++ L ".bin") -> Ascii.eqb x "_"%char = false).
  { intros x I. apply Ascii.eqb_neq. intros ->. apply in_app_or in I. destruct I as [I|I]; [destruct (H _ I) as [E|E]; [discriminate E|cbn in E; lia]|repeat (destruct I as [I|I]; [discriminate I|]); destruct I]. }
  split; [|split].
  - unfold xfrac_field. replace (at_dir d (L "xfrac3d_" ++ num ++ L ".bin")) with ((d ++ L "/xfrac3d") ++ "_"%char :: num ++ L ".bin") by (unfold at_dir; rewrite <- app_assoc; reflexivity). rewrite last_piece_app; [|reflexivity|exact US]. unfold drop_last. rewrite app_length. cbn [L list_ascii_of_string length]. replace (length num + 4 - 4)%nat with (length num) by lia. apply firstn_app_left.
  - assert (NS : no_slash (num ++ L "n_all.dat")) by (apply no_slash_app; [apply num_no_slash, H|lit]). unfold dens_field, at_dir. rewrite (proj1 (C92_basename d _ NS)). apply (before_num num (L "all.dat") H).
  - assert (NS : no_slash (num ++ L "-coarsest_wsubgrid_sources.dat")) by (apply no_slash_app; [apply num_no_slash, H|lit]). unfold source_field, at_dir. rewrite (proj1 (C92_basename d _ NS)).
    replace (d ++ "/"%char :: num ++ L "-coarsest_wsubgrid_sources.dat") with ((d ++ "/"%char :: num) ++ L "-coarsest_wsubgrid_sources.dat") by (rewrite <- app_assoc; reflexivity).
    rewrite (before_last_app (L "-coarsest_wsubgrid_sources") (d ++ "/"%char :: num) (L "-coarsest_wsubgrid_sources.dat") [] eq_refl), app_nil_r. replace (length ((d ++ "/"%char :: num) ++ L "-coarsest_wsubgrid_sources.dat") - length (num ++ L "-coarsest_wsubgrid_sources.dat"))%nat with (length (d ++ ["/"%char])) by (rewrite !app_length; cbn [length]; lia).
    replace (d ++ "/"%char :: num) with ((d ++ ["/"%char]) ++ num) by (rewrite <- app_assoc; reflexivity). rewrite skipn_app, skipn_all, Nat.sub_diag. reflexivity.
Qed.
Print Assumptions C92_listing_fields.
Example C92_listing_fields_sat : exists (num : str), all_num num.
Proof. exists (L "8.250"%string). intros c H. cbn in H. repeat (destruct H as [<-|H]; [first [left; reflexivity|right; vm_compute; lia]|]). destruct H. Qed.

Lemma insert_perm : forall x l, Permutation (insert x l) (x :: l).
Proof. induction l as [|y l IH]; cbn; [constructor; constructor|]. destruct (Rle_dec x y); [apply Permutation_refl|]. eapply Permutation_trans; [apply perm_skip, IH|apply perm_swap]. Qed.
Lemma sort_perm : forall l, Permutation (sort l) l.
Proof. induction l as [|x l IH]; cbn; [constructor|]. eapply Permutation_trans; [apply insert_perm|apply perm_skip, IH]. Qed.
Lemma insert_sorted : forall x l, StronglySorted Rle l -> StronglySorted Rle (insert x l).
Proof.
  induction 1 as [|y l H IH F]; cbn; [constructor; constructor|]. destruct (Rle_dec x y) as [Q|Q].
  - constructor; [constructor; assumption|]. constructor; [exact Q|]. eapply Forall_impl; [|exact F]. cbn. intros; lra.
  - constructor; [exact IH|]. apply Forall_forall. intros z I. apply (Permutation_in _ (insert_perm x l)) in I. destruct I as [<-|I]; [lra|]. rewrite Forall_forall in F. apply F, I.
Qed.
Lemma sort_sorted : forall l, StronglySorted Rle (sort l).
Proof. induction l; cbn; [constructor|apply insert_sorted; assumption]. Qed.
Lemma sorted_unique : forall l l', StronglySorted Rle l -> StronglySorted Rle l' -> Permutation l l' -> l = l'.
Proof.
  intros l l' H. revert l'. induction H as [|x l H IH F]; intros l' H' P; [apply Permutation_nil in P; subst; reflexivity|]. destruct H' as [|y l' H' F'].
  - apply Permutation_sym, Permutation_nil in P. discriminate P.
  - assert (x = y). { assert (I1 : In x (y :: l')) by (apply (Permutation_in _ P); left; reflexivity). assert (I2 : In y (x :: l)) by (apply (Permutation_in _ (Permutation_sym P)); left; reflexivity). rewrite Forall_forall in F, F'. destruct I1 as [->|I1]; [reflexivity|]. destruct I2 as [->|I2]; [reflexivity|]. specialize (F _ I2). specialize (F' _ I1). lra. }
    subst y. f_equal. apply IH; [exact H'|]. eapply Permutation_cons_inv, P.
Qed.
Lemma sort_order : forall l l', Permutation l l' -> sort l = sort l'.
Proof. intros l l' P. apply sorted_unique; try apply sort_sorted. eapply Permutation_trans; [apply sort_perm|]. eapply Permutation_trans; [exact P|]. apply Permutation_sym, sort_perm. Qed.
Lemma filter_sorted : forall f l, StronglySorted Rle l -> StronglySorted Rle (filter f l).
Proof. induction 1 as [|x l H IH F]; cbn; [constructor|]. destruct (f x); [|exact IH]. constructor; [exact IH|]. apply Forall_forall. intros y I. apply filter_In in I. rewrite Forall_forall in F. apply F, I. Qed.
Lemma leb_iff : forall a b, leb a b = true <-> a <= b.
Proof. intros. unfold leb. destruct (Rle_dec a b); split; intros; try tauto; discriminate. Qed.
Lemma ltb_iff : forall a b, ltb a b = true <-> a < b.
Proof. intros. unfold ltb. destruct (Rlt_dec a b); split; intros; try tauto; discriminate. Qed.
Lemma fold_min : forall l x, (forall z, In z (x :: l) -> fold_left Rmin l x <= z) /\ In (fold_left Rmin l x) (x :: l).
Proof.
  induction l as [|y l IH]; intro x; [split; [intros z [<-|[]]; cbn; lra|left; reflexivity]|]. cbn [fold_left]. destruct (IH (Rmin x y)) as [A B]. split.
  - intros z [<-|[<-|I]]; [eapply Rle_trans; [apply A; left; reflexivity|apply Rmin_l]|eapply Rle_trans; [apply A; left; reflexivity|apply Rmin_r]|apply A; right; exact I].
  - destruct B as [B|B]; [|right; right; exact B]. rewrite <- B. unfold Rmin. destruct (Rle_dec x y); [left|right; left]; reflexivity.
Qed.
Lemma fold_max : forall l x, (forall z, In z (x :: l) -> z <= fold_left Rmax l x) /\ In (fold_left Rmax l x) (x :: l).
Proof.
  induction l as [|y l IH]; intro x; [split; [intros z [<-|[]]; cbn; lra|left; reflexivity]|]. cbn [fold_left]. destruct (IH (Rmax x y)) as [A B]. split.
  - intros z [<-|[<-|I]]; [eapply Rle_trans; [apply Rmax_l|apply A; left; reflexivity]|eapply Rle_trans; [apply Rmax_r|apply A; left; reflexivity]|apply A; right; exact I].
  - destruct B as [B|B]; [|right; right; exact B]. rewrite <- B. unfold Rmax. destruct (Rle_dec x y); [right; left|left]; reflexivity.
Qed.
(** The order in which the operating system lists a directory does not matter. *)
Lemma perm_flat_map : forall {A B} (f : A -> list B) l l', Permutation l l' -> Permutation (flat_map f l) (flat_map f l').
Proof. intros A B f l l' P. induction P; cbn; [constructor|apply Permutation_app_head, IHP|rewrite !app_assoc; apply Permutation_app_tail, Permutation_app_comm|eapply Permutation_trans; eassumption]. Qed.
Theorem C92_listing_order : forall fl field names names' lo hi bracket, Permutation names names' -> listing fl field names lo hi bracket = listing fl field names' lo hi bracket.
Proof. intros fl field names names' lo hi bracket P. unfold listing, in_range. rewrite (sort_order _ _ (perm_flat_map _ _ _ P)). reflexivity. Qed.
Print Assumptions C92_listing_order.
Example C92_listing_order_sat : exists (names : list str) (names' : list str), Permutation names names'.
Proof. exists [list_ascii_of_string "a"; list_ascii_of_string "b"], [list_ascii_of_string "b"; list_ascii_of_string "a"]. apply perm_swap. Qed.
(** Without bracketing: the redshifts in the closed range, each as often as it occurs, in ascending order; it raises exactly when there is nothing to take a missing bound from. *)
Definition above (lo : option R) (z : R) : Prop := match lo with Some l => l <= z | None => True end.
Definition below (hi : option R) (z : R) : Prop := match hi with Some h => z <= h | None => True end.
Theorem C92_range : forall rs lo hi, (in_range rs lo hi false = None <-> rs = [] /\ (lo = None \/ hi = None)) /\
  forall out, in_range rs lo hi false = Some out -> StronglySorted Rle out /\ forall f, (forall z, In z rs -> (f z = true <-> above lo z /\ below hi z)) -> Permutation out (filter f rs).
Proof.
  intros rs lo hi. unfold in_range. set (l := sort rs). assert (PL : Permutation l rs) by apply sort_perm. assert (NL : l = [] <-> rs = []) by (split; intro E; [rewrite E in PL; apply Permutation_nil, PL|rewrite E in PL; apply Permutation_nil, Permutation_sym, PL]).
  assert (SEL : forall a b out, (forall z, In z l -> (above lo z <-> a <= z)) -> (forall z, In z l -> (below hi z <-> z <= b)) -> Some (select a b l) = Some out -> StronglySorted Rle out /\ forall f, (forall z, In z rs -> (f z = true <-> above lo z /\ below hi z)) -> Permutation out (filter f rs)).
  { intros a b out Ha Hb E. injection E as <-. split; [apply filter_sorted, sort_sorted|]. intros f Hf. unfold select. rewrite (filter_ext_in _ f).
    - assert (G : forall m m', Permutation m m' -> Permutation (filter f m) (filter f m')). { clear. induction 1; cbn; [constructor|destruct (f x); [apply perm_skip|]; assumption|destruct (f x), (f y); try apply perm_swap; apply Permutation_refl|eapply Permutation_trans; eassumption]. } apply G, PL.
    - intros z I. assert (I' : In z rs) by (apply (Permutation_in _ PL), I). specialize (Hf z I'). rewrite (Ha z I), (Hb z I) in Hf. apply eq_true_iff_eq. rewrite andb_true_iff, !leb_iff. symmetry. exact Hf. }
  split.
  - rewrite <- NL. destruct lo as [a|], hi as [b|]; try (split; [discriminate|intros [_ [H|H]]; discriminate]); destruct l as [|x l']; cbn; split; try discriminate; try tauto; intros [H _]; discriminate.
  - intros out E. destruct lo as [a|], hi as [b|].
    + apply (SEL a b); [intros; reflexivity|intros; reflexivity|exact E].
    + destruct l as [|x l'] eqn:El; [discriminate E|]. cbn [maximum option_map] in E. apply (SEL a (fold_left Rmax l' x + 1)); [intros; reflexivity| |exact E]. intros z I. cbn. pose proof (proj1 (fold_max l' x) z I). split; intros; [lra|tauto].
    + destruct l as [|x l'] eqn:El; [discriminate E|]. cbn [minimum option_map] in E. apply (SEL (fold_left Rmin l' x - 1) b); [ |intros; reflexivity|exact E]. intros z I. cbn. pose proof (proj1 (fold_min l' x) z I). split; intros; [lra|tauto].
    + destruct l as [|x l'] eqn:El; [discriminate E|]. cbn [minimum maximum option_map] in E. apply (SEL (fold_left Rmin l' x - 1) (fold_left Rmax l' x + 1)); [ | |exact E]; intros z I; cbn; [pose proof (proj1 (fold_min l' x) z I)|pose proof (proj1 (fold_max l' x) z I)]; split; intros; (lra || tauto).
Qed.
Print Assumptions C92_range.
(** With bracketing both bounds must be given and lie between the extremes; then the range widens to the nearest redshifts outside it. *)
Definition greatest_below (rs : list R) (v a : R) : Prop := In a rs /\ a <= v /\ forall z, In z rs -> z <= v -> z <= a.
Definition least_above (rs : list R) (v b : R) : Prop := In b rs /\ v <= b /\ forall z, In z rs -> v <= z -> b <= z.
Lemma sorted_last : forall l x r, StronglySorted Rle l -> rev l = x :: r -> In x l /\ forall z, In z l -> z <= x.
Proof.
  intros l x r H E. assert (El : l = rev r ++ [x]) by (rewrite <- (rev_involutive l), E; reflexivity). split; [rewrite El; apply in_or_app; right; left; reflexivity|]. intros z I. rewrite El in I, H. apply in_app_or in I. destruct I as [I|[<-|[]]]; [|lra].
  clear El E. induction (rev r) as [|y m IH]; [destruct I|]. cbn in H. inversion H as [|? ? H1 H2]; subst. destruct I as [<-|I]; [|apply IH; assumption]. rewrite Forall_forall in H2. apply H2, in_or_app. right; left; reflexivity.
Qed.
Theorem C92_bracket : forall rs lo hi,
  (in_range rs lo hi true = None <-> match lo, hi with Some a, Some b => (forall z, In z rs -> a < z) \/ (forall z, In z rs -> z < b) | _, _ => True end) /\
  forall a b out, lo = Some a -> hi = Some b -> in_range rs lo hi true = Some out -> exists a' b', greatest_below rs a a' /\ least_above rs b b' /\ StronglySorted Rle out /\ forall z, In z out <-> In z rs /\ a' <= z <= b'.
Proof.
  intros rs lo hi. unfold in_range. set (l := sort rs). assert (PL : forall z, In z l <-> In z rs) by (intro z; split; apply Permutation_in; [|apply Permutation_sym]; apply sort_perm). assert (SL : StronglySorted Rle l) by apply sort_sorted. clearbody l.
  destruct lo as [a|]; [|split; [tauto|discriminate]]. destruct hi as [b|]; [|split; [tauto|intros; discriminate]].
  destruct l as [|x l'] eqn:El.
  - cbn [minimum maximum]. split; [split; [intros _; left; intros z I; apply PL in I; destruct I|reflexivity]|intros; discriminate].
  - rewrite <- El in *. replace (minimum l) with (Some (fold_left Rmin l' x)) by (rewrite El; reflexivity). replace (maximum l) with (Some (fold_left Rmax l' x)) by (rewrite El; reflexivity).
    destruct (fold_min l' x) as [M1 M2], (fold_max l' x) as [X1 X2]. rewrite <- El in M1, M2, X1, X2. set (mn := fold_left Rmin l' x) in *. set (mx := fold_left Rmax l' x) in *. clearbody mn mx.
    destruct (ltb a mn || ltb mx b) eqn:G.
    + split; [|intros; discriminate]. split; [intros _|reflexivity]. apply orb_true_iff in G. rewrite !ltb_iff in G. destruct G as [G|G]; [left|right]; intros z I; apply PL in I; [specialize (M1 z I); lra|specialize (X1 z I); lra].
    + apply orb_false_iff in G. destruct G as [G1 G2]. assert (A1 : mn <= a) by (apply Rnot_lt_le; intro Q; apply ltb_iff in Q; congruence). assert (B1 : b <= mx) by (apply Rnot_lt_le; intro Q; apply ltb_iff in Q; congruence).
      set (fa := filter (fun z => leb z a) l). set (fb := filter (fun z => leb b z) l).
      assert (IA : forall z, In z fa <-> In z rs /\ z <= a) by (intro z; unfold fa; rewrite filter_In, leb_iff, PL; tauto). assert (IB : forall z, In z fb <-> In z rs /\ b <= z) by (intro z; unfold fb; rewrite filter_In, leb_iff, PL; tauto).
      assert (SA : StronglySorted Rle fa) by (apply filter_sorted, SL). assert (SB : StronglySorted Rle fb) by (apply filter_sorted, SL).
      assert (NA : In mn fa) by (apply IA; split; [apply PL, M2|exact A1]). assert (NB : In mx fb) by (apply IB; split; [apply PL, X2|exact B1]).
      destruct (rev fa) as [|a' ra] eqn:Ra; [exfalso; apply in_rev in NA; rewrite Ra in NA; destruct NA|]. destruct fb as [|b' rb] eqn:Fb; [destruct NB|].
      split; [split; [discriminate|intros [Q|Q]; exfalso; [specialize (Q mn (proj1 (PL mn) M2)); lra|specialize (Q mx (proj1 (PL mx) X2)); lra]]|].
      intros a0 b0 out Ea Eb E. injection Ea as <-. injection Eb as <-. injection E as <-. exists a', b'. destruct (sorted_last fa a' ra SA Ra) as [U1 U2]. split; [|split; [|split]].
      * apply IA in U1. split; [tauto|]. split; [tauto|]. intros z I Z. apply U2, IA. tauto.
      * assert (V1 : In b' (b' :: rb)) by (left; reflexivity). apply IB in V1. split; [tauto|]. split; [tauto|]. intros z I Z. assert (V : In z (b' :: rb)) by (apply IB; tauto). destruct V as [<-|V]; [lra|]. inversion SB as [|? ? _ F]; subst. rewrite Forall_forall in F. apply F, V.
      * apply filter_sorted, SL.
      * intro z. unfold select. rewrite filter_In, andb_true_iff, !leb_iff, PL. tauto.
Qed.
Print Assumptions C92_bracket.

(** * File types *)
Lemma prefixb_iff : forall pat s, prefixb pat s = true <-> exists b, s = pat ++ b.
Proof.
  induction pat as [|a pat IH]; intro s; [split; [exists s; reflexivity|reflexivity]|]. destruct s as [|c s]; cbn [prefixb]; [split; [discriminate|intros (b & E); discriminate E]|].
  rewrite andb_true_iff, Ascii.eqb_eq, IH. split; [intros (<- & b & ->); exists b; reflexivity|intros (b & E); injection E as -> ->; split; [reflexivity|exists b; reflexivity]].
Qed.
Lemma containsb_iff : forall pat s, containsb pat s = true <-> occurs pat s.
Proof.
  intros pat s. induction s as [|c s IH]; cbn [containsb]; rewrite orb_true_iff, prefixb_iff.
  - split; [intros [(b & E)|H]; [exists [], b; exact E|discriminate H]|]. intros (a & b & E). left. destruct a; [exists b; exact E|discriminate E].
  - rewrite IH. split; [intros [(b & E)|(a & b & ->)]; [exists [], b; exact E|exists (c :: a), b; reflexivity]|]. intros ([|x a] & b & E); [left; exists b; exact E|right]. injection E as _ ->. exists a, b; reflexivity.
Qed.
Definition keywords : list (string * filetype) := [("xfrac3d", Xfrac); ("n_all", Density); ("Temper", Temper); ("v_all", Velocity); (".cbin", Cbin); ("dbt", Dbt)]%string.
(** The type is that of the first keyword, in the documented order, occurring in the base name; no other part of the path counts. *)
Theorem C92_filetype : forall name t, determine_filetype name = t <->
  (exists a k b, keywords = a ++ (k, t) :: b /\ occurs (L k) (basename name) /\ forall k' t', In (k', t') a -> ~ occurs (L k') (basename name)) \/ (t = Unknown /\ forall k' t', In (k', t') keywords -> ~ occurs (L k') (basename name)).
Proof.
  intros name. set (b0 := basename name).
  assert (FW : (exists a k b, keywords = a ++ (k, determine_filetype name) :: b /\ occurs (L k) b0 /\ forall k' t', In (k', t') a -> ~ occurs (L k') b0) \/ (determine_filetype name = Unknown /\ forall k' t', In (k', t') keywords -> ~ occurs (L k') b0)).
  { assert (NO : forall k, containsb (L k) b0 = false -> ~ occurs (L k) b0) by (intros k F O; apply containsb_iff in O; congruence).
    unfold determine_filetype. fold b0. cbv zeta.
    destruct (containsb (L "xfrac3d") b0) eqn:E1; [left; exists [], "xfrac3d"%string; eexists; split; [reflexivity|split; [apply containsb_iff, E1|intros ? ? []]]|apply NO in E1].
    destruct (containsb (L "n_all") b0) eqn:E2; [left; exists [("xfrac3d"%string, Xfrac)], "n_all"%string; eexists; split; [reflexivity|split; [apply containsb_iff, E2|intros k' t' [Q|[]]; injection Q as <- _; assumption]]|apply NO in E2].
    destruct (containsb (L "Temper") b0) eqn:E3; [left; exists [("xfrac3d"%string, Xfrac); ("n_all"%string, Density)], "Temper"%string; eexists; split; [reflexivity|split; [apply containsb_iff, E3|intros k' t' [Q|[Q|[]]]; injection Q as <- _; assumption]]|apply NO in E3].
    destruct (containsb (L "v_all") b0) eqn:E4; [left; exists [("xfrac3d"%string, Xfrac); ("n_all"%string, Density); ("Temper"%string, Temper)], "v_all"%string; eexists; split; [reflexivity|split; [apply containsb_iff, E4|intros k' t' [Q|[Q|[Q|[]]]]; injection Q as <- _; assumption]]|apply NO in E4].
    destruct (containsb (L ".cbin") b0) eqn:E5; [left; exists [("xfrac3d"%string, Xfrac); ("n_all"%string, Density); ("Temper"%string, Temper); ("v_all"%string, Velocity)], ".cbin"%string; eexists; split; [reflexivity|split; [apply containsb_iff, E5|intros k' t' [Q|[Q|[Q|[Q|[]]]]]; injection Q as <- _; assumption]]|apply NO in E5].
    destruct (containsb (L "dbt") b0) eqn:E6; [left; exists [("xfrac3d"%string, Xfrac); ("n_all"%string, Density); ("Temper"%string, Temper); ("v_all"%string, Velocity); (".cbin"%string, Cbin)], "dbt"%string; eexists; split; [reflexivity|split; [apply containsb_iff, E6|intros k' t' [Q|[Q|[Q|[Q|[Q|[]]]]]]; injection Q as <- _; assumption]]|apply NO in E6].
    right. split; [reflexivity|]. intros k' t' [Q|[Q|[Q|[Q|[Q|[Q|[]]]]]]]; injection Q as <- _; assumption. }
  intro t. split; [intros <-; exact FW|]. intro H.
  destruct FW as [(a & k & b & K & O & N)|[U N]], H as [(a' & k' & b' & K' & O' & N')|[U' N']].
  - assert (W : forall (a b a' b' : list (string * filetype)) k t k' t', a ++ (k, t) :: b = a' ++ (k', t') :: b' -> (length a <= length a')%nat -> occurs (L k) b0 -> (forall q u, In (q, u) a' -> ~ occurs (L q) b0) -> t = t').
    { clear. induction a as [|x a IH]; intros b a' b' k t k' t' E H O N; destruct a' as [|y a']; cbn in *; try lia; [congruence| |injection E as <- E; eapply IH; eauto; lia]. exfalso. injection E as <- _. apply (N k t (or_introl eq_refl) O). }
    rewrite K in K'. destruct (Nat.le_ge_cases (length a) (length a')) as [H|H]; [eapply W; eauto|symmetry; symmetry in K'; eapply (W a' b' a b k' t k _ K'); eauto].
  - exfalso. apply (N' k (determine_filetype name)); [rewrite K; apply in_or_app; right; left; reflexivity|exact O].
  - exfalso. apply (N k' t); [rewrite K'; apply in_or_app; right; left; reflexivity|exact O'].
  - congruence.
Qed.
Print Assumptions C92_filetype.
(** Which arguments are read: the three file objects, arrays, and paths of a known type other than velocity. Type and role are never compared. *)
Theorem C92_readable : forall i, data_type i <> None <-> match i with Object t => t = Xfrac \/ t = Temper \/ t = Density | Path n => determine_filetype n <> Velocity /\ determine_filetype n <> Unknown | Array => True | Other => False end.
Proof. intros [t|n| |]; cbn; [destruct t; intuition congruence|destruct (determine_filetype n); intuition congruence|intuition congruence|tauto]. Qed.
Print Assumptions C92_readable.

(** * The redshift of a brightness temperature cube *)
Definition readable (i : input) : Prop := data_type i <> None.
Lemma unread : forall l, existsb (fun i => match data_type i with None => true | _ => false end) l = false <-> forall i, In i l -> readable i.
Proof.
  intro l. split.
  - intros H i I E. assert (Q : existsb (fun i => match data_type i with None => true | _ => false end) l = true) by (apply existsb_exists; exists i; split; [exact I|rewrite E; reflexivity]). congruence.
  - intro H. apply not_true_is_false. intro Q. apply existsb_exists in Q. destruct Q as (i & I & Q). apply (H i I). destruct (data_type i); [discriminate Q|reflexivity].
Qed.
Lemma settle_given : forall z rd nm, 0 <= z -> (forall i, In i rd -> readable i) -> settle z rd nm = Used z.
Proof. intros z rd nm Z H. unfold settle. rewrite (proj2 (unread rd) H). destruct (Rlt_dec z 0); [lra|reflexivity]. Qed.
Lemma settle_named : forall z rd nm, z < 0 -> (forall i, In i rd -> readable i) -> settle z rd nm = cascade nm.
Proof. intros z rd nm Z H. unfold settle. rewrite (proj2 (unread rd) H). destruct (Rlt_dec z 0); [reflexivity|lra]. Qed.
(** A redshift that is not negative is used as given. *)
Theorem C92_given : forall x d t z, 0 <= z -> readable x -> readable d -> readable t -> calc_dt_redshift x d z = Used z /\ calc_dt_full_redshift x d t z = Used z.
Proof. intros x d t z Z X D T. split; apply settle_given; try exact Z; intros i I; repeat (destruct I as [<-|I]; [assumption|]); destruct I. Qed.
Print Assumptions C92_given.
(** With the default -1: only a path given for the ionised fraction can supply it first; an array or a file object there raises whatever the other arguments are. *)
Theorem C92_default : forall x d t z, z < 0 -> readable x -> readable d -> readable t ->
  (forall n r, x = Path n -> determine_redshift n = Redshift r -> calc_dt_redshift x d z = Used r /\ calc_dt_full_redshift x d t z = Used r) /\
  ((forall n, x <> Path n) -> calc_dt_redshift x d z = TypeErr /\ calc_dt_full_redshift x d t z = TypeErr) /\
  (forall n m r, x = Path n -> determine_redshift n = NoNumber -> d = Path m -> determine_redshift m = Redshift r -> calc_dt_redshift x d z = Used r /\ calc_dt_full_redshift x d t z = Used r) /\
  (forall n m, x = Path n -> determine_redshift n = NoNumber -> d = Path m -> determine_redshift m = NoNumber -> calc_dt_redshift x d z = NoRedshift /\ forall p, t = Path p -> calc_dt_full_redshift x d t z = match determine_redshift p with Redshift r => Used r | NoNumber => NoRedshift | BadNumber => ValueErr end).
Proof.
  intros x d t z Z X D T. assert (A : calc_dt_redshift x d z = cascade [x; d]) by (apply settle_named; [exact Z|intros i [<-|[<-|[]]]; assumption]). assert (B : calc_dt_full_redshift x d t z = cascade [x; d; t]) by (apply settle_named; [exact Z|intros i [<-|[<-|[<-|[]]]]; assumption]). rewrite A, B. clear A B.
  assert (NN : forall n r, determine_redshift n = Redshift r -> ~ r < 0) by (intros n r E; destruct (numbers_exist (root (basename n))) as (rs & H); destruct (C92_redshift _ _ H) as (_ & _ & _ & _ & G); specialize (G r E); lra).
  split; [|split; [|split]].
  - intros n r -> E. cbn [cascade name_redshift]. rewrite E. destruct (Rlt_dec r 0) as [Q|]; [exfalso; eapply NN; eassumption|]. split; reflexivity.
  - intro N. cbn [cascade]. destruct x as [u|n| |]; cbn [name_redshift]; try (split; reflexivity). exfalso. apply (N n). reflexivity.
  - intros n m r -> E -> E'. cbn [cascade name_redshift]. rewrite E, E'. destruct (Rlt_dec r 0) as [Q|]; [exfalso; eapply NN; eassumption|]. split; reflexivity.
  - intros n m -> E -> E'. cbn [cascade name_redshift]. rewrite E, E'. split; [reflexivity|]. intros p ->. cbn [name_redshift]. destruct (determine_redshift p) as [r| |] eqn:P; try reflexivity. destruct (Rlt_dec r 0) as [Q|]; [exfalso; eapply NN; eassumption|reflexivity].
Qed.
Print Assumptions C92_default.
(** The ionised fraction cannot be an array while the density is a named file: the documented search through the files never gets to the second one. *)
Theorem C92_array_refuted : forall d num r z, all_num num -> float num = Some r -> z < 0 -> determine_redshift (at_dir d (num ++ L "n_all.dat")) = Redshift r /\ calc_dt_redshift Array (Path (at_dir d (num ++ L "n_all.dat"))) z = TypeErr.
Proof.
  intros d num r z H F Z. split; [apply C92_leading_names; assumption|]. apply (C92_default Array (Path (at_dir d (num ++ L "n_all.dat"))) Array z Z); try discriminate.
  unfold readable. apply C92_readable. assert (NS : no_slash (num ++ L "n_all.dat")) by (apply no_slash_app; [apply num_no_slash, H|lit]). assert (E : basename (at_dir d (num ++ L "n_all.dat")) = num ++ L "n_all.dat") by (apply C92_basename, NS).
  unfold determine_filetype. rewrite E. assert (C : containsb (L "n_all") (num ++ L "n_all.dat") = true) by (apply containsb_iff; exists num, (L ".dat"); reflexivity). rewrite C. destruct (containsb (L "xfrac3d") _); split; discriminate.
Qed.
Print Assumptions C92_array_refuted.
Example C92_array_refuted_sat : exists (num : str) (r : R) (z : R), all_num num /\ float num = Some r /\ z < 0.
Proof. exists (L "8.250"%string), (IZR 8250 / 10 ^ 3), (-1). split; [|split; [reflexivity|lra]]. intros c H. cbn in H. repeat (destruct H as [<-|H]; [first [left; reflexivity|right; vm_compute; lia]|]). destruct H. Qed.

(** * Formats written by [save_data] *)
Lemma tail5_ext : forall p c e, length e = 4%nat -> tail5 (p ++ c :: e) = c :: e.
Proof. intros p c e H. unfold tail5. rewrite app_length. cbn [length]. rewrite H. replace (length p + 5 - 5)%nat with (length p) by lia. rewrite skipn_app, skipn_all, Nat.sub_diag. reflexivity. Qed.
Lemma tail5_short : forall e, length e = 4%nat -> tail5 e = e.
Proof. intros e H. unfold tail5. rewrite H. reflexivity. Qed.
Lemma tail5_five : forall p e, length e = 5%nat -> tail5 (p ++ e) = e.
Proof. intros p e H. unfold tail5. rewrite app_length, H. replace (length p + 5 - 5)%nat with (length p) by lia. rewrite skipn_app, skipn_all, Nat.sub_diag. reflexivity. Qed.
Lemma ext4 : forall p e, length e = 4%nat -> exists c, tail5 (p ++ e) = c ++ e /\ (c = [] \/ exists x, c = [x]).
Proof.
  intros p e H. destruct p as [|x p] using rev_ind; [exists []; split; [apply tail5_short, H|left; reflexivity]|]. exists [x]. split; [|right; exists x; reflexivity]. rewrite <- app_assoc. apply tail5_ext, H.
Qed.
(** The extension alone decides when no type is given; ".npy" decides whatever type is given. *)
Theorem C92_save_extension : forall p, (forall ft, save_format (p ++ L ".npy") ft = Some Npy) /\ save_format (p ++ L ".pkl") None = Some Pickle /\ save_format (p ++ L ".cbin") None = Some CbinF /\
  save_format (p ++ L ".fits") None = Some Fits /\ save_format (p ++ L ".bin") None = Some Raw.
Proof.
  intro p. split; [|split; [|split; [|split]]].
  - intro ft. unfold save_format. destruct (ext4 p (L ".npy") eq_refl) as (c & E & _). rewrite E. replace (containsb (L ".npy") (c ++ L ".npy")) with true by (symmetry; apply containsb_iff; exists c, []; reflexivity). reflexivity.
  - unfold save_format. destruct (ext4 p (L ".pkl") eq_refl) as (c & E & [-> |(x & ->)]); rewrite E; [reflexivity|]. clear; destruct x as [[] [] [] [] [] [] [] []]; reflexivity.
  - unfold save_format. rewrite (tail5_five p (L ".cbin") eq_refl). reflexivity.
  - unfold save_format. rewrite (tail5_five p (L ".fits") eq_refl). reflexivity.
  - unfold save_format. destruct (ext4 p (L ".bin") eq_refl) as (c & E & [-> |(x & ->)]); rewrite E; [reflexivity|]. clear; destruct x as [[] [] [] [] [] [] [] []]; reflexivity.
Qed.
Print Assumptions C92_save_extension.
(** Without a type: nothing is written exactly when no known extension occurs in the last five characters, and what is written is one of those that do. *)
Definition extensions : list (string * format) := [(".npy", Npy); (".pkl", Pickle); (".cbin", CbinF); (".fits", Fits); (".bin", Raw)]%string.
Definition near_end (e : string) (p : str) : Prop := exists a b, p = a ++ L e ++ b /\ (length (L e ++ b) <= 5)%nat.
Lemma tail5_occurs : forall e p, occurs (L e) (tail5 p) <-> near_end e p.
Proof.
  intros e p. unfold tail5, near_end. split.
  - intros (a & b & E). exists (firstn (length p - 5) p ++ a), b. split; [rewrite <- app_assoc, <- E; symmetry; apply firstn_skipn|]. assert (LE : length (skipn (length p - 5) p) = length (a ++ L e ++ b)) by (rewrite E; reflexivity). rewrite skipn_length, app_length in LE. lia.
  - intros (a & b & E & H). set (q := L e ++ b) in *. assert (LP : (length p = length a + length q)%nat) by (rewrite E, app_length; reflexivity). exists (skipn (length p - 5) a), b. fold q. rewrite E, app_length. replace (length a + length q - 5)%nat with (length p - 5)%nat by lia. rewrite skipn_app. replace (length p - 5 - length a)%nat with 0%nat by lia. reflexivity.
Qed.
Theorem C92_save_untyped : forall p, (save_format p None = None <-> forall e f, In (e, f) extensions -> ~ near_end e p) /\ (forall f, save_format p None = Some f -> exists e, In (e, f) extensions /\ near_end e p).
Proof.
  intro p. unfold save_format. cbv zeta. cbn [map existsb streq]. assert (K : forall e, containsb (L e) (tail5 p) = true <-> near_end e p) by (intro e; rewrite containsb_iff; apply tail5_occurs).
  assert (K2 : forall e, containsb (L e) (tail5 p) = false -> ~ near_end e p) by (intros e F O; apply K in O; congruence).
  destruct (containsb (L ".npy") (tail5 p)) eqn:E1; [apply K in E1|apply K2 in E1]; cbn [orb].
  { split; [split; [discriminate|intro H; exfalso; exact (H _ _ (or_introl eq_refl) E1)]|]. intros f Q. injection Q as <-. exists ".npy"%string. split; [left; reflexivity|exact E1]. }
  replace (streq [] (L "npy") || (streq [] (L "python_pickle") || false)) with false by reflexivity. cbn [orb].
  destruct (containsb (L ".pkl") (tail5 p)) eqn:E2; [apply K in E2|apply K2 in E2]; cbn [orb].
  { split; [split; [discriminate|intro H; exfalso; refine (H _ _ _ E2); right; left; reflexivity]|]. intros f Q. injection Q as <-. exists ".pkl"%string. split; [right; left; reflexivity|exact E2]. }
  replace (streq [] (L "pkl") || (streq [] (L "pickle") || false)) with false by reflexivity. cbn [orb].
  destruct (containsb (L ".cbin") (tail5 p)) eqn:E3; [apply K in E3|apply K2 in E3]; cbn [orb].
  { split; [split; [discriminate|intro H; exfalso; refine (H _ _ _ E3); do 2 right; left; reflexivity]|]. intros f Q. injection Q as <-. exists ".cbin"%string. split; [do 2 right; left; reflexivity|exact E3]. }
  replace (streq [] (L "cbin") || false) with false by reflexivity. cbn [orb].
  destruct (containsb (L ".fits") (tail5 p)) eqn:E4; [apply K in E4|apply K2 in E4]; cbn [orb].
  { split; [split; [discriminate|intro H; exfalso; refine (H _ _ _ E4); do 3 right; left; reflexivity]|]. intros f Q. injection Q as <-. exists ".fits"%string. split; [do 3 right; left; reflexivity|exact E4]. }
  replace (streq [] (L "fits") || false) with false by reflexivity. cbn [orb].
  destruct (containsb (L ".bin") (tail5 p)) eqn:E5; [apply K in E5|apply K2 in E5]; cbn [orb].
  { split; [split; [discriminate|intro H; exfalso; refine (H _ _ _ E5); do 4 right; left; reflexivity]|]. intros f Q. injection Q as <-. exists ".bin"%string. split; [do 4 right; left; reflexivity|exact E5]. }
  replace (streq [] (L "bin") || (streq [] (L "binary") || false)) with false by reflexivity. split; [|intros f Q; discriminate Q]. split; [intros _ e f I|reflexivity]. repeat (destruct I as [Q|I]; [injection Q as <- _; assumption|]). destruct I.
Qed.
Print Assumptions C92_save_untyped.
(** A requested type wins over the extension only if it comes earlier in the fixed order npy, pickle, cbin, fits, binary; so neither rule holds throughout. *)
Theorem C92_save_precedence_refuted : forall p, save_format (p ++ L ".npy") (Some (L "fits")) = Some Npy /\ save_format (p ++ L ".fits") (Some (L "npy")) = Some Npy /\ save_format (p ++ L ".cbin") (Some (L "bin")) = Some CbinF /\ save_format (p ++ L ".bin") (Some (L "cbin")) = Some CbinF.
Proof.
  intro p. split; [apply C92_save_extension|]. split; [unfold save_format; rewrite (tail5_five p (L ".fits") eq_refl); reflexivity|]. split; [unfold save_format; rewrite (tail5_five p (L ".cbin") eq_refl); reflexivity|].
  unfold save_format. destruct (ext4 p (L ".bin") eq_refl) as (c & E & [-> |(x & ->)]); rewrite E; [reflexivity|]. clear; destruct x as [[] [] [] [] [] [] [] []]; reflexivity.
Qed.
Print Assumptions C92_save_precedence_refuted.
(** Upper case is accepted for some types and not for others; then nothing is written. *)
Theorem C92_save_case : forall p, save_format (p ++ L ".data") (Some (L "NPY")) = Some Npy /\ save_format (p ++ L ".data") (Some (L "Pickle")) = Some Pickle /\ save_format (p ++ L ".data") (Some (L "CBIN")) = Some CbinF /\
  save_format (p ++ L ".data") (Some (L "FITS")) = None /\ save_format (p ++ L ".data") (Some (L "Binary")) = None /\ save_format (p ++ L ".data") None = None.
Proof. intro p. unfold save_format. rewrite (tail5_five p (L ".data") eq_refl). repeat split; reflexivity. Qed.
Print Assumptions C92_save_case.

(** * Files of a light cone *)
(** Names may only be a list, and their redshifts only an array or taken from the names: a directory, a file of names, a file of redshifts and a plain list of redshifts all raise, against the documentation. *)
Theorem C92_lightcone_text_refuted : forall s l z zs, lightcone_files (NamesText s) z = None /\ lightcone_files (NamesList l) (ZText s) = None /\ lightcone_files (NamesList l) (ZList zs) = None.
Proof. intros s l z zs. split; [|split; reflexivity]. unfold lightcone_files. cbn [get_filenames]. destruct (get_file_redshifts z (Scalar s)) as [[| |]|]; reflexivity. Qed.
Print Assumptions C92_lightcone_text_refuted.
Lemma all_some_iff : forall {A} (l : list (option A)) r, all_some l = Some r <-> l = map Some r.
Proof.
  intros A. induction l as [|[a|] l IH]; intro r; cbn [all_some].
  - split; [intro E; injection E as <-; reflexivity|destruct r; [reflexivity|discriminate]].
  - destruct (all_some l) as [t|] eqn:T; cbn [option_map].
    + split; [intro E; injection E as <-; cbn; f_equal; apply IH; reflexivity|]. destruct r as [|b r]; [discriminate|]. cbn. intro E. injection E as -> E. apply IH in E. congruence.
    + split; [discriminate|]. destruct r as [|b r]; [discriminate|]. cbn. intro E. injection E as -> E. apply IH in E. discriminate E.
  - split; [discriminate|]. destruct r; discriminate.
Qed.
(** Each name is paired with the redshift found in it; a name without a number gets redshift -1 and nothing is raised. *)
Theorem C92_lightcone_names : forall l out, lightcone_files (NamesList l) ZNone = Some out <->
  l <> [] /\ map fst out = l /\ forall n z, In (n, z) out -> determine_redshift n = Redshift z \/ (determine_redshift n = NoNumber /\ z = -1).
Proof.
  intros l out. unfold lightcone_files. cbn [get_filenames get_file_redshifts].
  assert (NZ : forall n z, name_z n = Some z <-> determine_redshift n = Redshift z \/ (determine_redshift n = NoNumber /\ z = -1)) by (intros n z; unfold name_z; destruct (determine_redshift n); split; intuition congruence).
  split.
  - destruct (all_some (map name_z l)) as [zs|] eqn:A; [|discriminate]. cbn [option_map]. destruct l as [|n l]; [discriminate|]. destruct (length zs =? length (n :: l))%nat eqn:Q; [|discriminate]. apply Nat.eqb_eq in Q. intro E. assert (E2 : out = combine (n :: l) zs) by congruence. rewrite E2. clear E E2. split; [discriminate|]. apply all_some_iff in A. revert Q A. generalize (n :: l). clear - NZ. intros l0. revert zs. rename l0 into k.
    induction k as [|m k IH]; intros [|z zs] Q A; cbn in Q, A; try discriminate; [split; [reflexivity|intros ? ? []]|]. injection A as A1 A2. destruct (IH zs ltac:(lia) A2) as [I1 I2]. cbn [combine map fst]. split; [f_equal; exact I1|]. intros n' z' [E|E]; [injection E as <- <-; apply NZ, A1|apply I2, E].
  - intros (N & E & H). assert (A : all_some (map name_z l) = Some (map snd out)). { apply all_some_iff. rewrite <- E, !map_map. apply map_ext_in. intros [n z] I. cbn. apply NZ, H, I. } rewrite A. cbn [option_map]. destruct l as [|n l]; [contradiction|]. rewrite <- E, !map_length, Nat.eqb_refl. destruct out as [|[m z] out]; [discriminate E|]. cbn [map fst]. f_equal. change (combine (map fst ((m, z) :: out)) (map snd ((m, z) :: out)) = (m, z) :: out). generalize ((m, z) :: out). clear. intro q. induction q as [|[a b] q IH]; [reflexivity|]. cbn [map fst snd combine]. f_equal. exact IH.
Qed.
Print Assumptions C92_lightcone_names.

(** With an array of redshifts the names are paired in order, and the lengths must agree. *)
Theorem C92_lightcone_array : forall l zs out, lightcone_files (NamesList l) (ZArray zs) = Some out <-> l <> [] /\ map fst out = l /\ map snd out = zs.
Proof.
  intros l zs out. unfold lightcone_files. cbn [get_filenames get_file_redshifts]. destruct l as [|n l]; [split; [discriminate|intros (H & _); contradiction]|]. destruct (length zs =? length (n :: l))%nat eqn:Q.
  - apply Nat.eqb_eq in Q.
    assert (G : forall (k : list str) (zs : list R), length zs = length k -> map fst (combine k zs) = k /\ map snd (combine k zs) = zs) by (clear; induction k as [|m k IH]; intros [|z zs] E; try discriminate E; [split; reflexivity|]; injection E as E; destruct (IH zs E) as [A B]; cbn [combine map fst snd]; split; congruence).
    assert (G2 : forall out : list (str * R), combine (map fst out) (map snd out) = out) by (clear; induction out as [|[a b] out IH]; [reflexivity|cbn [map fst snd combine]; f_equal; exact IH]).
    split; [intro E; assert (E2 : out = combine (n :: l) zs) by congruence; rewrite E2; split; [discriminate|apply G, Q]|]. intros (_ & A & B). rewrite <- A, <- B, G2. reflexivity.
  - split; [discriminate|]. intros (_ & A & B). apply Nat.eqb_neq in Q. exfalso. apply Q. rewrite <- A, <- B, !map_length. reflexivity.
Qed.
Print Assumptions C92_lightcone_array.

(** * A concrete case *)
Definition z702 : str := L "7.020".
Lemma z702_num : all_num z702.
Proof. intros c I. apply numeric_iff. repeat (destruct I as [<-|I]; [reflexivity|]). destruct I. Qed.
Lemma z702_float : float z702 = Some (IZR 7020 / 10 ^ 3).
Proof. unfold float. replace (existsb digit z702 && (length (filter dot z702) <=? 1)%nat) with true by (vm_compute; reflexivity). replace (decimal z702) with 7020%Z by (vm_compute; reflexivity). replace (length (tl (from dot z702))) with 3%nat by (vm_compute; reflexivity). reflexivity. Qed.
Example C92_sat : determine_redshift (at_dir (L "/data/v2") (L "xfrac3d_" ++ z702 ++ L ".bin")) = Redshift (IZR 7020 / 10 ^ 3) /\ determine_redshift (L "results.txt") = NoNumber /\ determine_redshift (L "run1.2.3.txt") = BadNumber /\
  determine_filetype (L "/n_all/xfrac3d_7.020.bin") = Xfrac /\ in_range [8; 6; 7] None None false = Some [6; 7; 8].
Proof.
  split; [apply (C92_xfrac_name (L "/data/v2") z702 _ z702_num z702_float)|]. split; [reflexivity|]. split; [reflexivity|]. split; [reflexivity|].
  destruct (C92_range [8; 6; 7] None None) as [A B]. destruct (in_range [8; 6; 7] None None false) as [out|] eqn:E; [|exfalso; destruct (proj1 A eq_refl) as [Q _]; discriminate Q]. f_equal. destruct (B out eq_refl) as [S P]. specialize (P (fun _ => true) (fun z _ => conj (fun _ => conj I I) (fun _ => eq_refl))). cbn [filter] in P.
  apply sorted_unique; [exact S|repeat constructor; lra|]. eapply Permutation_trans; [exact P|]. eapply Permutation_trans; [apply perm_swap|]. apply perm_skip, perm_swap.
Qed.
