(** C77: spherical-average size distribution. *)
From Coq Require Import List ZArith Reals Lra Lia Bool.
From Coq Require Import Logic.FinFun.
From Verif Require Import SpaModel.
Import ListNotations.
Local Open Scope R_scope.

(** * Specification *)
Definition increasing (l : list R) : Prop := forall i j, (i < j < length l)%nat -> nth i l 0 < nth j l 0.

Lemma linspace_nth : forall a b m i, (i < m)%nat -> nth i (linspace a b m) 0 = a + INR i * ((b - a) / (INR m - 1)).
Proof. intros a b m i H. unfold linspace. rewrite (nth_indep _ 0 (a + INR 0 * ((b - a) / (INR m - 1)))) by (rewrite map_length, seq_length; exact H). rewrite (map_nth (fun i => a + INR i * ((b - a) / (INR m - 1)))), seq_nth by exact H. reflexivity. Qed.
Lemma linspace_length : forall a b m, length (linspace a b m) = m.
Proof. intros. unfold linspace. rewrite map_length, seq_length. reflexivity. Qed.
Lemma linspace_increasing : forall a b m i j, a < b -> (i < j < m)%nat -> nth i (linspace a b m) 0 < nth j (linspace a b m) 0.
Proof.
  intros a b m i j H [Hij Hj]. rewrite !linspace_nth by lia. apply lt_INR in Hij as L. assert (1 < INR m) by (apply (lt_INR 1); lia). assert (0 < (b - a) / (INR m - 1)) by (apply Rdiv_lt_0_compat; lra). nra.
Qed.
(** The scales run from 1 (or 2) to half the box and increase when the box has more than 2 (or 4) cells. *)
Theorem C77_scales : forall (linear : bool) Rmx m, (2 <= m)%nat -> (Rmx > (if linear then 2 else 4))%nat ->
  length (scales linear Rmx m) = m /\ increasing (scales linear Rmx m) /\ nth 0 (scales linear Rmx m) 0 = (if linear then 1 else 2) /\ nth (m - 1) (scales linear Rmx m) 0 = INR Rmx / 2.
Proof.
  intros linear Rmx m Hm HR. assert (1 < INR m) by (apply (lt_INR 1); lia).
  assert (LL : length (scales linear Rmx m) = m) by (unfold scales; destruct linear; rewrite ?map_length; apply linspace_length). split; [exact LL|]. unfold increasing. rewrite LL. unfold scales. destruct linear.
  - assert (INR 2 < INR Rmx) by (apply lt_INR; lia). change (INR 2) with 2 in *. split; [intros i j Hij; apply linspace_increasing; [lra|lia]|]. rewrite !linspace_nth by lia. split; [cbn; ring|]. rewrite minus_INR by lia. change (INR 1) with 1. field. lra.
  - assert (INR 4 < INR Rmx) by (apply lt_INR; lia). replace (INR 4) with 4 in * by (cbn; ring). assert (LN : ln 2 < ln (INR Rmx / 2)) by (apply ln_increasing; lra).
    assert (E : forall i, (i < m)%nat -> nth i (map exp (linspace (ln 2) (ln (INR Rmx / 2)) m)) 0 = exp (nth i (linspace (ln 2) (ln (INR Rmx / 2)) m) 0)).
    { intros i Hi. rewrite (nth_indep _ 0 (exp 0)) by (rewrite map_length, linspace_length; exact Hi). apply map_nth. }
    split; [intros i j Hij; rewrite !E by lia; apply exp_increasing, linspace_increasing; [exact LN|lia]|]. rewrite !E by lia. rewrite !linspace_nth by lia. split.
    + change (INR 0) with 0. rewrite Rmult_0_l, Rplus_0_r. apply exp_ln. lra.
    + rewrite minus_INR by lia. change (INR 1) with 1. replace (ln 2 + (INR m - 1) * ((ln (INR Rmx / 2) - ln 2) / (INR m - 1))) with (ln (INR Rmx / 2)) by (field; lra). apply exp_ln. lra.
Qed.
Print Assumptions C77_scales.
Example C77_scales_sat : exists (linear : bool) (Rmx : nat) (m : nat), (2 <= m)%nat /\ (Rmx > (if linear then 2 else 4))%nat.
Proof. exists true, 10%nat, 5%nat. split; lia. Qed.
(** A box of four cells: all logarithmic scales coincide. *)
Theorem C77_scales_refuted : forall m v, In v (scales false 4 m) -> v = 2.
Proof.
  intros m v H. unfold scales in H. apply in_map_iff in H. destruct H as (u & <- & H). unfold linspace in H. apply in_map_iff in H. destruct H as (i & <- & _). replace (INR 4 / 2) with 2 by (cbn; field). replace (ln 2 - ln 2) with 0 by ring. unfold Rdiv. rewrite Rmult_0_l, Rmult_0_r, Rplus_0_r. apply exp_ln. lra.
Qed.
Print Assumptions C77_scales_refuted.
Example C77_scales_refuted_sat : exists (m : nat) (v : R), In v (scales false 4 m).
Proof. eexists 1%nat, _. left. reflexivity. Qed.

(** * Sizes of cells *)
Lemma rad_app : forall xth sm l r, rad xth sm (l ++ [r]) = if Rle_dec xth (sm r) then r else rad xth sm l.
Proof. intros. unfold rad. rewrite fold_left_app. reflexivity. Qed.
Lemma increasing_last : forall l r, increasing (l ++ [r]) -> increasing l /\ forall v, In v l -> v < r.
Proof.
  intros l r H. split.
  - intros i j Hij. specialize (H i j). rewrite app_length in H. cbn in H. rewrite !app_nth1 in H by lia. apply H. lia.
  - intros v Hv. destruct (In_nth l v 0 Hv) as (i & Hi & E). specialize (H i (length l)). rewrite app_length in H. cbn in H. rewrite app_nth1, app_nth2, Nat.sub_diag in H by lia. cbn in H. rewrite E in H. apply H. lia.
Qed.
Lemma rad_spec : forall xth sm rs, increasing rs ->
  (exists r, In r rs /\ xth <= sm r /\ rad xth sm rs = r /\ forall r', In r' rs -> xth <= sm r' -> r' <= r) \/ (rad xth sm rs = 0 /\ forall r', In r' rs -> sm r' < xth).
Proof.
  intros xth sm rs. induction rs as [|r l IH] using rev_ind; intro H; [right; split; [reflexivity|intros r []]|].
  apply increasing_last in H. destruct H as [H L]. rewrite rad_app. destruct (Rle_dec xth (sm r)) as [Q|Q].
  - left. exists r. split; [apply in_or_app; right; left; reflexivity|]. split; [exact Q|]. split; [reflexivity|]. intros r' I _. apply in_app_or in I. destruct I as [I|[-> |[]]]; [left; apply L, I|lra].
  - destruct (IH H) as [(s & I & Qs & E & M) | (E & M)]; [left; exists s; split; [apply in_or_app; left; exact I|]; split; [exact Qs|]; split; [exact E|]|right; split; [exact E|]].
    + intros r' I' Q'. apply in_app_or in I'. destruct I' as [I'|[-> |[]]]; [apply M; assumption|contradiction].
    + intros r' I'. apply in_app_or in I'. destruct I' as [I'|[-> |[]]]; [apply M, I'|lra].
Qed.
(** Every cell is given the largest scale at which the average around it reaches the threshold, 0 if there is none. *)
Theorem C77_largest : forall xth sm rs r, increasing rs -> (forall v, In v rs -> 0 < v) ->
  (0 < r -> (rad xth sm rs = r <-> In r rs /\ xth <= sm r /\ forall r', In r' rs -> xth <= sm r' -> r' <= r)) /\
  (rad xth sm rs = 0 <-> forall r', In r' rs -> sm r' < xth).
Proof.
  intros xth sm rs r H P. destruct (rad_spec xth sm rs H) as [(s & I & Q & E & M) | (E & M)]; rewrite E.
  - split.
    + intros _. split; [intros <-; auto|]. intros (Ir & Qr & Mr). specialize (M r Ir Qr). specialize (Mr s I Q). lra.
    + split; [intro Z; specialize (P s I); lra|]. intro K. specialize (K s I). lra.
  - split.
    + intro Hr. split; [intros <-; lra|]. intros (Ir & Qr & _). specialize (M r Ir). lra.
    + split; [intros _; exact M|reflexivity].
Qed.
Print Assumptions C77_largest.
Example C77_largest_sat : exists (rs : list R), increasing rs /\ (forall v, In v rs -> 0 < v).
Proof. exists [1; 2; 3]. split; [intros i j H; cbn in H; destruct i as [|[|[|i]]], j as [|[|[|j]]]; try lia; cbn; lra|intros v H; cbn in H; intuition lra]. Qed.
(** More ionisation never shrinks a cell's size. *)
Lemma total_le : forall {A} (l : list A) f g, (forall v, In v l -> f v <= g v) -> total (map f l) <= total (map g l).
Proof. intros A l f g H. induction l as [|v r IH]; cbn [map total fold_right]; [lra|]. specialize (IH (fun w Hw => H w (or_intror Hw))). specialize (H v (or_introl eq_refl)). unfold total in IH. lra. Qed.
Lemma INR_nonneg : forall n, 0 <= INR n. Proof. intro n. apply pos_INR. Qed.
Lemma div_le : forall a b n, 0 <= n -> a <= b -> a / n <= b / n.
Proof. intros a b n Hn H. unfold Rdiv. destruct Hn as [Hn|<-]; [apply Rmult_le_compat_r; [left; apply Rinv_0_lt_compat, Hn|exact H]|]. rewrite Rinv_0. lra. Qed.
Lemma smooth_le : forall n d d' ra i j k, (forall a b c, d a b c <= d' a b c) -> smooth n d ra i j k <= smooth n d' ra i j k.
Proof. intros n d d' ra i j k H. unfold smooth, convolved. cbv zeta. apply div_le; [apply INR_nonneg|]. apply total_le. intros [[a b] e] _. unfold padded. destruct (_ && _)%bool; [apply H|lra]. Qed.
Theorem C77_monotone : forall n d d' xth rs i j k, increasing rs -> (forall v, In v rs -> 0 < v) -> (forall a b c, d a b c <= d' a b c) ->
  rad xth (fun ra => smooth n d ra i j k) rs <= rad xth (fun ra => smooth n d' ra i j k) rs.
Proof.
  intros n d d' xth rs i j k H P D. destruct (rad_spec xth (fun ra => smooth n d ra i j k) rs H) as [(s & I & Q & E & _) | (E & _)]; rewrite E.
  - destruct (rad_spec xth (fun ra => smooth n d' ra i j k) rs H) as [(s' & _ & _ & E' & M') | (_ & M')].
    + rewrite E'. apply M'; [exact I|]. eapply Rle_trans; [exact Q|apply smooth_le, D].
    + specialize (M' s I). pose proof (smooth_le n d d' s i j k D). cbv beta in *. lra.
  - destruct (rad_spec xth (fun ra => smooth n d' ra i j k) rs H) as [(s' & I' & _ & E' & _) | (E' & _)]; rewrite E'; [left; apply P, I'|lra].
Qed.
Print Assumptions C77_monotone.
Example C77_monotone_sat : exists (d : Z -> Z -> Z -> R) (d' : Z -> Z -> Z -> R) (rs : list R), increasing rs /\ ((forall v, In v rs -> 0 < v)) /\ (forall a b c, d a b c <= d' a b c).
Proof. exists (fun _ _ _ => 0), (fun a _ _ => Rabs (IZR a)), [1; 2; 3]. split; [intros i j H; cbn in H; destruct i as [|[|[|i]]], j as [|[|[|j]]]; try lia; cbn; lra|]. split; [intros v H; cbn in H; intuition lra|]. intros a b c. apply Rabs_pos. Qed.

(** * Distribution *)
Definition sized (l : list R) (rs : list R) : nat := length (filter (fun w => existsb (fun r => if Req_EM_T w r then true else false) rs) l).
Lemma count_sum : forall l rs, NoDup rs -> total (map (fun r => INR (count_eq l r)) rs) = INR (sized l rs).
Proof.
  intros l rs N. induction l as [|w l IH].
  - unfold count_eq, sized. cbn [filter length]. clear N. induction rs as [|r rs IH]; [reflexivity|]. cbn [map total fold_right] in *. unfold total in IH. rewrite IH. cbn. ring.
  - assert (A : total (map (fun r => INR (count_eq (w :: l) r)) rs) = total (map (fun r => if Req_EM_T w r then 1 else 0) rs) + total (map (fun r => INR (count_eq l r)) rs)).
    { clear. induction rs as [|r rs IH]; [cbn; ring|]. cbn [map total fold_right] in *. unfold total in IH. rewrite IH. unfold count_eq at 1. cbn [filter]. destruct (Req_EM_T w r); cbn [length]; [rewrite S_INR|]; unfold count_eq; ring. }
    rewrite A, IH. unfold sized at 2. cbn [filter].
    assert (B : total (map (fun r => if Req_EM_T w r then 1 else 0) rs) = if existsb (fun r => if Req_EM_T w r then true else false) rs then 1 else 0).
    { clear - N. induction rs as [|r rs IH]; [reflexivity|]. inversion N as [|? ? N1 N2]; subst. cbn [map total fold_right existsb]. specialize (IH N2). unfold total in IH. rewrite IH. destruct (Req_EM_T w r) as [E|E]; cbn [orb]; [|ring].
      subst w. destruct (existsb _ rs) eqn:X; [|ring]. exfalso. apply existsb_exists in X. destruct X as (u & Iu & Eu). destruct (Req_EM_T r u); [subst; contradiction|discriminate]. }
    rewrite B. destruct (existsb _ rs); cbn [length]; [rewrite S_INR|]; unfold sized; ring.
Qed.
Lemma increasing_NoDup : forall l, increasing l -> NoDup l.
Proof. intros l H. apply (proj2 (NoDup_nth l 0)). intros i j Hi Hj E. destruct (Nat.lt_trichotomy i j) as [L|[L|L]]; [specialize (H i j (conj L Hj)); lra|exact L|specialize (H j i (conj L Hi)); lra]. Qed.
(** Counts add up to the cells that reach the threshold at some scale; the returned distribution is nonnegative and sums to one, and exists iff some cell has a size. *)
Theorem C77_counts : forall n d xth rs, increasing rs -> (forall v, In v rs -> 0 < v) ->
  total (counts n d xth rs) = INR (length (filter (fun p => let '(i, j, k) := p in existsb (fun r => if Rle_dec xth (smooth n d r i j k) then true else false) rs) (cells n))).
Proof.
  intros n d xth rs H P. unfold counts. rewrite count_sum by (apply increasing_NoDup, H). f_equal. unfold sized, rad_field.
  induction (cells n) as [|[[i j] k] l IH]; [reflexivity|]. cbn [map filter].
  assert (E : existsb (fun r => if Req_EM_T (rad xth (fun ra => smooth n d ra i j k) rs) r then true else false) rs = existsb (fun r => if Rle_dec xth (smooth n d r i j k) then true else false) rs).
  { destruct (rad_spec xth (fun ra => smooth n d ra i j k) rs H) as [(s & I & Q & E & _) | (E & M)]; rewrite E.
    - transitivity true; [|symmetry]; apply existsb_exists; exists s; (split; [exact I|]); [destruct (Req_EM_T s s); [reflexivity|congruence]|]. destruct (Rle_dec xth (smooth n d s i j k)); [reflexivity|contradiction].
    - transitivity false; [|symmetry]; (match goal with |- existsb ?f rs = false => destruct (existsb f rs) eqn:X end; [|reflexivity]); apply existsb_exists in X; destruct X as (u & Iu & Eu); exfalso.
      + destruct (Req_EM_T 0 u); [specialize (P u Iu); lra|discriminate].
      + specialize (M u Iu). cbv beta in M. destruct (Rle_dec xth (smooth n d u i j k)); [lra|discriminate]. }
  rewrite E. destruct (existsb (fun r => if Rle_dec xth (smooth n d r i j k) then true else false) rs); cbn [length]; rewrite IH; reflexivity.
Qed.
Print Assumptions C77_counts.
Example C77_counts_sat : exists (rs : list R), increasing rs /\ (forall v, In v rs -> 0 < v).
Proof. exists [1; 2; 3]. split; [intros i j H; cbn in H; destruct i as [|[|[|i]]], j as [|[|[|j]]]; try lia; cbn; lra|intros v H; cbn in H; intuition lra]. Qed.
Lemma total_scale : forall l c, total (map (fun v => v / c) l) = total l / c.
Proof. intros l c. induction l as [|v r IH]; cbn [map total fold_right] in *; [unfold Rdiv; ring|]. unfold total in *. rewrite IH. unfold Rdiv. ring. Qed.
Theorem C77_distribution : forall n d xth box m upper linear rs ps, spa n d xth box m upper linear = Some (rs, ps) ->
  length rs = m /\ length ps = m /\ total ps = 1 /\ forall v, In v ps -> 0 <= v <= 1.
Proof.
  intros n d xth box m upper linear rs ps H. unfold spa in H. cbv zeta in H. set (sc := scales linear (Z.to_nat n) m) in *. set (ni := counts n _ _ sc) in *. destruct (Req_EM_T (total ni) 0) as [|N]; [discriminate|]. injection H as <- <-.
  assert (LS : length sc = m) by (unfold sc, scales; destruct linear; rewrite ?map_length; apply linspace_length). assert (LN : length ni = m) by (unfold ni, counts; rewrite map_length; exact LS).
  rewrite !map_length. split; [exact LS|]. split; [exact LN|]. split; [rewrite total_scale; field; exact N|].
  assert (NN : forall v, In v ni -> 0 <= v) by (intros v Hv; unfold ni, counts in Hv; apply in_map_iff in Hv; destruct Hv as (r & <- & _); apply INR_nonneg).
  assert (LE : forall v, In v ni -> v <= total ni). { clear - NN. induction ni as [|w l IH]; intros v Hv; [destruct Hv|]. cbn [total fold_right]. assert (0 <= total l) by (assert (G : forall u, In u l -> 0 <= u) by (intros; apply NN; right; assumption); clear - G; induction l as [|u l IH]; cbn [total fold_right]; [lra|]; pose proof (G u (or_introl eq_refl)); specialize (IH (fun x Hx => G x (or_intror Hx))); unfold total in IH; lra). pose proof (NN w (or_introl eq_refl)). destruct Hv as [-> |Hv]; [unfold total in *; lra|]. specialize (IH (fun u Hu => NN u (or_intror Hu)) v Hv). unfold total in *. lra. }
  assert (T : 0 < total ni). { assert (0 <= total ni); [|lra]. destruct ni as [|w l] eqn:En; [cbn; lra|]. eapply Rle_trans; [apply (NN w); left; reflexivity|apply LE; left; reflexivity]. }
  intros v Hv. apply in_map_iff in Hv. destruct Hv as (u & <- & Hu). specialize (NN u Hu). specialize (LE u Hu). split; [apply Rmult_le_pos; [exact NN|left; apply Rinv_0_lt_compat, T]|]. apply (Rmult_le_reg_r (total ni)); [exact T|]. unfold Rdiv. rewrite Rmult_assoc, Rinv_l by lra. lra.
Qed.
Print Assumptions C77_distribution.

(** [upper_lim] asks for averages at most the threshold. *)
Theorem C77_upper : forall n d xth ra i j k, -1 * xth <= smooth n (fun a b c => -1 * d a b c) ra i j k <-> smooth n d ra i j k <= xth.
Proof.
  intros n d xth ra i j k. assert (E : smooth n (fun a b c => -1 * d a b c) ra i j k = - smooth n d ra i j k).
  { unfold smooth, convolved. cbv zeta. set (l := ball (ball_points ra)). set (c := ((ball_points ra - 1) / 2)%Z). generalize (INR (length l)). intro q. clearbody l. unfold Rdiv. rewrite <- Ropp_mult_distr_l_reverse. f_equal.
    induction l as [|[[a b] e] l IH]; cbn [map total fold_right] in *; [ring|]. unfold total in *. rewrite IH. unfold padded. destruct (_ && _)%bool; ring. }
  rewrite E. lra.
Qed.
Print Assumptions C77_upper.
(** The published numbers: per scale, the share of the cells whose size is that scale. The size of a cell is the largest scale whose average
    reaches the threshold, from below or, with [upper_lim], from above. *)
Definition reaches (upper : bool) (xth v : R) : Prop := if upper then v <= xth else xth <= v.
Definition has_size (upper : bool) (n : Z) (d : cube) (xth : R) (rs : list R) (cell : Z * Z * Z) (r : R) : Prop :=
  let '(i, j, k) := cell in In r rs /\ reaches upper xth (smooth n d r i j k) /\ forall r', In r' rs -> reaches upper xth (smooth n d r' i j k) -> r' <= r.
Lemma zseq_in : forall n v, In v (zseq n) <-> (0 <= v < n)%Z.
Proof. intros n v. unfold zseq. rewrite in_map_iff. split; [intros (m & <- & H); apply in_seq in H; lia|]. intro H. exists (Z.to_nat v). split; [lia|]. apply in_seq. lia. Qed.
Lemma zseq_NoDup : forall n, NoDup (zseq n).
Proof. intro n. unfold zseq. apply Injective_map_NoDup; [intros a b; lia|apply seq_NoDup]. Qed.
Lemma NoDup_app_intro : forall {T} (l1 l2 : list T), NoDup l1 -> NoDup l2 -> (forall x, In x l1 -> ~ In x l2) -> NoDup (l1 ++ l2).
Proof. intros T l1 l2 H1 H2 D. induction H1 as [|x l N H IH]; [exact H2|]. cbn. constructor; [|apply IH; intros y Hy; apply D; right; exact Hy]. intro I. apply in_app_or in I. destruct I as [I|I]; [contradiction|]. apply (D x); [left; reflexivity|exact I]. Qed.
Lemma NoDup_prod : forall {A B} (l : list A) (m : list B), NoDup l -> NoDup m -> NoDup (list_prod l m).
Proof.
  intros A B l m Hl Hm. induction Hl as [|x l N Hl IH]; [constructor|]. cbn [list_prod]. apply NoDup_app_intro; [apply Injective_map_NoDup; [intros a b E; congruence|exact Hm]|exact IH|].
  intros [a b] I1 I2. apply in_map_iff in I1. destruct I1 as (u & E & _). injection E as <- <-. apply in_prod_iff in I2. apply N, I2.
Qed.

Lemma triples_in : forall n a b c, In (a, b, c) (triples (zseq n)) <-> (0 <= a < n /\ 0 <= b < n /\ 0 <= c < n)%Z.
Proof. intros n a b c. unfold triples. rewrite !in_prod_iff, !zseq_in. tauto. Qed.
Lemma count_filter : forall {A} (f : A -> R) (P : A -> Prop) l v, (forall a, In a l -> (f a = v <-> P a)) -> exists sel, count_eq (map f l) v = length sel /\ incl sel l /\ (forall a, In a l -> (In a sel <-> P a)) /\ (NoDup l -> NoDup sel).
Proof.
  intros A f P l v H. exists (filter (fun a => if Req_EM_T (f a) v then true else false) l). split; [|split; [|split]].
  - unfold count_eq. clear H. induction l as [|a l IH]; [reflexivity|]. cbn [map filter]. destruct (Req_EM_T (f a) v); cbn [length]; rewrite IH; reflexivity.
  - intros a I. apply filter_In in I. tauto.
  - intros a I. rewrite filter_In. specialize (H a I). destruct (Req_EM_T (f a) v); split; intuition discriminate.
  - intro. apply NoDup_filter. assumption.
Qed.
Theorem C77_shares : forall n d xth box m (upper linear : bool) rs ps, (2 <= m)%nat -> (Z.to_nat n > (if linear then 2 else 4))%nat -> spa n d xth box m upper linear = Some (rs, ps) ->
  rs = map (fun r => r * box / IZR n) (scales linear (Z.to_nat n) m) /\ exists sized, 0 < sized /\ forall s r, nth_error (scales linear (Z.to_nat n) m) s = Some r ->
    exists sel, nth_error ps s = Some (INR (length sel) / sized) /\ NoDup sel /\ forall i j k, In (i, j, k) sel <-> (0 <= i < n)%Z /\ (0 <= j < n)%Z /\ (0 <= k < n)%Z /\ has_size upper n d xth (scales linear (Z.to_nat n) m) (i, j, k) r.
Proof.
  intros n d xth box m upper linear rs ps Hm Hn H. pose proof (C77_distribution _ _ _ _ _ _ _ _ _ H) as (_ & _ & T1 & _). destruct (C77_scales linear (Z.to_nat n) m Hm Hn) as (LEN & INC & S0 & _). unfold spa in H. cbv zeta in H. set (sc := scales linear (Z.to_nat n) m) in *.
  assert (POS : forall v, In v sc -> 0 < v). { intros v I. apply In_nth with (d := 0) in I. destruct I as (t & Ht & <-). destruct t as [|t]; [rewrite S0; destruct linear; lra|]. assert (nth 0 sc 0 < nth (S t) sc 0) by (apply INC; lia). rewrite S0 in *. destruct linear; lra. }
  destruct (Req_EM_T _ 0) as [|N] in H; [discriminate|]. injection H as <- <-. split; [reflexivity|]. set (d' := if upper then (fun i j k : Z => -1 * d i j k) else d) in *. set (x' := if upper then -1 * xth else xth) in *. set (ni := counts n d' x' sc) in *.
  assert (NN : 0 <= total ni). { assert (G : forall v, In v ni -> 0 <= v) by (intros v Hv; unfold ni, counts in Hv; apply in_map_iff in Hv; destruct Hv as (r & <- & _); apply INR_nonneg). clear - G. induction ni as [|u l IH]; cbn [total fold_right]; [lra|]. pose proof (G u (or_introl eq_refl)). specialize (IH (fun x Hx => G x (or_intror Hx))). unfold total in IH. lra. }
  exists (total ni). split; [lra|]. intros s r E. assert (Ir : In r sc) by (eapply nth_error_In; exact E).
  assert (Q : forall ra i j k, x' <= smooth n d' ra i j k <-> reaches upper xth (smooth n d ra i j k)) by (intros; unfold x', d', reaches; destruct upper; [apply C77_upper|reflexivity]).
  destruct (count_filter (fun p => let '(i, j, k) := p in rad x' (fun ra => smooth n d' ra i j k) sc) (fun p => has_size upper n d xth sc p r) (cells n) r) as (sel & C1 & C2 & C3 & C4).
  { intros [[i j] k] _. destruct (C77_largest x' (fun ra => smooth n d' ra i j k) sc r INC POS) as [L _]. specialize (L (POS r Ir)). rewrite L. unfold has_size. rewrite Q. split; intros (A & B & C); (split; [exact A|split; [exact B|]]); intros r' I' V; apply C; try assumption; apply Q; assumption. }
  exists sel. split; [|split; [apply C4; unfold cells, triples; repeat apply NoDup_prod; apply zseq_NoDup|]]; [|intros i j k; split].
  2: { intro I. pose proof (C2 _ I) as I'. apply C3 in I; [|exact I']. apply triples_in in I'. tauto. }
  2: { intros (A1 & A2 & A3 & A4). apply C3; [apply triples_in; tauto|exact A4]. }
  rewrite nth_error_map. assert (E2 : nth_error ni s = Some (INR (length sel))) by (unfold ni, counts; rewrite nth_error_map, E; cbn [option_map]; unfold rad_field; rewrite C1; reflexivity). rewrite E2. reflexivity.
Qed.
Print Assumptions C77_shares.

(** * Near the edge of the box *)
Lemma ball_in : forall N a b c, In (a, b, c) (ball N) <-> (0 <= a < N /\ 0 <= b < N /\ 0 <= c < N /\ (2 * a - (N - 1)) * (2 * a - (N - 1)) + (2 * b - (N - 1)) * (2 * b - (N - 1)) + (2 * c - (N - 1)) * (2 * c - (N - 1)) <= (N - 1) * (N - 1))%Z.
Proof. intros N a b c. unfold ball. rewrite filter_In, triples_in. unfold in_ball. rewrite Z.leb_le. tauto. Qed.
Lemma ball_NoDup : forall N, NoDup (ball N).
Proof. intro N. unfold ball, triples. apply NoDup_filter, NoDup_prod; [apply NoDup_prod|]; apply zseq_NoDup. Qed.
Definition forward (c : Z) (t : Z * Z * Z) : bool := let '(a, b, e) := t in ((a <=? c) && (b <=? c) && (e <=? c))%Z%bool.
Definition centre_eqb (c : Z) (t : Z * Z * Z) : bool := let '(a, b, e) := t in ((a =? c) && (b =? c) && (e =? c))%Z%bool.
Definition reflect (N : Z) (t : Z * Z * Z) : Z * Z * Z := let '(a, b, e) := t in (N - 1 - a, N - 1 - b, N - 1 - e)%Z.
Lemma filter_split : forall {A} (f : A -> bool) l, (length (filter f l) + length (filter (fun x => negb (f x)) l) = length l)%nat.
Proof. intros A f l. induction l as [|x r IH]; [reflexivity|]. cbn. destruct (f x); cbn; lia. Qed.
Lemma forward_half : forall N, (1 <= N)%Z -> (2 * length (filter (forward ((N - 1) / 2)) (ball N)) <= length (ball N) + 1)%nat.
Proof.
  intros N HN. set (c := ((N - 1) / 2)%Z). assert (Hc : (2 * c <= N - 1 < 2 * c + 2)%Z) by (unfold c; Z.div_mod_to_equations; lia). set (P := filter (forward c) (ball N)).
  assert (A : (length (filter (fun t => negb (centre_eqb c t)) P) <= length (filter (fun t => negb (forward c t)) (ball N)))%nat).
  { rewrite <- (map_length (reflect N)). apply NoDup_incl_length.
    - apply Injective_map_NoDup; [intros [[a b] e] [[a' b'] e'] E; unfold reflect in E; injection E as E1 E2 E3; f_equal; [f_equal|]; lia|]. apply NoDup_filter, NoDup_filter, ball_NoDup.
    - intros t It. apply in_map_iff in It. destruct It as ([[a b] e] & <- & I). apply filter_In in I. destruct I as [I C]. apply filter_In in I. destruct I as [I F]. apply ball_in in I. unfold forward in F. unfold centre_eqb in C. apply negb_true_iff in C.
      apply filter_In. split.
      + unfold reflect. apply ball_in. destruct I as (Ia & Ib & Ie & D). replace (2 * (N - 1 - a) - (N - 1))%Z with (- (2 * a - (N - 1)))%Z by ring. replace (2 * (N - 1 - b) - (N - 1))%Z with (- (2 * b - (N - 1)))%Z by ring. replace (2 * (N - 1 - e) - (N - 1))%Z with (- (2 * e - (N - 1)))%Z by ring. rewrite !Z.mul_opp_opp. lia.
      + unfold reflect, forward. apply negb_true_iff. apply andb_true_iff in F. destruct F as [F F3]. apply andb_true_iff in F. destruct F as [F1 F2]. apply Z.leb_le in F1. apply Z.leb_le in F2. apply Z.leb_le in F3.
        destruct (Z.leb_spec (N - 1 - a) c); destruct (Z.leb_spec (N - 1 - b) c); destruct (Z.leb_spec (N - 1 - e) c); try reflexivity. exfalso.
        assert (a = c /\ b = c /\ e = c)%Z by lia. destruct H2 as (-> & -> & ->). rewrite !Z.eqb_refl in C. discriminate. }
  assert (B : (length (filter (centre_eqb c) P) <= 1)%nat).
  { assert (I : incl (filter (centre_eqb c) P) [(c, c, c)]). { intros [[a b] e] I. apply filter_In in I. destruct I as [_ C]. unfold centre_eqb in C. apply andb_true_iff in C. destruct C as [C C3]. apply andb_true_iff in C. destruct C as [C1 C2]. apply Z.eqb_eq in C1. apply Z.eqb_eq in C2. apply Z.eqb_eq in C3. subst. left. reflexivity. }
    apply (NoDup_incl_length (NoDup_filter _ (NoDup_filter _ (ball_NoDup N))) I). }
  pose proof (filter_split (centre_eqb c) P). pose proof (filter_split (forward c) (ball N)). fold P in H0. lia.
Qed.
Lemma ball_two : forall N, (3 <= N)%Z -> (2 <= length (ball N))%nat.
Proof.
  intros N HN. set (c := ((N - 1) / 2)%Z). assert (Hc : (2 * c <= N - 1 < 2 * c + 2)%Z) by (unfold c; Z.div_mod_to_equations; lia).
  assert (I : incl [(c, c, c); (c, c, c + 1)%Z] (ball N)).
  { assert (D : (N - 1 = 2 * c \/ N - 1 = 2 * c + 1)%Z) by lia. intros t [<-|[<-|[]]]; apply ball_in; (split; [lia|split; [lia|split; [lia|]]]); destruct D as [-> | ->]; nia. }
  assert (NoDup [(c, c, c); (c, c, (c + 1)%Z)]). { constructor; [intros [E|[]]; injection E; lia|constructor; [intros []|constructor]]. }
  apply (NoDup_incl_length H I).
Qed.
(** The box is not periodic: in a completely ionised box the average around the corner cell is at most 3/4 at every scale, so with the default threshold it gets no size at all. *)
Theorem C77_corner_refuted : forall n xth rs, (1 <= n)%Z -> 3 / 4 < xth -> (forall r, In r rs -> 1 <= r) ->
  (forall r, 1 <= r -> smooth n (fun _ _ _ => 1) r 0 0 0 <= 3 / 4) /\ rad xth (fun ra => smooth n (fun _ _ _ => 1) ra 0 0 0) rs = 0.
Proof.
  intros n xth rs Hn Hx Hr. assert (A : forall r, 1 <= r -> smooth n (fun _ _ _ => 1) r 0 0 0 <= 3 / 4).
  { intros r H1. unfold smooth, convolved. cbv zeta. set (N := ball_points r). assert (HN : (3 <= N)%Z).
    { unfold N, ball_points. destruct (base_Int_part (2 * r + 1)) as [_ B]. assert (2 < Int_part (2 * r + 1))%Z; [|lia]. apply lt_IZR. lra. }
    pose proof (forward_half N ltac:(lia)) as F. pose proof (ball_two N HN) as T. set (c := ((N - 1) / 2)%Z) in *.
    assert (S : total (map (fun t => let '(a, b, e) := t in padded n (fun _ _ _ => 1) (0 + c - a)%Z (0 + c - b)%Z (0 + c - e)%Z) (ball N)) <= INR (length (filter (forward c) (ball N)))).
    { assert (Q : forall a b e, padded n (fun _ _ _ => 1) (0 + c - a)%Z (0 + c - b)%Z (0 + c - e)%Z <= if forward c (a, b, e) then 1 else 0).
      { intros a b e. unfold padded. match goal with |- context [if ?b then 1 else 0] => destruct b eqn:C end; [|destruct (forward c (a, b, e)); lra].
        repeat (apply andb_true_iff in C; destruct C as [C ?]). repeat match goal with H : (_ <=? _)%Z = true |- _ => apply Z.leb_le in H end. assert (FT : forward c (a, b, e) = true) by (unfold forward; rewrite !andb_true_iff, !Z.leb_le; lia). rewrite FT. lra. }
      clear - Q. induction (ball N) as [|[[a b] e] l IH]; [cbn; lra|]. cbn [map total fold_right filter]. unfold total in IH. specialize (Q a b e). destruct (forward c (a, b, e)); cbn [length]; rewrite ?S_INR; lra. }
    apply le_INR in F. rewrite mult_INR, plus_INR in F. change (INR 2) with 2 in F. change (INR 1) with 1 in F. apply le_INR in T. change (INR 2) with 2 in T.
    apply (Rmult_le_reg_r (INR (length (ball N)))); [lra|]. unfold Rdiv at 1. rewrite Rmult_assoc, Rinv_l by lra. lra. }
  split; [exact A|]. assert (B : forall l acc, (forall r, In r l -> 1 <= r) -> fold_left (fun acc ra => if Rle_dec xth (smooth n (fun _ _ _ => 1) ra 0 0 0) then ra else acc) l acc = acc).
  { intros l. induction l as [|r l IH]; intros acc H; [reflexivity|]. cbn [fold_left]. pose proof (A r (H r (or_introl eq_refl))). destruct (Rle_dec xth (smooth n (fun _ _ _ => 1) r 0 0 0)); [lra|]. apply IH. intros u Hu. apply H. right. exact Hu. }
  apply B, Hr.
Qed.
Print Assumptions C77_corner_refuted.
Example C77_corner_refuted_sat : exists (n : Z) (xth : R) (rs : list R), (1 <= n)%Z /\ 3 / 4 < xth /\ (forall r, In r rs -> 1 <= r).
Proof. exists 8%Z, (9/10), [1; 2; 3]. split; [lia|]. split; [lra|]. intros v H; cbn in H; intuition lra. Qed.
(** Away from the edges a completely ionised box averages to one. *)
Theorem C77_interior : forall n ra i j k, 1 <= ra -> let N := ball_points ra in (N <= i < n - N)%Z -> (N <= j < n - N)%Z -> (N <= k < n - N)%Z -> smooth n (fun _ _ _ => 1) ra i j k = 1.
Proof.
  intros n ra i j k H1 N Hi Hj Hk. unfold smooth, convolved. cbv zeta. fold N. assert (HN : (3 <= N)%Z).
  { unfold N, ball_points. destruct (base_Int_part (2 * ra + 1)) as [_ B]. assert (2 < Int_part (2 * ra + 1))%Z; [|lia]. apply lt_IZR. lra. }
  pose proof (ball_two N HN) as T. assert (Hc : (2 * ((N - 1) / 2) <= N - 1 < 2 * ((N - 1) / 2) + 2)%Z) by (Z.div_mod_to_equations; lia). set (c := ((N - 1) / 2)%Z) in *.
  assert (S : total (map (fun t => let '(a, b, e) := t in padded n (fun _ _ _ => 1) (i + c - a)%Z (j + c - b)%Z (k + c - e)%Z) (ball N)) = INR (length (ball N))).
  { assert (G : forall t, In t (ball N) -> let '(a, b, e) := t in (0 <= a < N /\ 0 <= b < N /\ 0 <= e < N)%Z) by (intros [[a b] e] I; apply ball_in in I; tauto).
    induction (ball N) as [|[[a b] e] l IH]; [reflexivity|]. assert (G' : forall t, In t l -> let '(a, b, e) := t in (0 <= a < N /\ 0 <= b < N /\ 0 <= e < N)%Z) by (intros t It; apply G; right; exact It).
    specialize (G (a, b, e) (or_introl eq_refl)). cbn in G. cbn [map total fold_right length]. rewrite S_INR. assert (IH' : total (map (fun t => let '(a, b, e) := t in padded n (fun _ _ _ => 1) (i + c - a)%Z (j + c - b)%Z (k + c - e)%Z) l) = INR (length l)).
    { clear - G' Hi Hj Hk Hc HN. induction l as [|[[a b] e] l IH]; [reflexivity|]. pose proof (G' (a, b, e) (or_introl eq_refl)) as G. cbn in G. cbn [map total fold_right length]. rewrite S_INR. specialize (IH (fun t It => G' t (or_intror It))). unfold total in IH. rewrite IH. unfold padded.
      repeat match goal with |- context [(?u <=? ?x)%Z] => destruct (Z.leb_spec u x); try lia end; repeat match goal with |- context [(?u <? ?x)%Z] => destruct (Z.ltb_spec u x); try lia end. cbn. lra. }
    unfold total in IH'. rewrite IH'. unfold padded.
    repeat match goal with |- context [(?u <=? ?x)%Z] => destruct (Z.leb_spec u x); try lia end; repeat match goal with |- context [(?u <? ?x)%Z] => destruct (Z.ltb_spec u x); try lia end. cbn. lra. }
  rewrite S. apply le_INR in T. change (INR 2) with 2 in T. field. lra.
Qed.
Print Assumptions C77_interior.
Example C77_interior_sat : exists (n : Z) (ra : R) (i : Z) (j : Z) (k : Z), 1 <= ra /\ let N := ball_points ra in (N <= i < n - N)%Z /\ (N <= j < n - N)%Z /\ (N <= k < n - N)%Z.
Proof. exists 9%Z, 1, 4%Z, 3%Z, 5%Z. assert (B : ball_points 1 = 3%Z) by (unfold ball_points; replace (2 * 1 + 1) with 3 by ring; destruct (base_Int_part 3) as [C D]; assert (Int_part 3 < 4)%Z by (apply lt_IZR; lra); assert (2 < Int_part 3)%Z by (apply lt_IZR; lra); lia). split; [lra|]. cbv zeta. rewrite B. lia. Qed.
Example C77_sat : increasing [1; 2; 3] /\ length (ball 5) = 33%nat /\ length (filter (forward 2) (ball 5)) = 11%nat.
Proof. split; [intros i j H; cbn in H; destruct i as [|[|[|i]]], j as [|[|[|j]]]; try lia; cbn; lra|]. split; vm_compute; reflexivity. Qed.
(** The "ball" window of the box counting is a cylinder along the third axis. *)
Theorem C77_cylinder : forall size x y z z', (0 <= z < size)%Z -> (0 <= z' < size)%Z -> (In (x, y, z) (kernel_cells size) <-> In (x, y, z') (kernel_cells size)).
Proof. intros size x y z z' Hz Hz'. unfold kernel_cells. rewrite !filter_In, !triples_in. unfold kernel_ball. tauto. Qed.
Print Assumptions C77_cylinder.
Example C77_cylinder_sat : exists (size : Z) (z : Z) (z' : Z), (0 <= z < size)%Z /\ (0 <= z' < size)%Z.
Proof. exists 10%Z, 3%Z, 9%Z. repeat split; first [lra | lia | reflexivity | discriminate | congruence | auto]. Qed.
(** Its cells: the columns over the disc around the middle of the window. *)
Theorem C77_window : forall size x y z, In (x, y, z) (kernel_cells size) <->
  ((0 <= x < size) /\ (0 <= y < size) /\ (0 <= z < size) /\ (x - size / 2) ^ 2 + (y - size / 2) ^ 2 <= (size / 2) ^ 2)%Z.
Proof. intros size x y z. unfold kernel_cells. rewrite filter_In, triples_in. unfold kernel_ball. cbv zeta. rewrite Z.leb_le, !Z.pow_2_r. tauto. Qed.
Print Assumptions C77_window.
Example C77_window_sat : length (kernel_cells 3) = 15%nat /\ In (1, 0, 2)%Z (kernel_cells 3).
Proof. split; [reflexivity|]. apply C77_window. cbn. lia. Qed.
