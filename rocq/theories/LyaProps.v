(** C75: effective Lyman-alpha optical depths along lines of sight. *)
From Coq Require Import List Arith ZArith Reals Lra Lia.
From Verif Require Import LyaModel.
Import ListNotations.
Local Open Scope R_scope.

(** * Specification *)
(** The [L] cells around cell [i] of a periodic line: from [L/2] cells before it on. *)
Definition around (L i : nat) (t : list R) : list R :=
  map (fun p => nth (Z.to_nat ((Z.of_nat i + Z.of_nat p - Z.of_nat L / 2) mod Z.of_nat (length t))) t 0) (seq 0 L).
Definition mean_flux_depth (l : list R) : R := - ln (mean (map (fun v => exp (- v)) l)).

Lemma total_app : forall l m, total (l ++ m) = total l + total m.
Proof. intros l m. induction l as [|v r IH]; cbn [total fold_right app]; [unfold total; ring|]. unfold total in *. cbn. rewrite IH. ring. Qed.
Lemma div2_half : forall L, (Z.of_nat L / 2 = Z.of_nat (Nat.div2 L))%Z.
Proof. intro L. rewrite Nat.div2_div, Nat2Z.inj_div. reflexivity. Qed.
Lemma tail_len : forall L, (if Nat.even L then Nat.div2 L else S (Nat.div2 L)) = (L - Nat.div2 L)%nat.
Proof. intro L. pose proof (Nat.div2_odd L) as E. rewrite <- Nat.negb_even in E. destruct (Nat.even L); cbn [negb Nat.b2n] in E; lia. Qed.
Lemma nth_skipn : forall (l : list R) k i, nth i (skipn k l) 0 = nth (k + i) l 0.
Proof. intros l. induction l as [|v r IH]; intros k i; [destruct k, i; reflexivity|]. destruct k; [reflexivity|]. cbn [skipn plus nth]. apply IH. Qed.
Lemma nth_firstn : forall (l : list R) k i, (i < k)%nat -> nth i (firstn k l) 0 = nth i l 0.
Proof. intros l. induction l as [|v r IH]; intros k i H; [destruct k, i; reflexivity|]. destruct k; [lia|]. destruct i; [reflexivity|]. cbn. apply IH. lia. Qed.
Lemma nth_map_seq : forall (f : nat -> R) L p, (p < L)%nat -> nth p (map f (seq 0 L)) 0 = f p.
Proof. intros f L p H. rewrite (nth_indep _ 0 (f 0%nat)) by (rewrite map_length, seq_length; exact H). rewrite map_nth, seq_nth by exact H. reflexivity. Qed.
Lemma padded_length : forall L t, (2 <= L)%nat -> length (padded L t) = (Nat.min (Nat.div2 L) (length t) + length t + Nat.min (L - Nat.div2 L) (length t))%nat.
Proof.
  intros L t H. unfold padded. rewrite tail_len, !app_length, skipn_length, firstn_length.
  assert (1 <= Nat.div2 L)%nat by (rewrite Nat.div2_div; apply Nat.div_le_lower_bound; lia). destruct (Nat.eqb (Nat.div2 L) 0) eqn:E; [apply Nat.eqb_eq in E; lia|]. lia.
Qed.
Lemma mod_unique : forall a b q r : Z, (0 <= r < b -> a = b * q + r -> a mod b = r)%Z.
Proof. intros a b q r H E. symmetry. apply (Z.mod_unique a b q r); [left; exact H|exact E]. Qed.

(** * Theorems *)
(** For windows up to twice the line (and one more) the cells averaged for cell i are exactly the L cells around it, wrapping around. *)
Lemma window_around : forall L i t, (1 <= L <= 2 * length t + 1)%nat -> (i < length t)%nat -> window L i t = around L i t.
Proof.
  intros L i t HL Hi. set (n := length t) in *. assert (Hn : (1 <= n)%nat) by lia.
  pose proof (Nat.div2_odd L) as OD. assert (OB : (Nat.b2n (Nat.odd L) <= 1)%nat) by (destruct (Nat.odd L); cbn; lia). set (h := Nat.div2 L) in *.
  assert (G : forall q, (q < n + L - 1)%nat -> nth q (padded L t) 0 = nth (Z.to_nat ((Z.of_nat q - Z.of_nat h) mod Z.of_nat n)) t 0 /\ (q < length (padded L t))%nat).
  { intros q Hq. unfold padded. rewrite tail_len. fold h n. destruct (Nat.eqb h 0) eqn:E0.
    - apply Nat.eqb_eq in E0. rewrite E0. assert (L = 1)%nat by lia. subst L. cbn [skipn]. split.
      + rewrite app_nth1 by lia. f_equal. rewrite Z.sub_0_r, Z.mod_small by lia. lia.
      + rewrite app_length. fold n. lia.
    - apply Nat.eqb_neq in E0. split.
      2:{ rewrite !app_length, skipn_length, firstn_length. fold n. lia. }
      destruct (Nat.lt_ge_cases q h) as [A|A].
      + rewrite app_nth1 by (rewrite skipn_length; fold n; lia). rewrite nth_skipn. f_equal. rewrite (mod_unique _ _ (-1) (Z.of_nat (n - h + q))) by lia. lia.
      + rewrite app_nth2 by (rewrite skipn_length; fold n; lia). rewrite skipn_length. fold n. replace (q - (n - (n - h)))%nat with (q - h)%nat by lia.
        destruct (Nat.lt_ge_cases (q - h) n) as [B|B].
        * rewrite app_nth1 by (fold n; lia). f_equal. rewrite (mod_unique _ _ 0 (Z.of_nat (q - h))) by lia. lia.
        * rewrite app_nth2 by (fold n; lia). fold n. rewrite nth_firstn by lia. f_equal. rewrite (mod_unique _ _ 1 (Z.of_nat (q - h - n))) by lia. lia. }
  unfold window, around. assert (LL : length (firstn L (skipn i (padded L t))) = L).
  { rewrite firstn_length, skipn_length. destruct (G (i + L - 1)%nat ltac:(lia)) as [_ G2]. lia. }
  apply (nth_ext _ _ 0 0); [rewrite map_length, seq_length; exact LL|]. rewrite LL. intros p Hp.
  rewrite nth_firstn by exact Hp. rewrite nth_skipn. destruct (G (i + p)%nat ltac:(lia)) as [-> _].
  rewrite (nth_map_seq (fun p => nth (Z.to_nat ((Z.of_nat i + Z.of_nat p - Z.of_nat L / 2) mod Z.of_nat (length t))) t 0)) by exact Hp. f_equal. f_equal. rewrite div2_half. fold h n. f_equal. lia.
Qed.
Theorem C75_window : forall L t i, (1 <= L <= 2 * length t + 1)%nat -> (i < length t)%nat ->
  length (effective L t) = length t /\ nth i (effective L t) 0 = mean_flux_depth (around L i t).
Proof.
  intros L t i HL Hi. unfold effective. rewrite map_length, seq_length. split; [reflexivity|].
  rewrite (nth_indep _ 0 (- ln (transmission L 0 t))) by (rewrite map_length, seq_length; exact Hi). rewrite (map_nth (fun i => - ln (transmission L i t))), seq_nth by exact Hi. cbn [plus].
  unfold transmission, mean_flux_depth, mean. rewrite window_around by assumption. rewrite map_length. assert (LA : length (around L i t) = L) by (unfold around; rewrite map_length, seq_length; reflexivity). rewrite LA. reflexivity.
Qed.
Print Assumptions C75_window.
Example C75_window_sat : around 4 0 [10; 20; 30; 40; 50] = [40; 50; 10; 20] /\ around 3 4 [10; 20; 30; 40; 50] = [40; 50; 10].
Proof. split; reflexivity. Qed.

Lemma total_nonneg : forall l, (forall v, In v l -> 0 <= v) -> 0 <= total l.
Proof. intros l H. induction l as [|v r IH]; cbn [total fold_right]; [lra|]. specialize (IH (fun w Hw => H w (or_intror Hw))). specialize (H v (or_introl eq_refl)). unfold total in IH. lra. Qed.
Lemma total_le : forall (l : list R) f g, (forall v, In v l -> f v <= g v) -> total (map f l) <= total (map g l).
Proof. intros l f g H. induction l as [|v r IH]; cbn [map total fold_right]; [lra|]. specialize (IH (fun w Hw => H w (or_intror Hw))). specialize (H v (or_introl eq_refl)). unfold total in IH. lra. Qed.
Lemma total_const : forall (l : list R) c, total (map (fun _ => c) l) = INR (length l) * c.
Proof. intros l c. induction l as [|v r IH]; [cbn; ring|]. cbn [map total fold_right length]. unfold total in IH. rewrite IH, S_INR. ring. Qed.
Lemma total_affine : forall l a b, total (map (fun v => a + b * v) l) = INR (length l) * a + b * total l.
Proof. intros l a b. induction l as [|v r IH]; [cbn; ring|]. cbn [map total fold_right length]. unfold total in *. rewrite IH, S_INR. ring. Qed.
Lemma div_le : forall a b n, 0 < n -> a <= b -> a / n <= b / n.
Proof. intros a b n Hn H. unfold Rdiv. apply Rmult_le_compat_r; [left; apply Rinv_0_lt_compat, Hn|exact H]. Qed.
Lemma exp_ge : forall x, 1 + x <= exp x.
Proof. intro x. destruct (Req_dec x 0) as [-> |N]; [rewrite exp_0; lra|left; apply exp_ineq1; exact N]. Qed.
Lemma mean_exp_pos : forall l, l <> [] -> 0 < mean (map (fun v => exp (- v)) l).
Proof.
  intros l H. assert (0 < INR (length l)) by (apply lt_0_INR; destruct l; [congruence|cbn; lia]). unfold mean. rewrite map_length. apply Rdiv_lt_0_compat; [|assumption].
  destruct l as [|v r]; [congruence|]. cbn [map total fold_right]. pose proof (exp_pos (- v)). assert (0 <= total (map (fun v => exp (- v)) r)) by (apply total_nonneg; intros w Hw; apply in_map_iff in Hw; destruct Hw as (u & <- & _); left; apply exp_pos). unfold total in *. lra.
Qed.
(** Between the smallest optical depth of the window and the mean one. *)
Theorem C75_bounds : forall l lo, l <> [] -> (forall v, In v l -> lo <= v) -> lo <= mean_flux_depth l <= mean l.
Proof.
  intros l lo H Hlo. assert (P : 0 < INR (length l)) by (apply lt_0_INR; destruct l; [congruence|cbn; lia]). pose proof (mean_exp_pos l H) as M. unfold mean_flux_depth. split.
  - assert (mean (map (fun v => exp (- v)) l) <= exp (- lo)).
    { unfold mean. rewrite map_length. apply Rle_trans with (INR (length l) * exp (- lo) / INR (length l)); [|right; field; lra]. apply div_le; [exact P|]. rewrite <- total_const. apply total_le. intros v Hv. specialize (Hlo v Hv). destruct (Req_dec v lo) as [-> |]; [lra|]. left. apply exp_increasing. lra. }
    assert (ln (mean (map (fun v => exp (- v)) l)) <= - lo); [|lra]. rewrite <- (ln_exp (- lo)). destruct (Req_dec (mean (map (fun v => exp (- v)) l)) (exp (- lo))) as [-> |]; [lra|]. left. apply ln_increasing; lra.
  - set (m := mean l). assert (exp (- m) <= mean (map (fun v => exp (- v)) l)).
    { unfold mean at 1. rewrite map_length. apply Rle_trans with (total (map (fun v => exp (- m) * (1 + m) + (- exp (- m)) * v) l) / INR (length l)).
      - rewrite total_affine. right. assert (T : total l = INR (length l) * m) by (unfold m, mean; field; lra). rewrite T. field. lra.
      - apply div_le; [exact P|]. apply total_le. intros v _. replace (- v) with (- m + (m - v)) by ring. rewrite exp_plus. pose proof (exp_ge (m - v)). pose proof (exp_pos (- m)). nra. }
    assert (- m <= ln (mean (map (fun v => exp (- v)) l))); [|lra]. rewrite <- (ln_exp (- m)) at 1. destruct (Req_dec (exp (- m)) (mean (map (fun v => exp (- v)) l))) as [E |]; [rewrite <- E; lra|]. left. apply ln_increasing; [apply exp_pos|lra].
Qed.
Print Assumptions C75_bounds.
Example C75_bounds_sat : exists (l : list R) (lo : R), l <> [] /\ (forall v, In v l -> lo <= v).
Proof. exists [2; 3; 5], 1. split; [discriminate|]. intros v [<-|[<-|[<-|[]]]]; lra. Qed.
(** Uniform gas keeps its optical depth; one cell keeps its own. *)
Theorem C75_uniform : forall L i n v, (1 <= L <= 2 * n + 1)%nat -> (i < n)%nat -> nth i (effective L (repeat v n)) 0 = v.
Proof.
  intros L i n v HL Hi. destruct (C75_window L (repeat v n) i ltac:(rewrite repeat_length; lia) ltac:(rewrite repeat_length; lia)) as [_ ->].
  unfold mean_flux_depth, mean, around. rewrite map_map, map_length, seq_length, repeat_length.
  assert (E : map (fun x => exp (- nth (Z.to_nat ((Z.of_nat i + Z.of_nat x - Z.of_nat L / 2) mod Z.of_nat n)) (repeat v n) 0)) (seq 0 L) = map (fun _ => exp (- v)) (map INR (seq 0 L))).
  { rewrite map_map. apply map_ext. intro p. f_equal. f_equal. rewrite (nth_indep _ 0 v); [apply nth_repeat|]. rewrite repeat_length. pose proof (Z.mod_pos_bound (Z.of_nat i + Z.of_nat p - Z.of_nat L / 2) (Z.of_nat n) ltac:(lia)). lia. }
  rewrite E, total_const, map_length, seq_length. assert (0 < INR L) by (apply lt_0_INR; lia). replace (INR L * exp (- v) / INR L) with (exp (- v)) by (field; lra). rewrite ln_exp. ring.
Qed.
Print Assumptions C75_uniform.
Example C75_uniform_sat : exists (L : nat) (i : nat) (n : nat), (1 <= L <= 2 * n + 1)%nat /\ (i < n)%nat.
Proof. exists 5%nat, 3%nat, 8%nat. repeat split; first [lra | lia | reflexivity | discriminate | congruence | auto]. Qed.
Theorem C75_one_cell : forall t i, (i < length t)%nat -> nth i (effective 1 t) 0 = nth i t 0.
Proof.
  intros t i Hi. destruct (C75_window 1 t i ltac:(lia) Hi) as [_ ->]. unfold mean_flux_depth, around, mean. cbn [map seq total fold_right length INR]. change (Z.of_nat 1 / 2)%Z with 0%Z.
  replace ((Z.of_nat i + Z.of_nat 0 - 0) mod Z.of_nat (length t))%Z with (Z.of_nat i) by (rewrite Z.mod_small by lia; lia). rewrite Nat2Z.id. rewrite Rplus_0_r. unfold Rdiv. rewrite Rinv_1, Rmult_1_r, ln_exp. ring.
Qed.
Print Assumptions C75_one_cell.
Example C75_one_cell_sat : exists (t : list R) (i : nat), (i < length t)%nat.
Proof. exists [1; 2; 3], 1%nat. cbn; lia. Qed.
(** Shifting a periodic line shifts the result. *)
Definition rolled (t : list R) : list R := match t with [] => [] | v :: r => r ++ [v] end.
Theorem C75_roll : forall L t i, (1 <= L <= 2 * length t + 1)%nat -> (i < length t)%nat ->
  nth i (effective L (rolled t)) 0 = nth (if Nat.eqb (S i) (length t) then 0 else S i) (effective L t) 0.
Proof.
  intros L t i HL Hi. assert (LR : length (rolled t) = length t) by (destruct t; [reflexivity|cbn [rolled]; rewrite app_length; cbn; lia]).
  destruct (C75_window L (rolled t) i ltac:(lia) ltac:(lia)) as [_ ->]. set (i' := if Nat.eqb (S i) (length t) then 0%nat else S i).
  assert (Hi' : (i' < length t)%nat /\ (Z.of_nat i' = (Z.of_nat i + 1) mod Z.of_nat (length t))%Z).
  { unfold i'. destruct (Nat.eqb (S i) (length t)) eqn:E; [apply Nat.eqb_eq in E|apply Nat.eqb_neq in E]; split; try lia; symmetry; [apply (mod_unique _ _ 1)|apply (mod_unique _ _ 0)]; lia. }
  destruct Hi' as [Hi' Ei']. destruct (C75_window L t i' ltac:(lia) Hi') as [_ ->]. f_equal. unfold around. apply map_ext. intro p. rewrite LR.
  assert (N : forall q, (q < length t)%nat -> nth q (rolled t) 0 = nth (Z.to_nat ((Z.of_nat q + 1) mod Z.of_nat (length t))) t 0).
  { intros q Hq. destruct t as [|v r]; [cbn in Hq; lia|]. cbn [rolled length] in *. destruct (Nat.lt_ge_cases q (length r)) as [A|A].
    - rewrite app_nth1 by exact A. rewrite Z.mod_small by lia. replace (Z.to_nat (Z.of_nat q + 1)) with (S q) by lia. reflexivity.
    - rewrite app_nth2 by exact A. assert (q = length r) by lia. subst q. rewrite Nat.sub_diag. rewrite (mod_unique _ _ 1 0) by lia. reflexivity. }
  set (n := Z.of_nat (length t)) in *. pose proof (Z.mod_pos_bound (Z.of_nat i + Z.of_nat p - Z.of_nat L / 2) n ltac:(lia)) as B.
  rewrite N by lia. f_equal. f_equal. rewrite Z2Nat.id by lia. rewrite Ei'.
  rewrite Zplus_mod_idemp_l. replace ((Z.of_nat i + 1) mod n + Z.of_nat p - Z.of_nat L / 2)%Z with ((Z.of_nat i + 1) mod n + (Z.of_nat p - Z.of_nat L / 2))%Z by ring. rewrite Zplus_mod_idemp_l. f_equal. ring.
Qed.
Print Assumptions C75_roll.
Example C75_roll_sat : exists (L : nat) (t : list R) (i : nat), (1 <= L <= 2 * length t + 1)%nat /\ (i < length t)%nat.
Proof. exists 5%nat, [1; 2; 3], 1%nat. cbn; lia. Qed.
(** Windows longer than twice the line plus one: only part of the window exists, but the sum is still divided by its nominal length;
    fully transparent gas then gets a positive optical depth once the window exceeds what is left of three copies of the line. *)
Theorem C75_long_refuted : forall L n i, (2 * n + 2 <= L)%nat -> (i < n)%nat ->
  nth i (effective L (repeat 0 n)) 0 = - ln (INR (Nat.min L (3 * n - i)) / INR L) /\ ((3 * n - i < L)%nat -> 0 < nth i (effective L (repeat 0 n)) 0).
Proof.
  intros L n i HL Hi. pose proof (Nat.div2_odd L) as OD. assert (OB : (Nat.b2n (Nat.odd L) <= 1)%nat) by (destruct (Nat.odd L); cbn; lia).
  assert (V : nth i (effective L (repeat 0 n)) 0 = - ln (INR (Nat.min L (3 * n - i)) / INR L)).
  { unfold effective. rewrite repeat_length. rewrite (nth_indep _ 0 (- ln (transmission L 0 (repeat 0 n)))) by (rewrite map_length, seq_length; exact Hi).
    rewrite (map_nth (fun i => - ln (transmission L i (repeat 0 n)))), seq_nth by exact Hi. cbn [plus]. unfold transmission.
    assert (A : forall v, In v (window L i (repeat 0 n)) -> v = 0).
    { assert (SK : forall (k : nat) (l : list R) v, In v (skipn k l) -> In v l) by (intros k l v Hv; rewrite <- (firstn_skipn k l); apply in_or_app; right; exact Hv).
      assert (FI : forall (k : nat) (l : list R) v, In v (firstn k l) -> In v l) by (intros k l v Hv; rewrite <- (firstn_skipn k l); apply in_or_app; left; exact Hv).
      intros v Hv. unfold window in Hv. apply FI, SK in Hv. unfold padded in Hv.
      apply in_app_or in Hv. destruct Hv as [Hv|Hv]; [apply SK, repeat_spec in Hv; exact Hv|]. apply in_app_or in Hv. destruct Hv as [Hv|Hv]; [apply repeat_spec in Hv; exact Hv|]. apply FI, repeat_spec in Hv. exact Hv. }
    assert (EL : length (window L i (repeat 0 n)) = Nat.min L (3 * n - i)).
    { unfold window. rewrite firstn_length, skipn_length, padded_length by lia. rewrite repeat_length. lia. }
    rewrite (map_ext_in _ (fun _ => 1)) by (intros v Hv; rewrite (A v Hv), Ropp_0, exp_0; reflexivity). rewrite total_const, EL, Rmult_1_r. reflexivity. }
  split; [exact V|]. intro Hlt. rewrite V, Nat.min_r by lia. assert (0 < INR (3 * n - i)) by (apply lt_0_INR; lia). apply lt_INR in Hlt.
  assert (ln (INR (3 * n - i) / INR L) < 0); [|lra]. rewrite <- ln_1. apply ln_increasing; [apply Rdiv_lt_0_compat; lra|]. apply (Rmult_lt_reg_r (INR L)); [lra|]. unfold Rdiv. rewrite Rmult_assoc, Rinv_l by lra. lra.
Qed.
Print Assumptions C75_long_refuted.
Example C75_long_refuted_sat : exists (L : nat) (n : nat) (i : nat), (2 * n + 2 <= L)%nat /\ (i < n)%nat.
Proof. exists 20%nat, 4%nat, 3%nat. repeat split; first [lra | lia | reflexivity | discriminate | congruence | auto]. Qed.

(** Along the third axis the density is paired with the right cells... *)
Theorem C75_axis : forall c L n a xHI dn i j k r, (1 <= L <= 2 * n + 1)%nat -> (k < n)%nat -> tau_los c Fgpa L n a xHI dn = inl r ->
  (a = 2%nat \/ forall i j k, swapaxes a dn i j k = dn i j k) ->
  r i j k = nth k (effective L (map (fun k => swapaxes a (fun i j k => tau_cell c (xHI i j k) (dn i j k)) i j k) (seq 0 n))) 0.
Proof.
  intros c L n a xHI dn i j k r HL Hk E H. cbn [tau_los] in E. injection E as <-. f_equal. f_equal. unfold los_line. apply map_ext. intro q.
  destruct H as [-> |H]; [reflexivity|]. destruct a as [|[|a]]; cbn [swapaxes] in *; try reflexivity; f_equal; symmetry; apply H.
Qed.
Print Assumptions C75_axis.
Example C75_axis_sat : exists (c : R) (L : nat) (n : nat) (a : nat) (xHI : cube) (dn : cube) (i : nat) (j : nat) (k : nat) (r : cube), (1 <= L <= 2 * n + 1)%nat /\ (k < n)%nat /\ tau_los c Fgpa L n a xHI dn = inl r /\ (a = 2%nat \/ forall i j k, swapaxes a dn i j k = dn i j k).
Proof. eexists 1, 3%nat, 4%nat, 2%nat, (fun i j k => INR k), (fun i j k => 1), 0%nat, 0%nat, 1%nat, _. split; [lia|]. split; [lia|]. split; [reflexivity|]. left. reflexivity. Qed.
(** ... along the other two it is not: neutral gas in an empty cell absorbs. *)
Theorem C75_axis_refuted : forall c a, 0 < c -> (a < 2)%nat -> exists n xHI dn, (forall i j k, tau_cell c (xHI i j k) (dn i j k) = 0) /\
  exists r i j k, (i < n)%nat /\ (j < n)%nat /\ (k < n)%nat /\ tau_los c Fgpa 1 n a xHI dn = inl r /\ 0 < r i j k.
Proof.
  intros c a Hc Ha. destruct a as [|[|a]]; [| |lia].
  - exists 2%nat, (fun i j k => if (Nat.eqb i 1 && Nat.eqb k 0)%bool then 1 else 0), (fun i j k => if (Nat.eqb i 1 && Nat.eqb k 0)%bool then -1 else 0). split.
    { intros i j k. unfold tau_cell. destruct (Nat.eqb i 1 && Nat.eqb k 0)%bool; ring. }
    eexists. exists 0%nat, 0%nat, 1%nat. split; [lia|]. split; [lia|]. split; [lia|]. split; [reflexivity|]. cbv beta. rewrite C75_one_cell by (cbn; lia). cbn. unfold tau_cell. lra.
  - exists 2%nat, (fun i j k => if (Nat.eqb j 1 && Nat.eqb k 0)%bool then 1 else 0), (fun i j k => if (Nat.eqb j 1 && Nat.eqb k 0)%bool then -1 else 0). split.
    { intros i j k. unfold tau_cell. destruct (Nat.eqb j 1 && Nat.eqb k 0)%bool; ring. }
    eexists. exists 0%nat, 0%nat, 1%nat. split; [lia|]. split; [lia|]. split; [lia|]. split; [reflexivity|]. cbv beta. rewrite C75_one_cell by (cbn; lia). cbn. unfold tau_cell. lra.
Qed.
Print Assumptions C75_axis_refuted.
Example C75_axis_refuted_sat : exists (c : R) (a : nat), 0 < c /\ (a < 2)%nat.
Proof. exists 2, 1%nat. repeat split; first [lra | lia | reflexivity | discriminate | congruence | auto]. Qed.
(** Only 'FGPA' works. *)
Theorem C75_methods : forall c m L n a xHI dn, (exists r, tau_los c m L n a xHI dn = inl r) <-> m = Fgpa.
Proof. intros c m L n a xHI dn. destruct m; cbn; split; try (intros [r H]; discriminate H); try discriminate; eauto. Qed.
Print Assumptions C75_methods.
(** Passing a density instead of an overdensity: mean overdensity zero, independent of the unit of density, and applying the conversion again changes nothing. *)
Lemma least_le : forall l v, In v l -> least l <= v.
Proof. intros l. induction l as [|w r IH]; intros v H; [destruct H|]. destruct r as [|u r]; [destruct H as [-> |[]]; cbn; lra|]. change (least (w :: u :: r)) with (Rmin w (least (u :: r))). destruct H as [-> |H]; [apply Rmin_l|]. eapply Rle_trans; [apply Rmin_r|]. apply IH, H. Qed.
Lemma least_in : forall l, l <> [] -> In (least l) l.
Proof. intros l. induction l as [|w r IH]; intro H; [congruence|]. destruct r as [|u r]; [left; reflexivity|]. change (least (w :: u :: r)) with (Rmin w (least (u :: r))). apply (Rmin_case w (least (u :: r)) (fun v => In v (w :: u :: r))); [left; reflexivity|right; apply IH; discriminate]. Qed.
Lemma total_pos : forall l, l <> [] -> (forall v, In v l -> 0 < v) -> 0 < total l.
Proof. intros l N H. destruct l as [|v r]; [congruence|]. cbn [total fold_right]. pose proof (H v (or_introl eq_refl)). assert (0 <= total r) by (apply total_nonneg; intros w Hw; left; apply H; right; exact Hw). unfold total in *. lra. Qed.
Theorem C75_density : forall l, l <> [] -> 1 < least l ->
  mean (overdensity l) = 0 /\ overdensity (overdensity l) = overdensity l /\ (forall v, In v (overdensity l) -> -1 < v) /\
  (forall c, 0 < c -> 1 < least (map (Rmult c) l) -> overdensity (map (Rmult c) l) = overdensity l).
Proof.
  intros l N H. assert (P : forall v, In v l -> 0 < v) by (intros v Hv; pose proof (least_le l v Hv); lra). assert (L : 0 < INR (length l)) by (apply lt_0_INR; destruct l; [congruence|cbn; lia]).
  pose proof (total_pos l N P) as T. assert (M : 0 < mean l) by (apply Rdiv_lt_0_compat; assumption).
  assert (E : overdensity l = map (fun v => v / mean l - 1) l) by (unfold overdensity; destruct (Rlt_dec 1 (least l)); [reflexivity|lra]).
  assert (Z : total (map (fun v => v / mean l - 1) l) = 0).
  { rewrite (map_ext _ (fun v => - (1) + / mean l * v)) by (intro; unfold Rdiv; ring). rewrite total_affine. unfold mean. field. split; lra. }
  assert (Z1 : mean (overdensity l) = 0) by (rewrite E; unfold mean at 1; rewrite Z; unfold Rdiv; ring). split; [exact Z1|]. split.
  - unfold overdensity at 1. destruct (Rlt_dec 1 (least (overdensity l))) as [A|A]; [|reflexivity]. exfalso.
    assert (0 < total (overdensity l)). { apply total_pos; [rewrite E; destruct l; [congruence|discriminate]|]. intros v Hv. pose proof (least_le _ v Hv). lra. } rewrite E in H0. lra.
  - split.
    + intros v Hv. rewrite E in Hv. apply in_map_iff in Hv. destruct Hv as (w & <- & Hw). specialize (P w Hw). pose proof (Rdiv_lt_0_compat w (mean l) P M). lra.
    + intros c Hc H'. rewrite E. unfold overdensity. destruct (Rlt_dec 1 (least (map (Rmult c) l))); [|lra]. rewrite map_map. apply map_ext_in. intros v _.
      assert (EM : mean (map (Rmult c) l) = c * mean l). { unfold mean. rewrite map_length. rewrite (map_ext _ (fun v => 0 + c * v)) by (intro; ring). rewrite total_affine. field. lra. } rewrite EM. f_equal. field. lra.
Qed.
Print Assumptions C75_density.
Example C75_density_sat : 1 < least [2; 4; 6] /\ overdensity [2; 4; 6] = [2 / mean [2; 4; 6] - 1; 4 / mean [2; 4; 6] - 1; 6 / mean [2; 4; 6] - 1].
Proof. assert (H : 1 < least [2; 4; 6]) by (cbn; unfold Rmin; destruct (Rle_dec 4 6); destruct (Rle_dec 2 _); lra). split; [exact H|]. unfold overdensity. destruct (Rlt_dec 1 (least [2; 4; 6])); [reflexivity|contradiction]. Qed.
(** Of a density field the depth of a cell is proportional to its neutral density: c times the neutral fraction times the density over the
    mean density. Hence a neutral box has mean depth c, and a cell at twice the density twice the depth. *)
Theorem C75_cells : forall c l, l <> [] -> 1 < least l ->
  (forall i x, (i < length l)%nat -> tau_cell c x (nth i (overdensity l) 0) = c * x * (nth i l 0 / mean l)) /\
  mean (map (fun d => tau_cell c 1 d) (overdensity l)) = c.
Proof.
  intros c l N H. unfold overdensity. destruct (Rlt_dec 1 (least l)) as [_|F]; [|contradiction].
  assert (LE : forall l v, In v l -> least l <= v). { clear. induction l as [|a l IH]; intros v I; [destruct I|]. destruct l as [|b l]; [destruct I as [->|[]]; cbn; lra|]. change (least (a :: b :: l)) with (Rmin a (least (b :: l))). destruct I as [->|I]; [apply Rmin_l|]. eapply Rle_trans; [apply Rmin_r|apply IH; exact I]. }
  assert (LB : forall v, In v l -> 1 < v) by (intros v I; specialize (LE l v I); lra).
  assert (TP : 0 < total l). { destruct l as [|a l]; [contradiction|]. assert (G : forall l, (forall v, In v l -> 1 < v) -> 0 <= total l) by (clear; induction l as [|b l IH]; intro B; cbn; [lra|]; specialize (IH ltac:(intros; apply B; right; assumption)); pose proof (B b (or_introl eq_refl)); unfold total in IH; lra). cbn. pose proof (G l ltac:(intros; apply LB; right; assumption)) as G'. pose proof (LB a (or_introl eq_refl)). unfold total in G'. lra. }
  assert (LP : 0 < INR (length l)) by (destruct l; [contradiction|]; apply lt_0_INR; cbn; lia).
  assert (MP : mean l <> 0) by (apply Rgt_not_eq; unfold mean; apply Rdiv_lt_0_compat; assumption). split.
  - intros i x Hi. assert (E : nth i (map (fun v => v / mean l - 1) l) 0 = nth i l 0 / mean l - 1). { rewrite (nth_indep _ 0 ((fun v => v / mean l - 1) 0)) by (rewrite map_length; exact Hi). apply (map_nth (fun v => v / mean l - 1)). } rewrite E. unfold tau_cell. field. exact MP.
  - rewrite map_map. set (M := mean l) in *. unfold mean. rewrite map_length. assert (G : forall k, total (map (fun v => tau_cell c 1 (v / M - 1)) k) = c / M * total k) by (clearbody M; clear - MP; induction k as [|a k IH]; cbn; [field; exact MP|]; unfold total in IH; rewrite IH; unfold tau_cell; field; exact MP).
    rewrite G. unfold M, mean in *. field. split; lra.
Qed.
Print Assumptions C75_cells.
Example C75_cells_sat : exists (l : list R), l <> [] /\ 1 < least l.
Proof. exists [2; 4; 6]. split; [discriminate|exact (proj1 C75_density_sat)]. Qed.
