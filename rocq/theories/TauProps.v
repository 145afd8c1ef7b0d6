(** C39: Thomson optical depth. *)
From Coq Require Import List Arith Reals Lia Lra Psatz Permutation.
From Coq Require Import Sorting.Sorted.
From Verif Require Import RLib StatsProps TauModel.
Import ListNotations.
Local Open Scope R_scope.

(** The arguments in the order of increasing redshift, as [np.argsort] gives them. *)
Definition by_redshift (a b : list (R * R)) : Prop :=
  Permutation a b /\ StronglySorted (fun p q => fst p <= fst q) b.
(** The trapezoidal integral over the given points. *)
Fixpoint integral (Om lam coeff : R) (ps : list (R * R)) : R :=
  match ps with
  | p :: (q :: _) as r => trapezoid Om lam coeff (fst p) (snd p) (fst q) (snd q) + integral Om lam coeff r
  | _ => 0
  end.

Lemma steps_length : forall Om lam co ps acc zp xp, length (steps Om lam co acc zp xp ps) = length ps.
Proof. induction ps as [|[z x] ps IH]; intros; [reflexivity|]. cbn [steps length]. cbv zeta. cbn [length]. rewrite IH. reflexivity. Qed.
Lemma steps_nth : forall Om lam co ps z x acc k, (k < length ps)%nat ->
  nth k (steps Om lam co acc z x ps) 0 = acc + integral Om lam co (firstn (S (S k)) ((z, x) :: ps)).
Proof.
  induction ps as [|[z' x'] ps IH]; intros z x acc k Hk; [cbn in Hk; lia|]. cbn [length] in Hk. cbn [steps]. cbv zeta.
  destruct k as [|k].
  - cbn [nth]. cbn [firstn integral fst snd]. destruct ps; cbn [firstn integral]; lra.
  - cbn [nth]. rewrite IH by lia. change (firstn (S (S (S k))) ((z, x) :: (z', x') :: ps)) with ((z, x) :: firstn (S (S k)) ((z', x') :: ps)).
    change (firstn (S (S k)) ((z', x') :: ps)) with ((z', x') :: firstn (S k) ps). cbn [integral fst snd]. lra.
Qed.
Lemma map_seq_nth : forall (f : nat -> R) n k, (k < n)%nat -> nth k (map f (seq 0 n)) 0 = f k.
Proof.
  intros f n k H. rewrite (nth_indep _ 0 (f 0%nat)) by (rewrite map_length, seq_length; lia). rewrite map_nth, seq_nth by lia. reflexivity.
Qed.
Lemma low_z_nth : forall num z0 k, (k < num)%nat -> nth k (low_z num z0) 0 = INR (S k) / INR num * z0.
Proof. intros num z0 k Hk. unfold low_z. rewrite map_seq_nth by exact Hk. reflexivity. Qed.
Lemma low_z_last : forall num z0, nth num (low_z (S num) z0) 0 = z0.
Proof. intros num z0. rewrite low_z_nth by lia. assert (0 < INR (S num)) by (apply lt_0_INR; lia). field. lra. Qed.

(** With at least one low-redshift point: the first [num] redshifts divide [0, z0] evenly
    and carry the depth of an ionised universe; then come the redshifts given, z0 once
    more with the same depth (whatever the wrapped-around fraction is), and at each later
    one the trapezoidal integral from z0 on is added. *)
Theorem C39_depths : forall Om lam coeff num p ps, (1 <= num)%nat ->
  let r := tau_sorted Om lam coeff num p ps in
  length (fst r) = (num + S (length ps))%nat /\ length (snd r) = (num + S (length ps))%nat /\
  (forall k, (k < num)%nat -> nth k (snd r) 0 = INR (S k) / INR num * fst p /\
                              nth k (fst r) 0 = full_depth Om lam coeff (INR (S k) / INR num * fst p)) /\
  (forall k, (k <= length ps)%nat ->
     nth (num + k) (snd r) 0 = fst (nth k (p :: ps) p) /\
     nth (num + k) (fst r) 0 = full_depth Om lam coeff (fst p) + integral Om lam coeff (firstn (S k) (p :: ps))).
Proof.
  intros Om lam coeff num p ps Hn. cbv zeta. unfold tau_sorted. cbn [fst snd].
  assert (LL : length (low_z num (fst p)) = num) by (unfold low_z; rewrite map_length, seq_length; reflexivity).
  split; [rewrite app_length, map_length, LL, steps_length; reflexivity|].
  split; [rewrite app_length, LL, map_length; reflexivity|]. split.
  - intros k Hk. rewrite !app_nth1 by (rewrite ?map_length, LL; exact Hk). split; [apply low_z_nth; exact Hk|].
    rewrite (nth_indep _ 0 (full_depth Om lam coeff 0)) by (rewrite map_length, LL; exact Hk). rewrite map_nth, low_z_nth by exact Hk. reflexivity.
  - intros k Hk. split.
    + rewrite app_nth2 by lia. rewrite LL. replace (num + k - num)%nat with k by lia.
      rewrite (nth_indep _ 0 (fst p)) by (rewrite map_length; cbn [length]; lia). rewrite map_nth. reflexivity.
    + rewrite app_nth2 by (rewrite map_length; lia). rewrite map_length, LL. replace (num + k - num)%nat with k by lia.
      destruct num as [|m]; [lia|]. rewrite steps_nth by (cbn [length]; lia). rewrite low_z_last.
      assert (E : nth m (map (full_depth Om lam coeff) (low_z (S m) (fst p))) 0 = full_depth Om lam coeff (fst p)).
      { rewrite (nth_indep _ 0 (full_depth Om lam coeff 0)) by (rewrite map_length, LL; lia). rewrite map_nth, low_z_last. reflexivity. }
      rewrite E. change (firstn (S (S k)) ((fst p, snd (last ps p)) :: p :: ps)) with ((fst p, snd (last ps p)) :: p :: firstn k ps).
      change (firstn (S k) (p :: ps)) with (p :: firstn k ps). f_equal.
      set (q := (fst p, snd (last ps p))). change (integral Om lam coeff (q :: p :: firstn k ps)) with
        (trapezoid Om lam coeff (fst q) (snd q) (fst p) (snd p) + integral Om lam coeff (p :: firstn k ps)).
      assert (T : trapezoid Om lam coeff (fst q) (snd q) (fst p) (snd p) = 0) by (unfold q; cbn [fst snd]; unfold trapezoid; replace (fst p - fst p) with 0 by ring; unfold Rdiv; ring).
      rewrite T. ring.
Qed.
Print Assumptions C39_depths.
Example C39_depths_sat : exists (num : nat), (1 <= num)%nat.
Proof. exists 5%nat. repeat split; first [lra | lia | reflexivity | discriminate | congruence | auto]. Qed.

(** The added terms integrate the derivative of the ionised-universe depth times the
    ionised fraction, and that depth starts from zero iff [Omega0 + lam = 1]. *)
Theorem C39_analytic_part : forall Om lam coeff z, 0 < Om * (1 + z) ^ 3 + lam ->
  derivable_pt_lim (full_depth Om lam coeff) z (15 / 10 * coeff * Om * kernel Om lam z).
Proof.
  intros Om lam coeff z P. set (g := fun x => Om * (1 + x) ^ 3 + lam).
  assert (Dg : derivable_pt_lim g z (Om * (3 * (1 + z) ^ 2))).
  { unfold g. replace (Om * (3 * (1 + z) ^ 2)) with (Om * (INR 3 * (1 + z) ^ 2 * (0 + 1)) + 0) by (cbn [INR]; ring).
    apply derivable_pt_lim_plus; [|apply derivable_pt_lim_const]. apply derivable_pt_lim_scal.
    apply (derivable_pt_lim_comp (fun x => 1 + x) (fun y => y ^ 3)).
    - apply derivable_pt_lim_plus; [apply derivable_pt_lim_const|apply derivable_pt_lim_id].
    - apply (derivable_pt_lim_pow (1 + z) 3). }
  assert (Ds : derivable_pt_lim (fun x => sqrt (g x)) z (/ (2 * sqrt (g z)) * (Om * (3 * (1 + z) ^ 2)))).
  { apply (derivable_pt_lim_comp g sqrt); [exact Dg|]. apply derivable_pt_lim_sqrt. exact P. }
  assert (S0 : sqrt (g z) <> 0) by (intro E; apply sqrt_eq_0 in E; unfold g in *; lra).
  replace (15 / 10 * coeff * Om * kernel Om lam z) with (coeff * (/ (2 * sqrt (g z)) * (Om * (3 * (1 + z) ^ 2)) - 0)).
  - unfold full_depth. apply derivable_pt_lim_scal. apply derivable_pt_lim_minus; [exact Ds|apply derivable_pt_lim_const].
  - unfold kernel. fold (g z). field. exact S0.
Qed.
Print Assumptions C39_analytic_part.
Example C39_analytic_part_sat : exists (Om : R) (lam : R) (z : R), 0 < Om * (1 + z) ^ 3 + lam.
Proof. exists (3/10), (7/10), 8. repeat split; first [lra | lia | reflexivity | discriminate | congruence | auto]. Qed.
Theorem C39_starts_at_zero_iff_flat : forall Om lam coeff, coeff <> 0 -> 0 <= Om + lam ->
  (full_depth Om lam coeff 0 = 0 <-> Om + lam = 1).
Proof.
  intros Om lam coeff Hc Hp. unfold full_depth. replace (Om * (1 + 0) ^ 3 + lam) with (Om + lam) by ring. split.
  - intro E. apply Rmult_integral in E. destruct E as [E|E]; [contradiction|]. rewrite <- (sqrt_sqrt (Om + lam)) by exact Hp. replace (sqrt (Om + lam)) with 1 by lra. ring.
  - intro E. rewrite E, sqrt_1. ring.
Qed.
Print Assumptions C39_starts_at_zero_iff_flat.
Example C39_starts_at_zero_iff_flat_sat : exists (Om : R) (lam : R) (coeff : R), coeff <> 0 /\ 0 <= Om + lam.
Proof. exists (3/10), (7/10), 2. repeat split; first [lra | lia | reflexivity | discriminate | congruence | auto]. Qed.

Lemma kernel_nonneg : forall Om lam z, 0 <= kernel Om lam z.
Proof.
  intros. unfold kernel, Rdiv. apply Rmult_le_pos; [apply pow2_ge_0|]. destruct (sqrt_pos (Om * (1 + z) ^ 3 + lam)) as [D|D].
  - left. apply Rinv_0_lt_compat. exact D.
  - rewrite <- D, Rinv_0. lra.
Qed.
Lemma trapezoid_nonneg : forall Om lam co zp xp z x, 0 <= co -> 0 <= Om -> 0 <= xp -> 0 <= x -> zp <= z -> 0 <= trapezoid Om lam co zp xp z x.
Proof.
  intros. unfold trapezoid. pose proof (kernel_nonneg Om lam zp). pose proof (kernel_nonneg Om lam z).
  assert (0 <= xp * kernel Om lam zp + x * kernel Om lam z) by (apply Rplus_le_le_0_compat; apply Rmult_le_pos; assumption).
  unfold Rdiv. repeat apply Rmult_le_pos; lra.
Qed.
Lemma full_depth_mono : forall Om lam co a b, 0 <= co -> 0 <= Om -> -1 <= a -> a <= b -> full_depth Om lam co a <= full_depth Om lam co b.
Proof.
  intros Om lam co a b Hc Ho Ha Hab. unfold full_depth. apply Rmult_le_compat_l; [exact Hc|]. apply Rplus_le_compat_r.
  assert (M : Om * (1 + a) ^ 3 + lam <= Om * (1 + b) ^ 3 + lam) by (apply Rplus_le_compat_r, Rmult_le_compat_l; [exact Ho|apply pow_incr; lra]).
  destruct (Rle_dec 0 (Om * (1 + a) ^ 3 + lam)) as [P|P].
  - apply sqrt_le_1; lra.
  - rewrite (sqrt_neg_0 (Om * (1 + a) ^ 3 + lam)) by lra. apply sqrt_pos.
Qed.
(** The depth never falls with redshift. *)
Theorem C39_monotone : forall Om lam coeff num p ps, (1 <= num)%nat -> 0 <= coeff -> 0 <= Om -> 0 <= fst p ->
  StronglySorted (fun a b => fst a <= fst b) (p :: ps) -> (forall q, In q (p :: ps) -> 0 <= snd q) ->
  forall i, (S i < num + S (length ps))%nat ->
    let r := tau_sorted Om lam coeff num p ps in nth i (snd r) 0 <= nth (S i) (snd r) 0 /\ nth i (fst r) 0 <= nth (S i) (fst r) 0.
Proof.
  intros Om lam coeff num p ps Hn Hc Ho H0 SS X i Hi. cbv zeta.
  destruct (C39_depths Om lam coeff num p ps Hn) as (_ & _ & A & B). cbv zeta in A, B.
  assert (NI : 0 < INR num) by (apply lt_0_INR; lia).
  destruct (Nat.lt_ge_cases (S i) num) as [C|C].
  - destruct (A i ltac:(lia)) as [A1 A2]. destruct (A (S i) C) as [A3 A4]. rewrite A1, A2, A3, A4.
    assert (L : INR (S i) / INR num * fst p <= INR (S (S i)) / INR num * fst p).
    { apply Rmult_le_compat_r; [exact H0|]. apply Rmult_le_compat_r; [left; apply Rinv_0_lt_compat; exact NI|]. apply le_INR. lia. }
    split; [exact L|]. apply full_depth_mono; try assumption.
    apply Rle_trans with 0; [lra|]. apply Rmult_le_pos; [|exact H0]. apply Rmult_le_pos; [apply pos_INR|left; apply Rinv_0_lt_compat; exact NI].
  - destruct (Nat.eq_dec (S i) num) as [E|E].
    + destruct (A i ltac:(lia)) as [A1 A2]. destruct (B 0%nat ltac:(lia)) as [B1 B2]. rewrite A1, A2. rewrite E. rewrite Nat.add_0_r in B1, B2. rewrite B1, B2.
      cbn [nth firstn integral]. replace (INR num / INR num * fst p) with (fst p) by (field; lra). lra.
    + destruct (B (i - num)%nat ltac:(lia)) as [B1 B2]. destruct (B (S (i - num))%nat ltac:(lia)) as [B3 B4].
      replace (num + (i - num))%nat with i in B1, B2 by lia. replace (num + S (i - num))%nat with (S i) in B3, B4 by lia.
      rewrite B1, B2, B3, B4. set (k := (i - num)%nat) in *. assert (Hk : (S k < length (p :: ps))%nat) by (cbn [length]; lia).
      clearbody k. clear -SS X Hk Hc Ho. revert Hk SS X. generalize (p :: ps). intro l. revert k. induction l as [|a l IH]; intros k Hk SS X; [cbn in Hk; lia|].
      destruct l as [|b l]; [cbn in Hk; lia|]. inversion SS as [|? ? SS' F]; subst. destruct k as [|k].
      * cbn [nth firstn integral]. inversion F; subst. split; [assumption|].
        assert (0 <= trapezoid Om lam coeff (fst a) (snd a) (fst b) (snd b)) by (apply trapezoid_nonneg; try assumption; apply X; [left|right; left]; reflexivity). lra.
      * destruct (IH k ltac:(cbn [length] in *; lia) SS') as [I1 I2].
        { intros q Iq. apply X. right. exact Iq. }
        split; [exact I1|]. change (firstn (S (S k)) (a :: b :: l)) with (a :: firstn (S k) (b :: l)).
        change (firstn (S (S (S k))) (a :: b :: l)) with (a :: firstn (S (S k)) (b :: l)).
        change (firstn (S k) (b :: l)) with (b :: firstn k l) in *. change (firstn (S (S k)) (b :: l)) with (b :: firstn (S k) l) in *.
        change (integral Om lam coeff (a :: b :: firstn k l)) with (trapezoid Om lam coeff (fst a) (snd a) (fst b) (snd b) + integral Om lam coeff (b :: firstn k l)).
        change (integral Om lam coeff (a :: b :: firstn (S k) l)) with (trapezoid Om lam coeff (fst a) (snd a) (fst b) (snd b) + integral Om lam coeff (b :: firstn (S k) l)).
        lra.
Qed.
Print Assumptions C39_monotone.
Example C39_monotone_sat : exists (Om : R) (coeff : R) (num : nat) (p : R * R) (ps : list (R * R)), (1 <= num)%nat /\ 0 <= coeff /\ 0 <= Om /\ 0 <= fst p /\ (StronglySorted (fun a b => fst a <= fst b) (p :: ps)) /\ ((forall q, In q (p :: ps) -> 0 <= snd q)) /\ exists i, (S i < num + S (length ps))%nat.
Proof. exists (27/100), 1, 50%nat, (6, 1), [(7, 3/4); (8, 1/2)]. split; [lia|]. split; [lra|]. split; [lra|]. split; [cbn; lra|]. split; [repeat constructor; cbn; lra|]. split; [intros q [<-|[<-|[<-|[]]]]; cbn; lra|exists 3%nat; cbn; lia]. Qed.

(** The order in which the points are given does not matter for distinct redshifts. *)
Theorem C39_order_independent : forall a b a' b', by_redshift a a' -> by_redshift b b' -> Permutation a b -> NoDup (map fst a) -> a' = b'.
Proof.
  intros a b a' b' [P1 S1] [P2 S2] P N.
  assert (P' : Permutation a' b') by (apply Permutation_trans with a; [apply Permutation_sym; exact P1|apply Permutation_trans with b; assumption]).
  assert (N' : NoDup (map fst a')) by (apply Permutation_NoDup with (map fst a); [apply Permutation_map; exact P1|exact N]).
  clear -S1 S2 P' N'. revert b' S2 P' N'. induction S1 as [|x a' S1 IH F]; intros b' S2 P' N'.
  - apply Permutation_nil in P'. symmetry. exact P'.
  - destruct b' as [|y b']; [apply Permutation_sym, Permutation_nil in P'; discriminate|].
    inversion S2 as [|? ? S2' F2]; subst. cbn [map] in N'. inversion N' as [|? ? NI ND]; subst.
    assert (E : x = y).
    { assert (Iy : In y (x :: a')) by (apply Permutation_in with (y :: b'); [apply Permutation_sym; exact P'|left; reflexivity]).
      assert (Ix : In x (y :: b')) by (apply Permutation_in with (x :: a'); [exact P'|left; reflexivity]).
      destruct Iy as [Iy|Iy]; [exact Iy|]. destruct Ix as [Ix|Ix]; [symmetry; exact Ix|].
      rewrite Forall_forall in F, F2. pose proof (F y Iy). pose proof (F2 x Ix). exfalso. apply NI. apply in_map_iff. exists y. split; [lra|exact Iy]. }
    subst y. f_equal. apply IH; [exact S2'|apply Permutation_cons_inv with x; exact P'|exact ND].
Qed.
Print Assumptions C39_order_independent.

(** [tau_map] gives every line of sight the depths of [tau] when its redshifts are given
    in increasing order; it does not sort them. *)
Theorem C39_map_agrees : forall Om lam coeff num p ps, (1 <= num)%nat -> tau_map_line Om lam coeff num p ps = tau_sorted Om lam coeff num p ps.
Proof.
  intros Om lam coeff num p ps Hn. unfold tau_map_line, tau_sorted.
  assert (E : low_z_map num (fst p) = low_z num (fst p)).
  { unfold low_z_map, low_z. apply map_ext_in. intros k Ik. apply in_seq in Ik. assert (0 < INR num) by (apply lt_0_INR; lia).
    destruct (Nat.eq_dec num 1) as [D|D].
    - subst num. assert (k = 0)%nat by lia. subst k. cbn [Nat.sub]. change (INR 1) with 1. change (INR 0) with 0. unfold Rdiv. rewrite Rinv_1. ring.
    - assert (0 < INR (num - 1)) by (apply lt_0_INR; lia). rewrite S_INR. rewrite minus_INR by lia. rewrite minus_INR in H0 by lia. change (INR 1) with 1 in *. field. lra. }
  rewrite E. reflexivity.
Qed.
Print Assumptions C39_map_agrees.
Example C39_map_agrees_sat : exists (num : nat), (1 <= num)%nat.
Proof. exists 5%nat. repeat split; first [lra | lia | reflexivity | discriminate | congruence | auto]. Qed.
Theorem C39_map_unsorted_refuted : exists p ps, ~ StronglySorted (fun a b => fst a <= fst b) (p :: ps) /\
  (forall q, In q (p :: ps) -> snd q = 1) /\
  (forall Om lam coeff, 0 < Om -> 0 <= lam -> 0 < coeff ->
     nth 2 (fst (tau_map_line Om lam coeff 1 p ps)) 0 < nth 1 (fst (tau_map_line Om lam coeff 1 p ps)) 0).
Proof.
  exists (2, 1), [(1, 1)]. split; [|split].
  - intro S0. inversion S0 as [|? ? _ F]; subst. inversion F; subst. cbn in *. lra.
  - intros q [D|[D|[]]]; subst; reflexivity.
  - intros Om lam coeff Ho Hl Hc. rewrite C39_map_agrees by lia. destruct (C39_depths Om lam coeff 1 (2, 1) [(1, 1)] ltac:(lia)) as (_ & _ & _ & B). cbv zeta in B.
    destruct (B 0%nat ltac:(cbn; lia)) as [_ B0]. destruct (B 1%nat ltac:(cbn; lia)) as [_ B1]. change (1 + 0)%nat with 1%nat in B0. change (1 + 1)%nat with 2%nat in B1.
    rewrite B0, B1. cbn [firstn integral fst snd]. unfold trapezoid. assert (K : forall z, 0 <= z -> 0 < kernel Om lam z).
    { intros z Hz. unfold kernel. apply Rdiv_lt_0_compat; [apply pow_lt; lra|]. apply sqrt_lt_R0. assert (0 < Om * (1 + z) ^ 3) by (apply Rmult_lt_0_compat; [exact Ho|apply pow_lt; lra]). lra. }
    pose proof (K 1 ltac:(lra)). pose proof (K 2 ltac:(lra)). assert (0 < coeff * Om) by (apply Rmult_lt_0_compat; assumption).
    assert (0 < coeff * Om * (kernel Om lam 2 + kernel Om lam 1)) by (apply Rmult_lt_0_compat; lra). lra.
Qed.
Print Assumptions C39_map_unsorted_refuted.
(** Without low-redshift points the first depth is an integral from the highest redshift
    back to the lowest: negative. *)
Theorem C39_no_points : forall Om lam coeff p ps, 0 <= coeff -> 0 <= Om -> fst p <= fst (last ps p) -> 0 <= snd p -> 0 <= snd (last ps p) ->
  nth 0 (fst (tau_sorted Om lam coeff 0 p ps)) 0 = - trapezoid Om lam coeff (fst p) (snd p) (fst (last ps p)) (snd (last ps p)) /\
  nth 0 (fst (tau_sorted Om lam coeff 0 p ps)) 0 <= 0.
Proof.
  intros Om lam coeff [z x] ps Hc Ho Hz Hx Hl. unfold tau_sorted. cbn [fst snd app low_z seq map steps nth] in *. cbv zeta. cbn [nth].
  assert (E : 0 + trapezoid Om lam coeff (fst (last ps (z, x))) (snd (last ps (z, x))) z x = - trapezoid Om lam coeff z x (fst (last ps (z, x))) (snd (last ps (z, x)))).
  { unfold trapezoid. field. }
  rewrite E. split; [reflexivity|]. pose proof (trapezoid_nonneg Om lam coeff z x (fst (last ps (z, x))) (snd (last ps (z, x))) Hc Ho Hx Hl Hz). lra.
Qed.
Print Assumptions C39_no_points.
Example C39_no_points_sat : exists (Om : R) (coeff : R) (p : R * R) (ps : list (R * R)), 0 <= coeff /\ 0 <= Om /\ fst p <= fst (last ps p) /\ 0 <= snd p /\ 0 <= snd (last ps p).
Proof. exists (27/100), 1, (6, 1), [(7, 3/4); (8, 1/2)]. cbn. lra. Qed.

Example C39_sat : by_redshift [(8, 1/2); (6, 1); (7, 3/4)] [(6, 1); (7, 3/4); (8, 1/2)] /\
  NoDup (map fst [(8, 1/2); (6, 1); (7, 3/4)]) /\
  length (fst (tau_sorted (27/100) (73/100) 1 50 (6, 1) [(7, 3/4); (8, 1/2)])) = 53%nat.
Proof.
  split; [split|split].
  - apply Permutation_sym. apply (Permutation_cons_app [(8, 1/2)] [(7, 3/4)]). apply perm_swap.
  - repeat constructor; cbn; lra.
  - cbn. repeat constructor; cbn; intuition lra.
  - reflexivity.
Qed.
Example C39_order_independent_sat : exists (a : list (R * R)) (b : list (R * R)) (a' : list (R * R)) (b' : list (R * R)), by_redshift a a' /\ by_redshift b b' /\ Permutation a b /\ NoDup (map fst a).
Proof. exists [(8, 1/2); (6, 1); (7, 3/4)], [(8, 1/2); (6, 1); (7, 3/4)], [(6, 1); (7, 3/4); (8, 1/2)], [(6, 1); (7, 3/4); (8, 1/2)]. destruct C39_sat as (A & B & _). split; [exact A|]. split; [exact A|]. split; [apply Permutation_refl|exact B]. Qed.
