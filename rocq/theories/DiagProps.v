(** C104: diagnostics of weighted distributions. *)
From Coq Require Import String List Arith Reals Bool Lra Lia Permutation Sorted DecimalString Decimal DecimalNat.
From Verif Require Import RLib DiagModel.
Import ListNotations.
Local Open Scope R_scope.

(** * Specification *)
(** An order sorts a column. *)
Definition sorts (order : list nat) (xs : list R) : Prop := Permutation order (seq 0 (length xs)) /\ StronglySorted Rle (take order xs).
(** Usable weights of the samples [xs]. *)
Definition weights_of (xs ws : list R) : Prop := length ws = length xs /\ Forall (fun w => 0 <= w) ws /\ 0 < rsum ws.
(** The fraction of the weight of the samples below, and at or below, a value. *)
Definition mass (sel : R -> bool) (xs ws : list R) : R := rsum (map (fun p => if sel (fst p) then snd p else 0) (combine xs ws)) / rsum ws.
Definition below (v x : R) : bool := if Rlt_dec x v then true else false.
Definition upto (v x : R) : bool := if Rle_dec x v then true else false.

(** * Lemmas on interpolation *)
Fixpoint chain (x0 y0 : R) (rest : list (R * R)) : Prop := match rest with [] => True | (x1, y1) :: r => x0 <= x1 /\ y0 <= y1 /\ chain x1 y1 r end.
Fixpoint strict (x0 y0 : R) (rest : list (R * R)) : Prop := match rest with [] => True | (x1, y1) :: r => x0 < x1 /\ y0 < y1 /\ strict x1 y1 r end.
Lemma line_bounds x0 y0 x1 y1 x : x0 <= x -> x < x1 -> y0 <= y1 -> y0 <= (y1 - y0) / (x1 - x0) * (x - x0) + y0 <= y1.
Proof.
  intros A B C. assert (D : 0 < x1 - x0) by lra. split.
  - assert (0 <= (y1 - y0) / (x1 - x0) * (x - x0)); [|lra]. apply Rmult_le_pos; [|lra]. apply Rmult_le_pos; [lra|]. left. apply Rinv_0_lt_compat. exact D.
  - assert ((y1 - y0) / (x1 - x0) * (x - x0) <= y1 - y0); [|lra].
    apply (Rmult_le_reg_r (x1 - x0)); [exact D|]. replace ((y1 - y0) / (x1 - x0) * (x - x0) * (x1 - x0)) with ((y1 - y0) * (x - x0)) by (field; lra).
    apply Rmult_le_compat_l; lra.
Qed.
Lemma line_mono x0 y0 x1 y1 x x' : x0 < x1 -> x <= x' -> y0 <= y1 -> (y1 - y0) / (x1 - x0) * (x - x0) + y0 <= (y1 - y0) / (x1 - x0) * (x' - x0) + y0.
Proof.
  intros A B C. apply Rplus_le_compat_r, Rmult_le_compat_l; [|lra]. apply Rmult_le_pos; [lra|]. left. apply Rinv_0_lt_compat. lra.
Qed.
Lemma interp_from_low x0 y0 rest x : x0 <= x -> chain x0 y0 rest -> y0 <= interp_from x0 y0 rest x.
Proof.
  revert x0 y0. induction rest as [|[x1 y1] r IH]; intros x0 y0 H C; cbn [interp_from]; [lra|]. destruct C as [C1 [C2 C3]].
  destruct (Rle_dec x1 x) as [L|L]; [pose proof (IH x1 y1 L C3); lra|]. apply line_bounds; lra.
Qed.
Lemma interp_from_high x0 y0 rest x Y : x0 <= x -> chain x0 y0 rest -> y0 <= Y -> Forall (fun p => snd p <= Y) rest -> interp_from x0 y0 rest x <= Y.
Proof.
  revert x0 y0. induction rest as [|[x1 y1] r IH]; intros x0 y0 H C L F; cbn [interp_from]; [exact L|]. destruct C as [C1 [C2 C3]].
  inversion F as [|p q F1 F2]; subst. cbn [snd] in F1. destruct (Rle_dec x1 x); [apply IH; assumption|]. pose proof (line_bounds x0 y0 x1 y1 x). lra.
Qed.
Lemma interp_from_mono x0 y0 rest x x' : x0 <= x -> x <= x' -> chain x0 y0 rest -> interp_from x0 y0 rest x <= interp_from x0 y0 rest x'.
Proof.
  revert x0 y0. induction rest as [|[x1 y1] r IH]; intros x0 y0 H L C; cbn [interp_from]; [lra|]. destruct C as [C1 [C2 C3]].
  destruct (Rle_dec x1 x) as [A|A]; destruct (Rle_dec x1 x') as [B|B]; try lra.
  - apply IH; assumption.
  - apply Rle_trans with y1; [apply line_bounds; lra|]. apply interp_from_low; assumption.
  - apply line_mono; lra.
Qed.
Lemma interp_inverse x0 y0 rest x : x0 <= x -> x <= fold_left (fun _ p => fst p) rest x0 -> strict x0 y0 rest ->
  y0 <= interp_from x0 y0 rest x /\ interp_from y0 x0 (map (fun p => (snd p, fst p)) rest) (interp_from x0 y0 rest x) = x.
Proof.
  revert x0 y0. induction rest as [|[x1 y1] r IH]; intros x0 y0 H L C; cbn [interp_from map fst snd fold_left] in *; [split; [lra|lra]|]. destruct C as [C1 [C2 C3]].
  destruct (Rle_dec x1 x) as [A|A].
  - destruct (IH x1 y1 A L C3) as [I1 I2]. split; [lra|]. destruct (Rle_dec y1 (interp_from x1 y1 r x)); [exact I2|lra].
  - assert (B : y0 <= (y1 - y0) / (x1 - x0) * (x - x0) + y0 <= y1) by (apply line_bounds; lra).
    assert (S1 : (y1 - y0) / (x1 - x0) * (x - x0) + y0 < y1).
    { assert ((y1 - y0) / (x1 - x0) * (x - x0) < y1 - y0); [|lra]. apply (Rmult_lt_reg_r (x1 - x0)); [lra|].
      replace ((y1 - y0) / (x1 - x0) * (x - x0) * (x1 - x0)) with ((y1 - y0) * (x - x0)) by (field; lra). apply Rmult_lt_compat_l; lra. }
    split; [lra|]. destruct (Rle_dec y1 _) as [D|D]; [lra|]. field. split; lra.
Qed.

(** ** Sorted samples with running weights *)
Fixpoint nodes (acc : R) (s : list (R * R)) : list (R * R) := match s with [] => [] | (x, w) :: r => (acc + w, x) :: nodes (acc + w) r end.
Lemma nodes_combine acc s : combine (cumsum_from acc (map snd s)) (map fst s) = nodes acc s.
Proof. revert acc. induction s as [|[x w] r IH]; intro acc; [reflexivity|]. cbn [map fst snd cumsum_from combine nodes]. rewrite IH. reflexivity. Qed.
Lemma nodes_swap acc s : combine (map fst s) (cumsum_from acc (map snd s)) = map (fun p => (snd p, fst p)) (nodes acc s).
Proof. revert acc. induction s as [|[x w] r IH]; intro acc; [reflexivity|]. cbn [map fst snd cumsum_from combine nodes]. rewrite IH. reflexivity. Qed.
Definition ordered (s : list (R * R)) : Prop := StronglySorted (fun a b => fst a <= fst b) s.
Lemma nodes_chain acc y0 s : Forall (fun p => y0 <= fst p) s -> ordered s -> Forall (fun p => 0 <= snd p) s -> chain acc y0 (nodes acc s).
Proof.
  revert acc y0. induction s as [|[x w] r IH]; intros acc y0 F O W; cbn [nodes chain]; [exact I|]. inversion F; inversion O; inversion W; subst. cbn [fst snd] in *.
  repeat split; [lra|assumption|]. apply IH; assumption.
Qed.
Definition pairs (order : list nat) (xs ws : list R) : list (R * R) := map (fun i => (nth i xs 0, nth i ws 0)) order.
Lemma pairs_fst order xs ws : map fst (pairs order xs ws) = take order xs.
Proof. unfold pairs, take. rewrite map_map. reflexivity. Qed.
Lemma pairs_snd order xs ws : map snd (pairs order xs ws) = take order ws.
Proof. unfold pairs, take. rewrite map_map. reflexivity. Qed.
Lemma pairs_seq xs ws : length ws = length xs -> pairs (seq 0 (length xs)) xs ws = combine xs ws.
Proof.
  revert ws. induction xs as [|x xs IH]; intros [|w ws] L; try discriminate L; [reflexivity|]. cbn [length seq combine]. unfold pairs in *. cbn [map nth].
  rewrite <- seq_shift, map_map. cbn [nth]. f_equal. apply IH. cbn in L. lia.
Qed.
Lemma pairs_perm order xs ws : length ws = length xs -> Permutation order (seq 0 (length xs)) -> Permutation (pairs order xs ws) (combine xs ws).
Proof. intros L P. rewrite <- pairs_seq by exact L. apply Permutation_map. exact P. Qed.
Lemma combine_snd {A B} (xs : list A) (ws : list B) : length ws = length xs -> map snd (combine xs ws) = ws.
Proof. revert ws. induction xs as [|x xs IH]; intros [|w ws] L; try discriminate L; [reflexivity|]. cbn. f_equal. apply IH. cbn in L. lia. Qed.
Lemma combine_fst {A B} (xs : list A) (ws : list B) : length ws = length xs -> map fst (combine xs ws) = xs.
Proof. revert ws. induction xs as [|x xs IH]; intros [|w ws] L; try discriminate L; [reflexivity|]. cbn. f_equal. apply IH. cbn in L. lia. Qed.
Lemma sorts_ordered order xs ws : sorts order xs -> ordered (pairs order xs ws).
Proof.
  intros [_ H]. rewrite <- (pairs_fst order xs ws) in H. unfold ordered. revert H. generalize (pairs order xs ws). induction l as [|p r IH]; intro H; [constructor|].
  cbn [map] in H. inversion H as [|a b S F]; subst. constructor; [auto|]. apply Forall_forall. intros q Hq. rewrite Forall_forall in F. apply F, in_map. exact Hq.
Qed.
Lemma quantile_nodes xs ws order q : quantile xs ws order q = match nodes 0 (pairs order xs ws) with [] => 0 | (x0, y0) :: r => if Rlt_dec q x0 then y0 else interp_from x0 y0 r q end.
Proof. unfold quantile, np_interp, cumsum. rewrite <- (pairs_fst order xs ws), <- (pairs_snd order xs ws), nodes_combine. reflexivity. Qed.
Lemma cdf_nodes xs ws order v : cdf_at xs ws order v = match map (fun p => (snd p, fst p)) (nodes 0 (pairs order xs ws)) with [] => 0 | (x0, y0) :: r => if Rlt_dec v x0 then y0 else interp_from x0 y0 r v end.
Proof. unfold cdf_at, np_interp, cumsum. rewrite <- (pairs_fst order xs ws), <- (pairs_snd order xs ws), nodes_swap. reflexivity. Qed.

Definition part (sel : R -> bool) (s : list (R * R)) : R := rsum (map (fun p => if sel (fst p) then snd p else 0) s).
Lemma part_cons sel p s : part sel (p :: s) = (if sel (fst p) then snd p else 0) + part sel s.
Proof. reflexivity. Qed.
Lemma part_pos sel s : Forall (fun p => 0 <= snd p) s -> 0 <= part sel s.
Proof. intro F. apply rsum_nonneg. intros x Hx. apply in_map_iff in Hx. destruct Hx as [p [<- Hp]]. rewrite Forall_forall in F. specialize (F p Hp). destruct (sel (fst p)); lra. Qed.
Lemma part_below_zero v s : Forall (fun p => v <= fst p) s -> part (below v) s = 0.
Proof. intro F. apply rsum_zero. intros p Hp. rewrite Forall_forall in F. specialize (F p Hp). unfold below. destruct (Rlt_dec (fst p) v); [lra|reflexivity]. Qed.
Lemma quantile_below acc y0 s q : acc <= q -> Forall (fun p => y0 <= fst p) s -> ordered s -> Forall (fun p => 0 <= snd p) s -> acc + part (below (interp_from acc y0 (nodes acc s) q)) s <= q.
Proof.
  revert acc y0. induction s as [|[y1 w1] r IH]; intros acc y0 H F O W; [cbn; lra|].
  inversion F as [|? ? F1 F2]; inversion O as [|? ? O1 O2]; inversion W as [|? ? W1 W2]; subst. cbn [fst snd] in *.
  cbn [nodes interp_from]. destruct (Rle_dec (acc + w1) q) as [A|A].
  - rewrite part_cons. cbn [fst snd]. assert (B : acc + w1 + part (below (interp_from (acc + w1) y1 (nodes (acc + w1) r) q)) r <= q) by (apply IH; assumption).
    destruct (below _ y1); lra.
  - rewrite part_below_zero; [lra|]. assert (B : (y1 - y0) / (acc + w1 - acc) * (q - acc) + y0 <= y1) by (apply line_bounds; lra).
    constructor; [exact B|]. apply Forall_forall. intros p Hp. rewrite Forall_forall in O2. specialize (O2 p Hp). lra.
Qed.
Lemma quantile_upto acc y0 s q M : acc <= q -> q <= acc + rsum (map snd s) -> Forall (fun p => y0 <= fst p) s -> ordered s -> Forall (fun p => 0 <= snd p <= M) s -> 0 <= M ->
  q <= acc + part (upto (interp_from acc y0 (nodes acc s) q)) s + M.
Proof.
  revert acc y0. induction s as [|[y1 w1] r IH]; intros acc y0 H T F O W HM; [cbn in *; lra|].
  inversion F as [|? ? F1 F2]; inversion O as [|? ? O1 O2]; inversion W as [|? ? W1 W2]; subst. cbn [fst snd] in *.
  cbn [nodes interp_from]. destruct (Rle_dec (acc + w1) q) as [A|A].
  - rewrite part_cons. cbn [fst snd map rsum fold_right] in *.
    assert (W0 : Forall (fun p : R * R => 0 <= snd p) r) by (eapply Forall_impl; [|exact W2]; cbn; intros; lra).
    assert (B : q <= acc + w1 + part (upto (interp_from (acc + w1) y1 (nodes (acc + w1) r) q)) r + M) by (apply IH; try assumption; unfold rsum; lra).
    pose proof (interp_from_low (acc + w1) y1 (nodes (acc + w1) r) q A (nodes_chain _ _ _ O2 O1 W0)) as C.
    unfold upto at 1. destruct (Rle_dec y1 _); lra.
  - pose proof (part_pos (upto ((y1 - y0) / (acc + w1 - acc) * (q - acc) + y0)) ((y1, w1) :: r)) as P.
    assert (W0 : Forall (fun p : R * R => 0 <= snd p) ((y1, w1) :: r)) by (eapply Forall_impl; [|exact W]; cbn; intros; lra). specialize (P W0). lra.
Qed.
(** Everything about the sorted list of a usable column. *)
Lemma sorted_facts xs ws order : weights_of xs ws -> sorts order xs ->
  ordered (pairs order xs (normalise ws)) /\ Forall (fun p => 0 <= snd p) (pairs order xs (normalise ws)) /\ rsum (map snd (pairs order xs (normalise ws))) = 1 /\
  Permutation (pairs order xs (normalise ws)) (combine xs (normalise ws)) /\ pairs order xs (normalise ws) <> [] /\ length (normalise ws) = length xs.
Proof.
  intros [L [W T]] S1. assert (LN : length (normalise ws) = length xs) by (unfold normalise; rewrite map_length; exact L).
  pose proof (pairs_perm order xs (normalise ws) LN (proj1 S1)) as P.
  assert (SUM : rsum (normalise ws) = 1).
  { unfold normalise. rewrite (map_ext _ (fun w => w * / rsum ws)) by reflexivity. rewrite (rsum_scale_r (fun w => w)), map_id. field. lra. }
  assert (TS : rsum (map snd (pairs order xs (normalise ws))) = 1).
  { rewrite (rsum_perm _ _ (Permutation_map snd P)), combine_snd by exact LN. exact SUM. }
  repeat split; auto.
  - apply sorts_ordered. exact S1.
  - apply Forall_forall. intros p Hp. apply (Permutation_in _ P) in Hp. destruct p as [a b]. apply in_combine_r in Hp. unfold normalise in Hp. apply in_map_iff in Hp. destruct Hp as [w [<- Hw]].
    rewrite Forall_forall in W. cbn [snd]. apply Rmult_le_pos; [auto|]. left. apply Rinv_0_lt_compat. exact T.
  - intro E. rewrite E in TS. cbn in TS. lra.
Qed.
Lemma mass_part sel xs ws order : weights_of xs ws -> sorts order xs -> mass sel xs ws = part sel (pairs order xs (normalise ws)).
Proof.
  intros W S1. destruct (sorted_facts xs ws order W S1) as [_ [_ [_ [P [_ LN]]]]]. unfold part. rewrite (rsum_perm _ _ (Permutation_map (fun p => if sel (fst p) then snd p else 0) P)).
  unfold mass, normalise, Rdiv. rewrite <- rsum_scale_r. clear. revert ws. assert (H : forall c ws, rsum (map (fun x : R * R => (if sel (fst x) then snd x else 0) * c) (combine xs ws)) =
    rsum (map (fun p : R * R => if sel (fst p) then snd p else 0) (combine xs (map (fun w => w * c) ws)))).
  { intros c. induction xs as [|x xs IH]; intros [|w ws]; try reflexivity. cbn [combine map fst snd rsum fold_right]. unfold rsum in IH. rewrite IH. destruct (sel x); ring. }
  intro ws. apply H.
Qed.

(** * Theorems *)
(** Whatever the order of equal samples, the quantile is exact up to the weight of one sample: at most [q] of the weight
    lies below it, and at least [q] less the largest weight at or below it. *)
Theorem C104_quantile : forall xs ws order q M, weights_of xs ws -> sorts order xs -> 0 <= q <= 1 -> Forall (fun w => w / rsum ws <= M) ws ->
  let v := quantile xs (normalise ws) order q in mass (below v) xs ws <= q /\ q - M <= mass (upto v) xs ws.
Proof.
  intros xs ws order q M W S1 Q HM v. destruct (sorted_facts xs ws order W S1) as [O [P [T [PE [NE LN]]]]].
  rewrite !(mass_part _ _ _ _ W S1). unfold v. rewrite quantile_nodes.
  assert (PM : Forall (fun p => 0 <= snd p <= M) (pairs order xs (normalise ws))).
  { apply Forall_forall. intros p Hp. rewrite Forall_forall in P. split; [auto|]. apply (Permutation_in _ PE) in Hp. destruct p as [a b]. apply in_combine_r in Hp. unfold normalise in Hp.
    apply in_map_iff in Hp. destruct Hp as [w [<- Hw]]. rewrite Forall_forall in HM. cbn [snd]. apply HM. exact Hw. }
  destruct (pairs order xs (normalise ws)) as [|[y0 w0] r] eqn:E; [congruence|]. inversion O as [|? ? O1 O2]; inversion P as [|? ? P1 P2]; inversion PM as [|? ? M1 M2]; subst. cbn [fst snd] in *.
  cbn [nodes]. rewrite Rplus_0_l. change (w0 + rsum (map snd r) = 1) in T. destruct (Rlt_dec q w0) as [A|A].
  - split.
    + rewrite part_below_zero; [lra|]. constructor; [cbn; lra|exact O2].
    + rewrite part_cons. cbn [fst snd]. unfold upto at 1. destruct (Rle_dec y0 y0); [|lra]. pose proof (part_pos (upto y0) r P2). lra.
  - rewrite !part_cons. cbn [fst snd]. split.
    + pose proof (quantile_below w0 y0 r q ltac:(lra) O2 O1 P2). destruct (below _ y0); lra.
    + pose proof (quantile_upto w0 y0 r q M ltac:(lra) ltac:(lra) O2 O1 M2 ltac:(lra)) as B.
      pose proof (interp_from_low w0 y0 (nodes w0 r) q ltac:(lra) (nodes_chain _ _ _ O2 O1 P2)). unfold upto at 1. destruct (Rle_dec y0 _); lra.
Qed.
Print Assumptions C104_quantile.
Example C104_quantile_sat : exists xs ws order q M, weights_of xs ws /\ sorts order xs /\ 0 <= q <= 1 /\ Forall (fun w => w / rsum ws <= M) ws.
Proof. exists [3; 1; 2], [1; 0; 2], [1%nat; 2%nat; 0%nat], (1/4), 1. split; [repeat split; [repeat (constructor; try lra)|cbn; lra]|]. split; [|split; [lra|cbn; repeat (constructor; try lra)]]. split; [cbn; apply Permutation_sym; apply (perm_trans (perm_swap 1%nat 0%nat [2%nat])); apply perm_skip, perm_swap|cbn; repeat (constructor; try lra)]. Qed.
Lemma quantile_mono xs ws order q q' : weights_of xs ws -> sorts order xs -> q <= q' -> quantile xs (normalise ws) order q <= quantile xs (normalise ws) order q'.
Proof.
  intros W S1 Q. destruct (sorted_facts xs ws order W S1) as [O [P [T [PE [NE LN]]]]]. rewrite !quantile_nodes.
  destruct (pairs order xs (normalise ws)) as [|[y0 w0] r] eqn:E; [congruence|]. inversion O as [|? ? O1 O2]; inversion P as [|? ? P1 P2]; subst. cbn [fst snd] in *. cbn [nodes].
  pose proof (nodes_chain (0 + w0) y0 r O2 O1 P2) as C. destruct (Rlt_dec q (0 + w0)); destruct (Rlt_dec q' (0 + w0)); try lra.
  - apply interp_from_low; [lra|exact C].
  - apply interp_from_mono; [lra|lra|exact C].
Qed.
(** The credible intervals are nested around the median and lie among the samples. *)
Theorem C104_nested : forall xs ws order, weights_of xs ws -> sorts order xs -> let c := intervals xs (normalise ws) order in lo2 c <= lo1 c <= median c /\ median c <= hi1 c <= hi2 c.
Proof. intros xs ws order W S1. cbn. repeat split; apply quantile_mono; try assumption; lra. Qed.
Print Assumptions C104_nested.
Theorem C104_range : forall xs ws order q a b, weights_of xs ws -> sorts order xs -> Forall (fun x => a <= x <= b) xs -> a <= quantile xs (normalise ws) order q <= b /\ a <= average xs (normalise ws) <= b.
Proof.
  intros xs ws order q a b W S1 F. destruct (sorted_facts xs ws order W S1) as [O [P [T [PE [NE LN]]]]].
  assert (FP : Forall (fun p => a <= fst p <= b) (pairs order xs (normalise ws))).
  { apply Forall_forall. intros p Hp. apply (Permutation_in _ PE) in Hp. destruct p as [x w]. apply in_combine_l in Hp. rewrite Forall_forall in F. apply F. exact Hp. }
  split.
  - rewrite quantile_nodes. destruct (pairs order xs (normalise ws)) as [|[y0 w0] r] eqn:E; [congruence|].
    inversion O as [|? ? O1 O2]; inversion P as [|? ? P1 P2]; inversion FP as [|? ? F1 F2]; subst. cbn [fst snd] in *. cbn [nodes]. pose proof (nodes_chain (0 + w0) y0 r O2 O1 P2) as C.
    destruct (Rlt_dec q (0 + w0)); [lra|]. split.
    + apply Rle_trans with y0; [lra|]. apply interp_from_low; [lra|exact C].
    + apply interp_from_high; [lra|exact C|lra|]. clear - F2. revert F2. generalize (0 + w0). induction r as [|[x w] r IH]; intros acc F2; cbn [nodes]; constructor; inversion F2; subst; cbn [snd fst] in *; [lra|auto].
  - assert (SN : rsum (normalise ws) = 1) by (rewrite <- (combine_snd xs (normalise ws)) by exact LN; rewrite <- (rsum_perm _ _ (Permutation_map snd PE)); exact T).
    unfold average. rewrite SN. unfold Rdiv. rewrite Rinv_1, Rmult_1_r. unfold dot.
    assert (FC : Forall (fun p : R * R => a <= fst p <= b /\ 0 <= snd p) (combine xs (normalise ws))).
    { apply Forall_forall. intros p Hp. rewrite Forall_forall in FP, P. split; [apply FP|apply P]; apply (Permutation_in _ (Permutation_sym PE)); exact Hp. }
    rewrite Forall_forall in FC. assert (SC : rsum (map snd (combine xs (normalise ws))) = 1) by (rewrite combine_snd by exact LN; exact SN).
    split.
    + apply Rle_trans with (rsum (map (fun p : R * R => a * snd p) (combine xs (normalise ws)))); [rewrite rsum_scale, SC; lra|]. apply rsum_le. intros p Hp. apply Rmult_le_compat_r; apply FC; exact Hp.
    + apply Rle_trans with (rsum (map (fun p : R * R => b * snd p) (combine xs (normalise ws)))); [|rewrite rsum_scale, SC; lra]. apply rsum_le. intros p Hp. apply Rmult_le_compat_r; apply FC; exact Hp.
Qed.
Print Assumptions C104_range.

Lemma interp_const acc y0 s c k : 0 < c -> Forall (fun p => snd p = c) s -> (k <= length s)%nat -> interp_from acc y0 (nodes acc s) (acc + INR k * c) = nth k (y0 :: map fst s) 0.
Proof.
  intro C. revert acc y0 k. induction s as [|[x w] r IH]; intros acc y0 k F K; cbn [nodes interp_from].
  - cbn in K. replace k with 0%nat by lia. reflexivity.
  - inversion F as [|? ? F1 F2]; subst. cbn [snd] in *. destruct k as [|k].
    + destruct (Rle_dec _ _) as [A|A]; cbn [INR] in *; [lra|]. cbn [nth]. replace (acc + 0 * w - acc) with 0 by ring. ring.
    + destruct (Rle_dec _ _) as [A|A].
      * cbn [nth map fst]. replace (acc + INR (S k) * w) with (acc + w + INR k * w) by (rewrite S_INR; ring). rewrite IH; [reflexivity|exact F2|cbn in K; lia].
      * exfalso. apply A. rewrite S_INR. pose proof (pos_INR k). assert (0 <= INR k * w) by (apply Rmult_le_pos; lra). lra.
Qed.
(** With equal weights the quantile at k/n is the k-th smallest of the n samples: no interpolation, and the median of an even
    number of samples is the lower of the two in the middle. *)
Theorem C104_order_statistics : forall xs order c k, 0 < c -> sorts order xs -> (1 <= k <= length xs)%nat ->
  quantile xs (normalise (repeat c (length xs))) order (INR k / INR (length xs)) = nth (k - 1) (take order xs) 0.
Proof.
  intros xs order c k C S1 K. set (n := length xs) in *. assert (N : 0 < INR n) by (apply lt_0_INR; lia).
  assert (NE : normalise (repeat c n) = repeat (/ INR n) n).
  { unfold normalise. assert (R1 : rsum (repeat c n) = INR n * c).
    { clear. induction n as [|n IH]; [cbn; ring|]. cbn [repeat]. change (rsum (c :: repeat c n)) with (c + rsum (repeat c n)). rewrite IH, S_INR. ring. }
    rewrite R1. clear - N C. assert (H : forall m, map (fun w => w / (INR n * c)) (repeat c m) = repeat (/ INR n) m) by (induction m as [|m IH]; cbn; [reflexivity|rewrite IH; f_equal; field; lra]). apply H. }
  rewrite NE, quantile_nodes.
  assert (LO : length order = n) by (rewrite (Permutation_length (proj1 S1)), seq_length; reflexivity).
  assert (F : Forall (fun p => snd p = / INR n) (pairs order xs (repeat (/ INR n) n))).
  { apply Forall_forall. intros p Hp. apply in_map_iff in Hp. destruct Hp as [i [<- Hi]]. cbn [snd]. apply (Permutation_in _ (proj1 S1)) in Hi. apply in_seq in Hi. clear - Hi. fold n in Hi.
    assert (G : forall m i, (i < m)%nat -> nth i (repeat (/ INR n) m) 0 = / INR n) by (induction m as [|m IH]; intros [|j] H; cbn; try lia; [reflexivity|apply IH; lia]). apply G. lia. }
  assert (LP : length (pairs order xs (repeat (/ INR n) n)) = n) by (unfold pairs; rewrite map_length; exact LO).
  rewrite <- (pairs_fst order xs (repeat (/ INR n) n)).
  destruct (pairs order xs (repeat (/ INR n) n)) as [|[y0 w0] r]; [cbn in LP; lia|]. inversion F as [|? ? F1 F2]; subst. cbn [snd] in F1. subst w0. cbn [nodes map fst].
  destruct k as [|k]; [lia|]. assert (PI1 : 0 < / INR n) by (apply Rinv_0_lt_compat; exact N).
  assert (E : INR (S k) / INR n = 0 + / INR n + INR k * / INR n) by (rewrite S_INR; field; lra). rewrite E.
  destruct (Rlt_dec _ _) as [A|A].
  - exfalso. pose proof (pos_INR k). assert (0 <= INR k * / INR n) by (apply Rmult_le_pos; lra). lra.
  - rewrite (interp_const (0 + / INR n) y0 r (/ INR n) k PI1 F2) by (cbn in LP; lia). replace (S k - 1)%nat with k by lia. reflexivity.
Qed.
Print Assumptions C104_order_statistics.
Example C104_order_statistics_sat : exists xs order c k, 0 < c /\ sorts order xs /\ (1 <= k <= length xs)%nat.
Proof. exists [3; 1; 2], [1%nat; 2%nat; 0%nat], 2, 2%nat. split; [lra|]. split; [|cbn; lia]. split; [cbn; apply Permutation_sym; apply (perm_trans (perm_swap 1%nat 0%nat [2%nat])); apply perm_skip, perm_swap|cbn; repeat (constructor; try lra)]. Qed.
(** So the median of symmetric samples is not their centre. *)
Theorem C104_median_refuted : exists xs order, sorts order xs /\ average xs (normalise (repeat 1 (length xs))) = 0 /\ median (intervals xs (normalise (repeat 1 (length xs))) order) = -1.
Proof.
  exists [-1; 1], [0%nat; 1%nat]. assert (S1 : sorts [0%nat; 1%nat] [-1; 1]).
  { split; [apply Permutation_refl|]. cbn. repeat (constructor; try lra). }
  split; [exact S1|]. split; [unfold average, dot, normalise; cbn; field|].
  change (quantile [-1; 1] (normalise (repeat 1 (length [-1; 1]))) [0%nat; 1%nat] (1 / 2) = -1).
  pose proof (C104_order_statistics [-1; 1] [0%nat; 1%nat] 1 1 ltac:(lra) S1) as H. cbn [length] in H. specialize (H ltac:(lia)). 
  replace (1 / 2) with (INR 1 / INR 2) by (cbn; lra). exact H.
Qed.
Print Assumptions C104_median_refuted.

(** ** The order of equal samples *)
Lemma sorted_unique (l l' : list R) : StronglySorted Rle l -> StronglySorted Rle l' -> Permutation l l' -> l = l'.
Proof.
  revert l'. induction l as [|a l IH]; intros l' S1 S2 P; [apply Permutation_nil in P; subst; reflexivity|].
  destruct l' as [|b l']; [apply Permutation_sym, Permutation_nil in P; discriminate|]. inversion S1 as [|? ? A1 A2]; inversion S2 as [|? ? B1 B2]; subst.
  assert (E : a = b).
  { apply Rle_antisym.
    - assert (Hb : In b (a :: l)) by (apply (Permutation_in _ (Permutation_sym P)); left; reflexivity). destruct Hb as [->|Hb]; [lra|]. rewrite Forall_forall in A2. auto.
    - assert (Ha : In a (b :: l')) by (apply (Permutation_in _ P); left; reflexivity). destruct Ha as [->|Ha]; [lra|]. rewrite Forall_forall in B2. auto. }
  subst b. f_equal. apply IH; auto. eapply Permutation_cons_inv. exact P.
Qed.
Lemma sorts_take order order' xs : sorts order xs -> sorts order' xs -> take order xs = take order' xs.
Proof. intros [P S1] [P' S2]. apply sorted_unique; auto. apply Permutation_map. rewrite P, P'. reflexivity. Qed.
Lemma take_inj order order' xs : NoDup xs -> Permutation order (seq 0 (length xs)) -> Permutation order' (seq 0 (length xs)) -> take order xs = take order' xs -> order = order'.
Proof.
  intros ND P P'. assert (H : forall o o', incl o (seq 0 (length xs)) -> incl o' (seq 0 (length xs)) -> take o xs = take o' xs -> o = o').
  { induction o as [|i o IH]; intros [|j o'] I1 I2 E; try discriminate E; [reflexivity|]. cbn [take map] in E. injection E as E1 E2. f_equal.
    - assert (Hi : In i (seq 0 (length xs))) by (apply I1; left; reflexivity). assert (Hj : In j (seq 0 (length xs))) by (apply I2; left; reflexivity). apply in_seq in Hi, Hj.
      apply (proj1 (NoDup_nth xs 0) ND); lia || exact E1.
    - apply IH; auto; intros x Hx; [apply I1|apply I2]; right; exact Hx. }
  apply H; intros x Hx; [apply (Permutation_in _ P)|apply (Permutation_in _ P')]; exact Hx.
Qed.
(** Intervals and PIT do not depend on how equal samples are ordered, if the samples differ or the weights are equal. *)
Theorem C104_sort : forall xs ws order order' q, sorts order xs -> sorts order' xs -> NoDup xs \/ (exists c, ws = repeat c (length xs)) ->
  quantile xs (normalise ws) order q = quantile xs (normalise ws) order' q /\ cdf_at xs (normalise ws) order q = cdf_at xs (normalise ws) order' q.
Proof.
  intros xs ws order order' q S1 S2 [ND|[c ->]].
  - assert (order = order') by (apply (take_inj order order' xs ND (proj1 S1) (proj1 S2)), sorts_take; assumption). subst. auto.
  - assert (LO : length order = length order') by (rewrite (Permutation_length (proj1 S1)), (Permutation_length (proj1 S2)); reflexivity).
    assert (E : take order (normalise (repeat c (length xs))) = take order' (normalise (repeat c (length xs)))).
    { assert (N : normalise (repeat c (length xs)) = repeat (c / rsum (repeat c (length xs))) (length xs)).
      { unfold normalise. generalize (rsum (repeat c (length xs))). intro t. induction (length xs) as [|m IH]; [reflexivity|]. cbn. rewrite IH. reflexivity. }
      rewrite N. set (v := c / _). assert (G : forall m i, (i < m)%nat -> nth i (repeat v m) 0 = v) by (induction m as [|m IH]; intros [|j] H; cbn; try lia; [reflexivity|apply IH; lia]).
      assert (H : forall o, incl o (seq 0 (length xs)) -> take o (repeat v (length xs)) = repeat v (length o)).
      { induction o as [|i o IH]; intro I1; [reflexivity|]. cbn [take map length repeat]. f_equal; [|apply IH; intros x Hx; apply I1; right; exact Hx]. apply G. assert (Hi : In i (seq 0 (length xs))) by (apply I1; left; reflexivity). apply in_seq in Hi. lia. }
      rewrite !H, LO; [reflexivity| |]; intros x Hx; [apply (Permutation_in _ (proj1 S2))|apply (Permutation_in _ (proj1 S1))]; exact Hx. }
    unfold quantile, cdf_at. rewrite E, (sorts_take order order' xs S1 S2). auto.
Qed.
Print Assumptions C104_sort.
(** Otherwise they do: the median of the same three weighted samples is 0 or 1/2. *)
Theorem C104_ties_refuted : exists xs ws order order', weights_of xs ws /\ sorts order xs /\ sorts order' xs /\ median (intervals xs (normalise ws) order) <> median (intervals xs (normalise ws) order').
Proof.
  exists [0; 1; 1], [1; 1; 2], [0%nat; 1%nat; 2%nat], [0%nat; 2%nat; 1%nat]. repeat split.
  - repeat (constructor; try lra).
  - cbn. lra.
  - apply Permutation_refl.
  - cbn. repeat (constructor; try lra).
  - cbn. apply perm_skip, perm_swap.
  - cbn. repeat (constructor; try lra).
  - cbn. destruct (Rlt_dec (1 / 2) (0 + 1 / (1 + (1 + (2 + 0))))); [lra|]. destruct (Rle_dec (0 + 1 / (1 + (1 + (2 + 0))) + 1 / (1 + (1 + (2 + 0)))) (1 / 2)); [|lra].
    destruct (Rle_dec (0 + 1 / (1 + (1 + (2 + 0))) + 2 / (1 + (1 + (2 + 0)))) (1 / 2)); [lra|].
    destruct (Rle_dec _ (1 / 2)); [lra|]. lra.
Qed.
Print Assumptions C104_ties_refuted.

(** ** Scaling *)
(** The units of the weights do not matter. *)
Theorem C104_weights : forall ws c, c <> 0 -> rsum ws <> 0 -> normalise (map (fun w => c * w) ws) = normalise ws.
Proof.
  intros ws c C T. unfold normalise. rewrite map_map. apply map_ext. intro w. rewrite (rsum_scale (fun x => x) c ws), map_id. field. split; assumption.
Qed.
Print Assumptions C104_weights.
Lemma interp_from_affine a b x0 y0 rest x : interp_from x0 (a * y0 + b) (map (fun p => (fst p, a * snd p + b)) rest) x = a * interp_from x0 y0 rest x + b.
Proof.
  revert x0 y0. induction rest as [|[x1 y1] r IH]; intros; cbn [map fst snd interp_from]; [reflexivity|]. destruct (Rle_dec x1 x); [apply IH|]. unfold Rdiv. ring.
Qed.
Lemma interp_from_affine_x a b x0 y0 rest x : 0 < a -> x0 <= x -> interp_from (a * x0 + b) y0 (map (fun p => (a * fst p + b, snd p)) rest) (a * x + b) = interp_from x0 y0 rest x.
Proof.
  intro A. revert x0 y0. induction rest as [|[x1 y1] r IH]; intros x0 y0 H; cbn [map fst snd interp_from]; [reflexivity|].
  destruct (Rle_dec (a * x1 + b) (a * x + b)) as [B|B]; destruct (Rle_dec x1 x) as [C|C].
  - apply IH. exact C.
  - exfalso. apply C. apply (Rmult_le_reg_l a); lra.
  - exfalso. apply B. apply Rplus_le_compat_r, Rmult_le_compat_l; lra.
  - replace (a * x1 + b - (a * x0 + b)) with (a * (x1 - x0)) by ring. replace (a * x + b - (a * x0 + b)) with (a * (x - x0)) by ring. field. split; lra.
Qed.
Lemma take_map f order xs : incl order (seq 0 (length xs)) -> take order (map f xs) = map f (take order xs).
Proof.
  intro H. unfold take. rewrite map_map. apply map_ext_in. intros i Hi. apply H, in_seq in Hi. rewrite (nth_indep _ 0 (f 0)) by (rewrite map_length; lia). apply map_nth.
Qed.
Lemma sorts_affine order xs a b : 0 < a -> sorts order xs -> sorts order (map (fun x => a * x + b) xs).
Proof.
  intros A [P S1]. split; [rewrite map_length; exact P|]. rewrite take_map by (intros i Hi; apply (Permutation_in _ P); exact Hi).
  revert S1. generalize (take order xs). induction l as [|x l IH]; intro S1; [constructor|]. inversion S1 as [|? ? S2 F]; subst. cbn [map]. constructor; [auto|].
  apply Forall_forall. intros y Hy. apply in_map_iff in Hy. destruct Hy as [z [<- Hz]]. rewrite Forall_forall in F. specialize (F z Hz). apply Rplus_le_compat_r, Rmult_le_compat_l; lra.
Qed.
Lemma dot_affine a b xs ws : length ws = length xs -> dot (map (fun x => a * x + b) xs) ws = a * dot xs ws + b * rsum ws.
Proof.
  revert ws. unfold dot. induction xs as [|x xs IH]; intros [|w ws] L; try discriminate L; [cbn; ring|]. cbn [map combine fst snd rsum fold_right]. unfold rsum in IH. rewrite IH by (cbn in L; lia). ring.
Qed.
Definition var_sum (xs ws : list R) (m : R) : R := dot (map (fun x => (x - m) ^ 2) xs) ws.
Lemma cov_self xs ws : cov xs xs ws = if Rle_dec (cov_factor ws) 0 then None else Some (var_sum xs ws (average xs ws) / cov_factor ws).
Proof.
  unfold cov, var_sum. destruct (Rle_dec (cov_factor ws) 0); [reflexivity|]. do 3 f_equal. generalize (average xs ws). intro m. clear. induction xs as [|x xs IH]; [reflexivity|]. cbn [combine map fst snd]. rewrite IH. f_equal. ring.
Qed.
(** Samples in other units, [a x + b] with [a > 0]: intervals and mean go along, the deviation is multiplied by [a], and the PIT of the
    converted truth is the same. *)
Theorem C104_units : forall xs ws order a b q v, weights_of xs ws -> sorts order xs -> 0 < a -> let f := fun x => a * x + b in let w := normalise ws in
  sorts order (map f xs) /\ quantile (map f xs) w order q = f (quantile xs w order q) /\ cdf_at (map f xs) w order (f v) = cdf_at xs w order v /\
  average (map f xs) w = f (average xs w) /\ sigma (map f xs) w = match sigma xs w with Some s => Some (a * s) | None => None end.
Proof.
  intros xs ws order a b q v W S1 A f w. destruct (sorted_facts xs ws order W S1) as [O [P [T [PE [NE LN]]]]].
  assert (SN : rsum w = 1) by (unfold w; rewrite <- (combine_snd xs (normalise ws)) by exact LN; rewrite <- (rsum_perm _ _ (Permutation_map snd PE)); exact T).
  assert (PF : pairs order (map f xs) w = map (fun p => (f (fst p), snd p)) (pairs order xs w)).
  { unfold pairs. rewrite map_map. apply map_ext_in. intros i Hi. cbn [fst snd]. f_equal. apply (Permutation_in _ (proj1 S1)), in_seq in Hi. rewrite (nth_indep _ 0 (f 0)) by (rewrite map_length; lia). apply map_nth. }
  assert (NF : forall acc s, nodes acc (map (fun p => (f (fst p), snd p)) s) = map (fun p => (fst p, f (snd p))) (nodes acc s)).
  { intros acc s. revert acc. induction s as [|[x u] s IH]; intro acc; [reflexivity|]. cbn [map nodes fst snd]. rewrite IH. reflexivity. }
  assert (AV : average (map f xs) w = f (average xs w)).
  { unfold average. unfold f at 1. rewrite dot_affine by exact LN. rewrite SN. unfold f. field. }
  split; [apply sorts_affine; assumption|]. split; [|split; [|split; [exact AV|]]].
  - rewrite !quantile_nodes, PF, NF. fold w in NE. destruct (pairs order xs w) as [|[y0 w0] r]; [congruence|]. cbn [nodes map fst snd]. destruct (Rlt_dec q (0 + w0)); [reflexivity|]. apply (interp_from_affine a b).
  - rewrite !cdf_nodes, PF, NF. fold w in NE. destruct (pairs order xs w) as [|[y0 w0] r]; [congruence|]. cbn [nodes map fst snd]. rewrite map_map. cbn [fst snd].
    assert (E : map (fun x => (f (snd x), fst x)) (nodes (0 + w0) r) = map (fun p => (a * fst p + b, snd p)) (map (fun p => (snd p, fst p)) (nodes (0 + w0) r))) by (rewrite map_map; reflexivity).
    rewrite E. destruct (Rlt_dec (f v) (f y0)) as [B|B]; destruct (Rlt_dec v y0) as [C|C]; unfold f in B; try reflexivity.
    + exfalso. apply C. apply (Rmult_lt_reg_l a); lra.
    + exfalso. apply B. apply Rplus_lt_compat_r, Rmult_lt_compat_l; lra.
    + apply (interp_from_affine_x a b); lra.
  - unfold sigma. rewrite !cov_self. destruct (Rle_dec (cov_factor w) 0) as [B|B]; [reflexivity|]. f_equal.
    assert (V : var_sum (map f xs) w (average (map f xs) w) = a ^ 2 * var_sum xs w (average xs w)).
    { rewrite AV. unfold var_sum. rewrite map_map. rewrite (map_ext _ (fun x => a ^ 2 * (x - average xs w) ^ 2 + 0)) by (intro x; unfold f; ring).
      rewrite <- (map_map (fun x => (x - average xs w) ^ 2) (fun y => a ^ 2 * y + 0)). rewrite dot_affine by (rewrite map_length; exact LN). ring. }
    rewrite V. replace (a ^ 2 * var_sum xs w (average xs w) / cov_factor w) with (a ^ 2 * (var_sum xs w (average xs w) / cov_factor w)) by (field; lra).
    rewrite sqrt_mult_alt by (apply pow2_ge_0). rewrite sqrt_pow2 by lra. reflexivity.
Qed.
Print Assumptions C104_units.

(** ** PIT *)
Lemma chain_swap x0 y0 rest : chain x0 y0 rest -> chain y0 x0 (map (fun p => (snd p, fst p)) rest).
Proof. revert x0 y0. induction rest as [|[x1 y1] r IH]; intros; cbn [map chain fst snd] in *; [exact I|]. destruct H as [A [B C]]. auto. Qed.
Lemma nodes_last acc s : fold_left (fun _ p => fst p) (nodes acc s) acc = acc + rsum (map snd s).
Proof.
  revert acc. induction s as [|[x w] r IH]; intro acc; [cbn; ring|]. cbn [nodes fold_left fst]. change (rsum (map snd ((x, w) :: r))) with (w + rsum (map snd r)). rewrite <- Rplus_assoc, <- IH. reflexivity.
Qed.
Lemma nodes_upper acc s : Forall (fun p => 0 <= snd p) s -> Forall (fun p => fst p <= acc + rsum (map snd s)) (nodes acc s).
Proof.
  revert acc. induction s as [|[x w] r IH]; intros acc F; cbn [nodes]; constructor; inversion F as [|? ? F1 F2]; subst; cbn [fst snd] in *; change (rsum (map snd ((x, w) :: r))) with (w + rsum (map snd r)).
  - assert (0 <= rsum (map snd r)); [|lra]. apply rsum_nonneg. intros y Hy. apply in_map_iff in Hy. destruct Hy as [p [<- Hp]]. rewrite Forall_forall in F2. auto.
  - rewrite <- Rplus_assoc. apply IH. exact F2.
Qed.
Lemma interp_from_past x0 y0 s x : Forall (fun p => fst p <= x) s -> x0 <= x -> interp_from x0 y0 s x = fold_left (fun _ p => snd p) s y0.
Proof.
  revert x0 y0. induction s as [|[x1 y1] r IH]; intros x0 y0 F H; cbn [interp_from fold_left snd]; [reflexivity|]. inversion F as [|? ? F1 F2]; subst. cbn [fst] in F1.
  destruct (Rle_dec x1 x); [|lra]. apply IH; assumption.
Qed.
(** The PIT grows with the truth from the weight of the lowest sample, which it also has below all samples, to one. *)
Theorem C104_pit : forall xs ws order v v', weights_of xs ws -> sorts order xs -> let F := cdf_at xs (normalise ws) order in let first := nth (hd 0%nat order) (normalise ws) 0 in
  first <= F v <= 1 /\ (v <= v' -> F v <= F v') /\ (Forall (fun x => v < x) xs -> F v = first) /\ (Forall (fun x => x <= v) xs -> F v = 1).
Proof.
  intros xs ws order v v' W S1 F first. destruct (sorted_facts xs ws order W S1) as [O [P [T [PE [NE LN]]]]]. unfold F. rewrite !cdf_nodes.
  assert (FX : forall Q, Forall Q xs -> Forall (fun p => Q (fst p)) (pairs order xs (normalise ws))).
  { intros Q H. apply Forall_forall. intros p Hp. apply (Permutation_in _ PE) in Hp. destruct p as [x w]. apply in_combine_l in Hp. rewrite Forall_forall in H. apply H. exact Hp. }
  assert (FI : first = snd (hd (0, 0) (pairs order xs (normalise ws)))).
  { unfold first, pairs. destruct order as [|i o]; [exfalso; apply NE; reflexivity|reflexivity]. }
  rewrite FI. clear FI first. destruct (pairs order xs (normalise ws)) as [|[y0 w0] r] eqn:E; [congruence|]. inversion O as [|? ? O1 O2]; inversion P as [|? ? P1 P2]; subst. cbn [fst snd] in *.
  cbn [nodes map fst snd hd]. change (w0 + rsum (map snd r) = 1) in T. rewrite !Rplus_0_l.
  pose proof (chain_swap _ _ _ (nodes_chain w0 y0 r O2 O1 P2)) as C. pose proof (nodes_upper w0 r P2) as U. rewrite T in U.
  assert (U' : Forall (fun p => snd p <= 1) (map (fun p : R * R => (snd p, fst p)) (nodes w0 r))) by (apply Forall_map; exact U).
  assert (W1 : w0 <= 1) by (assert (0 <= rsum (map snd r)); [apply rsum_nonneg; intros y Hy; apply in_map_iff in Hy; destruct Hy as [p [<- Hp]]; rewrite Forall_forall in P2; auto|lra]).
  split; [|split; [|split]].
  - destruct (Rlt_dec v y0); [lra|]. split; [apply interp_from_low; [lra|exact C]|apply interp_from_high; [lra|exact C|lra|exact U']].
  - intro L. destruct (Rlt_dec v y0); destruct (Rlt_dec v' y0); try lra; [apply interp_from_low; [lra|exact C]|apply interp_from_mono; [lra|lra|exact C]].
  - intro H. apply FX in H. inversion H; subst. cbn [fst] in *. destruct (Rlt_dec v y0); [reflexivity|lra].
  - intro H. apply FX in H. inversion H as [|? ? H1 H2]; subst. cbn [fst] in *. destruct (Rlt_dec v y0); [lra|]. rewrite interp_from_past; [|apply Forall_map|lra].
    + rewrite <- T. rewrite <- nodes_last. assert (G : forall s acc, fold_left (fun _ p => snd p) (map (fun p : R * R => (snd p, fst p)) s) acc = fold_left (fun _ p => fst p) s acc) by (induction s as [|p s IH]; intro acc; [reflexivity|cbn; apply IH]). apply G.
    + cbn [fst]. clear - H2. revert H2. generalize w0. induction r as [|[x w] r IH]; intros acc H2; cbn [nodes]; constructor; inversion H2; subst; cbn [snd fst] in *; [lra|auto].
Qed.
Print Assumptions C104_pit.
(** Quantile and PIT are inverse to each other from the weight of the lowest sample on, if samples differ and weights are positive. *)
Theorem C104_inverse : forall xs ws order q, weights_of xs ws -> sorts order xs -> NoDup xs -> Forall (fun w => 0 < w) ws -> nth (hd 0%nat order) (normalise ws) 0 <= q <= 1 ->
  cdf_at xs (normalise ws) order (quantile xs (normalise ws) order q) = q.
Proof.
  intros xs ws order q W S1 ND PW Q. destruct (sorted_facts xs ws order W S1) as [O [P [T [PE [NE LN]]]]]. rewrite quantile_nodes, cdf_nodes.
  assert (PP : Forall (fun p => 0 < snd p) (pairs order xs (normalise ws))).
  { apply Forall_forall. intros p Hp. apply (Permutation_in _ PE) in Hp. destruct p as [x w]. apply in_combine_r in Hp. unfold normalise in Hp. apply in_map_iff in Hp. destruct Hp as [u [<- Hu]].
    rewrite Forall_forall in PW. cbn [snd]. apply Rmult_lt_0_compat; [auto|]. apply Rinv_0_lt_compat. destruct W as [_ [_ W]]. exact W. }
  assert (ND' : NoDup (map fst (pairs order xs (normalise ws)))).
  { apply (Permutation_NoDup (Permutation_sym (Permutation_map fst PE))). rewrite combine_fst by exact LN. exact ND. }
  assert (FI : nth (hd 0%nat order) (normalise ws) 0 = snd (hd (0, 0) (pairs order xs (normalise ws)))).
  { unfold pairs. destruct order as [|i o]; [exfalso; apply NE; reflexivity|reflexivity]. }
  rewrite FI in Q. destruct (pairs order xs (normalise ws)) as [|[y0 w0] r] eqn:E; [congruence|]. cbn [hd snd] in Q.
  cbn [nodes map fst snd]. rewrite !Rplus_0_l. change (w0 + rsum (map snd r) = 1) in T.
  destruct (Rlt_dec q w0); [lra|].
  assert (ST : strict w0 y0 (nodes w0 r)).
  { clear - O PP ND'. revert y0 w0 O PP ND'. induction r as [|[y1 w1] r IH]; intros; cbn [nodes strict]; [exact I|].
    inversion O as [|? ? O1 O2]; inversion PP as [|? ? P1 P2]; inversion ND' as [|? ? N1 N2]; inversion O2 as [|? ? O3 O4]; inversion P2 as [|? ? P3 P4]; subst. cbn [fst snd map] in *.
    split; [lra|]. split.
    - assert (y0 <> y1) by (intro X; apply N1; left; auto). lra.
    - specialize (IH y1 (w0 + w1)). apply IH; [inversion O1; subst; constructor; assumption|constructor; [cbn; lra|assumption]|exact N2]. }
  destruct (interp_inverse w0 y0 (nodes w0 r) q ltac:(lra) ltac:(rewrite nodes_last; lra) ST) as [I1 I2].
  destruct (Rlt_dec (interp_from w0 y0 (nodes w0 r) q) y0); [lra|exact I2].
Qed.
Print Assumptions C104_inverse.
Example C104_inverse_sat : exists xs ws order q, weights_of xs ws /\ sorts order xs /\ NoDup xs /\ (Forall (fun w => 0 < w) ws) /\ nth (hd 0%nat order) (normalise ws) 0 <= q <= 1.
Proof. exists [3; 1; 2], [1; 1; 2], [1%nat; 2%nat; 0%nat], (1/2). split; [repeat split; [repeat (constructor; try lra)|cbn; lra]|]. split; [split; [cbn; apply Permutation_sym; apply (perm_trans (perm_swap 1%nat 0%nat [2%nat])); apply perm_skip, perm_swap|cbn; repeat (constructor; try lra)]|]. split; [repeat constructor; cbn; intuition lra|]. split; [repeat (constructor; try lra)|cbn; lra]. Qed.

(** ** Standard deviations *)
Lemma rsum_repeat c n : rsum (repeat c n) = INR n * c.
Proof. induction n as [|n IH]; [cbn; ring|]. cbn [repeat]. change (rsum (c :: repeat c n)) with (c + rsum (repeat c n)). rewrite IH, S_INR. ring. Qed.
Lemma normalise_repeat c n : (0 < n)%nat -> c <> 0 -> normalise (repeat c n) = repeat (/ INR n) n.
Proof.
  intros N C. assert (0 < INR n) by (apply lt_0_INR; lia). unfold normalise. rewrite rsum_repeat.
  assert (G : forall m, map (fun w => w / (INR n * c)) (repeat c m) = repeat (/ INR n) m) by (induction m as [|m IH]; cbn; [reflexivity|rewrite IH; f_equal; field; lra]). apply G.
Qed.
Lemma dot_repeat xs v : dot xs (repeat v (length xs)) = v * rsum xs.
Proof. unfold dot. induction xs as [|x xs IH]; [cbn; ring|]. cbn [length repeat combine map fst snd]. change (rsum (x :: xs)) with (x + rsum xs). change (rsum (?a :: ?l)) with (a + rsum l). cbn [rsum fold_right]. unfold rsum in *. rewrite IH. ring. Qed.
(** Equal weights give the usual unbiased estimate. *)
Theorem C104_sigma_equal : forall xs c, (2 <= length xs)%nat -> c <> 0 -> let n := INR (length xs) in let m := rsum xs / n in
  average xs (normalise (repeat c (length xs))) = m /\ sigma xs (normalise (repeat c (length xs))) = Some (sqrt (rsum (map (fun x => (x - m) ^ 2) xs) / (n - 1))).
Proof.
  intros xs c L C n m. assert (N : 2 <= n) by (unfold n; change 2 with (INR 2); apply le_INR; exact L). rewrite normalise_repeat by (lia || exact C). fold n.
  assert (S1 : rsum (repeat (/ n) (length xs)) = 1) by (rewrite rsum_repeat; fold n; field; lra).
  assert (A : average xs (repeat (/ n) (length xs)) = m) by (unfold average; rewrite S1, dot_repeat; unfold m; field; lra).
  split; [exact A|]. unfold sigma. rewrite cov_self, A.
  assert (F : cov_factor (repeat (/ n) (length xs)) = (n - 1) / n).
  { unfold cov_factor. rewrite S1. pose proof (dot_repeat (repeat (/ n) (length xs)) (/ n)) as D. rewrite repeat_length in D. rewrite D, S1. field. lra. }
  rewrite F. assert (0 < (n - 1) / n) by (apply Rdiv_lt_0_compat; lra). destruct (Rle_dec _ 0); [lra|]. do 2 f_equal.
  unfold var_sum. pose proof (dot_repeat (map (fun x => (x - m) ^ 2) xs) (/ n)) as D. rewrite map_length in D. rewrite D. field. lra.
Qed.
Print Assumptions C104_sigma_equal.
Lemma rsum_in_le l x : (forall y, In y l -> 0 <= y) -> In x l -> x <= rsum l.
Proof.
  induction l as [|a l IH]; intros P H; [destruct H|]. change (rsum (a :: l)) with (a + rsum l). assert (0 <= rsum l) by (apply rsum_nonneg; intros; apply P; right; assumption). pose proof (P a (or_introl eq_refl)).
  destruct H as [->|H]; [lra|]. assert (x <= rsum l) by (apply IH; auto; intros; apply P; right; assumption). lra.
Qed.
Lemma dot_self l : dot l l = rsum (map (fun w => w * w) l).
Proof. unfold dot. induction l as [|a l IH]; [reflexivity|]. cbn. unfold rsum in IH. rewrite IH. reflexivity. Qed.
(** There is no deviation exactly if all the weight is on one sample. *)
Theorem C104_sigma_nan : forall xs ws, weights_of xs ws -> sigma xs (normalise ws) = None <-> In 1 (normalise ws).
Proof.
  intros xs ws [L [W T]]. set (w := normalise ws).
  assert (S1 : rsum w = 1) by (unfold w, normalise; rewrite (map_ext _ (fun u => u * / rsum ws)) by reflexivity; rewrite (rsum_scale_r (fun u => u)), map_id; field; lra).
  assert (P : forall u, In u w -> 0 <= u).
  { intros u H. unfold w, normalise in H. apply in_map_iff in H. destruct H as [v [<- Hv]]. rewrite Forall_forall in W. apply Rmult_le_pos; [auto|]. left. apply Rinv_0_lt_compat. exact T. }
  assert (B : forall u, In u w -> u <= 1) by (intros u H; rewrite <- S1; apply rsum_in_le; assumption).
  assert (F : cov_factor w = rsum (map (fun u => u * (1 - u)) w)).
  { unfold cov_factor. rewrite dot_self, S1. rewrite <- S1 at 1. rewrite <- (map_id w) at 1. unfold Rdiv. rewrite Rinv_1, Rmult_1_r. rewrite <- rsum_minus. apply rsum_ext. intros u _. ring. }
  assert (T0 : forall u, In u w -> 0 <= u * (1 - u)) by (intros u H; apply Rmult_le_pos; [apply P; exact H|pose proof (B u H); lra]).
  unfold sigma. rewrite cov_self, F. split.
  - destruct (Rle_dec (rsum (map (fun u => u * (1 - u)) w)) 0) as [Z|Z]; [|discriminate]. intros _.
    assert (E : forall u, In u w -> u = 0 \/ u = 1).
    { intros u H. assert (u * (1 - u) <= rsum (map (fun v => v * (1 - v)) w)).
      { apply rsum_in_le; [|apply in_map_iff; exists u; auto]. intros y Hy. apply in_map_iff in Hy. destruct Hy as [v [<- Hv]]. auto. }
      assert (D : u * (1 - u) = 0) by (pose proof (T0 u H); lra). apply Rmult_integral in D. destruct D; [auto|right; lra]. }
    destruct (in_dec Req_EM_T 1 w) as [I|I]; [exact I|]. exfalso. assert (rsum w = 0); [|lra]. rewrite <- (map_id w). apply rsum_zero. intros u H. destruct (E u H); [assumption|subst; tauto].
  - intro H. destruct (Rle_dec (rsum (map (fun u => u * (1 - u)) w)) 0) as [Z|Z]; [reflexivity|]. exfalso. apply Z. right.
    apply in_split in H. destruct H as [a [b H]]. rewrite H in *. rewrite map_app, rsum_app. cbn [map]. change (rsum (1 * (1 - 1) :: map (fun u => u * (1 - u)) b)) with (1 * (1 - 1) + rsum (map (fun u => u * (1 - u)) b)).
    rewrite rsum_app in S1. change (rsum (1 :: b)) with (1 + rsum b) in S1.
    assert (Pa : 0 <= rsum a) by (apply rsum_nonneg; intros; apply P, in_app_iff; auto). assert (Pb : 0 <= rsum b) by (apply rsum_nonneg; intros; apply P, in_app_iff; right; right; assumption).
    assert (Za : forall u, In u a -> u = 0). { intros u Hu. assert (u <= rsum a) by (apply rsum_in_le; [intros; apply P, in_app_iff; auto|exact Hu]). pose proof (P u ltac:(apply in_app_iff; auto)). lra. }
    assert (Zb : forall u, In u b -> u = 0). { intros u Hu. assert (u <= rsum b) by (apply rsum_in_le; [intros; apply P, in_app_iff; right; right; assumption|exact Hu]). pose proof (P u ltac:(apply in_app_iff; right; right; exact Hu)). lra. }
    rewrite (rsum_zero _ a), (rsum_zero _ b); [ring|intros u Hu; rewrite (Zb u Hu); ring|intros u Hu; rewrite (Za u Hu); ring].
Qed.
Print Assumptions C104_sigma_nan.

(** ** Metrics *)
(** A distribution of one parameter is never accepted. *)
Theorem C104_one_parameter_refuted : forall tv points ws argsort, exists e, base_metrics tv 1 points ws argsort = Raised e.
Proof.
  intros. unfold base_metrics. destruct (negb (length ws =? length points)%nat); [eauto|]. destruct (existsb _ (normalise ws)); [eauto|]. cbn [Nat.eqb]. eauto.
Qed.
Print Assumptions C104_one_parameter_refuted.
(** Otherwise usable weights are accepted exactly if no truth is given, or one for each parameter, or a single one. *)
Theorem C104_returns : forall tv n points ws argsort, n <> 1%nat -> length ws = length points -> Forall (fun w => 0 <= w) ws -> 0 < rsum ws ->
  (exists m, base_metrics tv n points ws argsort = Returned m) <-> match tv with None => True | Some l => (n <= length l)%nat \/ length l = 1%nat end.
Proof.
  intros tv n points ws argsort N L W T. unfold base_metrics. rewrite (proj2 (Nat.eqb_eq _ _) L). cbn [negb].
  assert (E : existsb (fun v => if Rlt_dec v 0 then true else false) (normalise ws) = false).
  { apply Bool.not_true_is_false. intro H. apply existsb_exists in H. destruct H as [v [Hv H]]. destruct (Rlt_dec v 0) as [A|A]; [|discriminate]. unfold normalise in Hv. apply in_map_iff in Hv. destruct Hv as [w [<- Hw]].
    rewrite Forall_forall in W. assert (0 <= w / rsum ws); [|lra]. apply Rmult_le_pos; [auto|]. left. apply Rinv_0_lt_compat. exact T. }
  rewrite E. rewrite (proj2 (Nat.eqb_neq _ _) N). cbv zeta. destruct tv as [l|]; [|split; eauto].
  unfold broadcast. rewrite firstn_length. destruct (Nat.eqb_spec (Nat.min n (length l)) n) as [B|B].
  - split; eauto. intros _. left. lia.
  - destruct l as [|t l]; [rewrite firstn_nil; cbn in *; split; [intros [m X]; discriminate X|lia]|]. destruct n as [|n]; [cbn in B; lia|]. cbn [firstn].
    destruct n as [|n]; [lia|]. destruct l as [|t' l]; cbn [firstn].
    + split; [auto|eauto].
    + split; [intros [m X]; discriminate X|cbn in *; lia].
Qed.
Print Assumptions C104_returns.
(** Then the credible intervals of 68 per cent cover the truth only where those of 95 do. *)
Theorem C104_cover : forall tv n points ws argsort m t p, length ws = length points -> Forall (fun w => 0 <= w) ws -> 0 < rsum ws -> (forall p, sorts (argsort p) (column points p)) ->
  base_metrics tv n points ws argsort = Returned m -> truth m = Some t -> nth p (cover_68 t) false = true -> nth p (cover_95 t) false = true.
Proof.
  intros tv n points ws argsort m t p L W T S1 E TM. unfold base_metrics in E. destruct (negb _); [discriminate|]. destruct (existsb _ _); [discriminate|]. destruct (n =? 1)%nat; [discriminate|]. cbv zeta in E.
  destruct tv as [l|]; [|injection E as <-; discriminate TM]. destruct (broadcast n (firstn n l)) as [b|]; [|discriminate]. injection E as <-. cbn [truth] in TM. injection TM as <-. cbn [cover_68 cover_95].
  set (k := length (firstn n l)). destruct (Nat.lt_ge_cases p k) as [K|K].
  - set (ci := fun q => intervals (column points q) (normalise ws) (argsort q)). set (f := fun q => within (lo1 (ci q)) (hi1 (ci q)) (nth q (firstn n l) 0)). set (g := fun q => within (lo2 (ci q)) (hi2 (ci q)) (nth q (firstn n l) 0)).
    change (nth p (map f (seq 0 k)) false = true -> nth p (map g (seq 0 k)) false = true).
    rewrite (nth_indep (map f (seq 0 k)) false (f 0%nat)) by (rewrite map_length, seq_length; exact K). rewrite (nth_indep (map g (seq 0 k)) false (g 0%nat)) by (rewrite map_length, seq_length; exact K).
    rewrite !map_nth, !seq_nth by exact K. cbn [Nat.add]. unfold f, g, ci.
    assert (WO : weights_of (column points p) ws) by (split; [unfold column; rewrite map_length; exact L|auto]).
    destruct (C104_nested (column points p) ws (argsort p) WO (S1 p)) as [[A1 A2] [A3 A4]].
    unfold within. destruct (Rle_dec (lo1 _) _); [|discriminate]. destruct (Rle_dec _ (hi1 _)); [|discriminate]. intros _. destruct (Rle_dec (lo2 _) _); [|lra]. destruct (Rle_dec _ (hi2 _)); [reflexivity|lra].
  - intro H. rewrite nth_overflow in H by (rewrite map_length, seq_length; exact K). discriminate.
Qed.
Print Assumptions C104_cover.

(** What is returned, parameter by parameter: the weighted mean, the interval, and with a truth the distance in units of sigma, the mean square
    distance, the PIT value and the coverage, of that parameter's samples. A single true value stands for all parameters. *)
Lemma nth_seq_map {A} (f : nat -> A) n p d : (p < n)%nat -> nth p (map f (seq 0 n)) d = f p.
Proof. intro H. rewrite (nth_indep _ d (f 0%nat)) by (rewrite map_length, seq_length; exact H). rewrite map_nth, seq_nth by exact H. reflexivity. Qed.
Lemma nth_firstn {A} (l : list A) n p d : (p < n)%nat -> nth p (firstn n l) d = nth p l d.
Proof. revert n p. induction l as [|a l IH]; intros [|n] [|p] H; try reflexivity; try lia. cbn. apply IH. lia. Qed.
Lemma average_normalise xs ws : rsum ws <> 0 -> average xs (normalise ws) = dot xs ws / rsum ws.
Proof.
  intro N. assert (D : forall t, dot xs (map (fun w => w * / t) ws) = dot xs ws * / t).
  { intro t. unfold dot. revert ws N. clear. assert (H : forall ws, rsum (map (fun p => fst p * snd p) (combine xs (map (fun w => w * / t) ws))) = rsum (map (fun p => fst p * snd p) (combine xs ws)) * / t); [|auto].
    induction xs as [|x xs IH]; intros [|w ws]; try (cbn; ring). cbn [map combine fst snd]. unfold rsum in *. cbn [fold_right]. rewrite IH. ring. }
  unfold average, normalise, Rdiv. rewrite D. rewrite (rsum_scale_r (fun w => w)), map_id. field. exact N.
Qed.
Theorem C104_metrics : forall tv n points ws argsort m, 0 < rsum ws -> base_metrics tv n points ws argsort = Returned m ->
  let mean p := dot (column points p) ws / rsum ws in let sg p := sigma (column points p) (normalise ws) in let ci p := intervals (column points p) (normalise ws) (argsort p) in
  length (means m) = n /\ length (sigmas m) = n /\ length (cis m) = n /\
  (forall p, (p < n)%nat -> nth p (means m) 0 = mean p /\ nth p (sigmas m) None = sg p /\ nth p (cis m) (ci 0%nat) = ci p) /\
  match tv with
  | None => truth m = None
  | Some l => let goal p := if (length l =? 1)%nat then hd 0 l else nth p l 0 in
      exists t, truth m = Some t /\ length (pit t) = Nat.min n (length l) /\
      (forall p, (p < n)%nat -> match nth p (z_scores t) None with Some z => exists s, sg p = Some s /\ s <> 0 /\ z * s = Rabs (mean p - goal p) | None => sg p = None \/ sg p = Some 0 end) /\
      0 <= rmse t /\ ((0 < n)%nat -> rmse t ^ 2 * INR n = rsum (map (fun p => (mean p - goal p) ^ 2) (seq 0 n))) /\
      (forall p, (p < n)%nat -> (p < length l)%nat -> nth p (pit t) 0 = cdf_at (column points p) (normalise ws) (argsort p) (nth p l 0) /\
        (nth p (cover_68 t) false = true <-> lo1 (ci p) <= nth p l 0 <= hi1 (ci p)) /\ (nth p (cover_95 t) false = true <-> lo2 (ci p) <= nth p l 0 <= hi2 (ci p)))
  end.
Proof.
  intros tv n points ws argsort m T E. cbv zeta. unfold base_metrics in E. destruct (negb _); [discriminate|]. destruct (existsb _ _); [discriminate|]. destruct (n =? 1)%nat eqn:N1; [discriminate|]. cbv zeta in E. apply Nat.eqb_neq in N1.
  assert (AV : forall p, average (column points p) (normalise ws) = dot (column points p) ws / rsum ws) by (intro p; apply average_normalise; lra).
  assert (C : length (means m) = n /\ length (sigmas m) = n /\ length (cis m) = n /\
    forall p, (p < n)%nat -> nth p (means m) 0 = dot (column points p) ws / rsum ws /\ nth p (sigmas m) None = sigma (column points p) (normalise ws) /\
     nth p (cis m) (intervals (column points 0) (normalise ws) (argsort 0%nat)) = intervals (column points p) (normalise ws) (argsort p)).
  { assert (M : means m = map (fun p => average (column points p) (normalise ws)) (seq 0 n) /\ sigmas m = map (fun p => sigma (column points p) (normalise ws)) (seq 0 n) /\ cis m = map (fun p => intervals (column points p) (normalise ws) (argsort p)) (seq 0 n)).
    { destruct tv as [l|]; [destruct (broadcast n (firstn n l)); [|discriminate]|]; injection E as <-; auto. }
    destruct M as [-> [-> ->]]. rewrite !map_length, !seq_length. repeat split; try (rewrite nth_seq_map by assumption; auto). }
  destruct C as [C1 [C2 [C3 C4]]]. split; [exact C1|]. split; [exact C2|]. split; [exact C3|]. split; [exact C4|].
  destruct tv as [l|]; [|injection E as <-; reflexivity]. destruct (broadcast n (firstn n l)) as [b|] eqn:B; [|discriminate]. injection E as <-. cbn [truth]. eexists. split; [reflexivity|].
  cbn [pit z_scores rmse cover_68 cover_95]. rewrite map_length, seq_length, firstn_length. split; [reflexivity|].
  assert (GB : forall p, (p < n)%nat -> nth p b 0 = if (length l =? 1)%nat then hd 0 l else nth p l 0).
  { intros p P. unfold broadcast in B. rewrite firstn_length in B. destruct (Nat.eqb_spec (Nat.min n (length l)) n) as [Q|Q].
    - injection B as <-. rewrite nth_firstn by exact P. destruct (Nat.eqb_spec (length l) 1); [lia|reflexivity].
    - destruct l as [|x l]; [rewrite firstn_nil in B; discriminate|]. destruct n as [|[|n]]; [lia|lia|]. cbn [firstn] in B. destruct l as [|y l]; [|cbn [firstn] in B; discriminate].
      cbn [firstn] in B. injection B as <-. change (nth p (repeat x (S (S n))) 0 = x). rewrite (nth_indep _ 0 x) by (rewrite repeat_length; exact P). apply nth_repeat. }
  split; [|split; [apply sqrt_pos|split]].
  - intros p P. rewrite nth_seq_map by exact P. rewrite AV, GB by exact P. destruct (sigma (column points p) (normalise ws)) as [s|]; [|auto]. destruct (Req_EM_T s 0) as [->|NZ]; [auto|].
    exists s. split; [reflexivity|]. split; [exact NZ|]. field. exact NZ.
  - intro P. rewrite pow2_sqrt.
    + assert (INR n <> 0) by (apply not_0_INR; lia). unfold Rdiv at 1. rewrite Rmult_assoc, Rinv_l, Rmult_1_r by assumption. apply rsum_ext. intros p Hp. apply in_seq in Hp. rewrite AV, GB by lia. reflexivity.
    + apply Rmult_le_pos; [apply rsum_nonneg; intros x Hx; apply in_map_iff in Hx; destruct Hx as [p [<- _]]; apply pow2_ge_0|]. left. apply Rinv_0_lt_compat, lt_0_INR. exact P.
  - intros p P Q. assert (K : (p < length (firstn n l))%nat) by (rewrite firstn_length; lia). rewrite firstn_length in K. rewrite !nth_seq_map by exact K. rewrite nth_firstn by exact P. split; [reflexivity|].
    unfold within. split; destruct (Rle_dec _ _) as [X|X]; try destruct (Rle_dec _ _) as [Y|Y]; split; try discriminate; tauto.
Qed.
Print Assumptions C104_metrics.
(** Missing weights are equal weights, of whatever size. *)
Theorem C104_default_weights : forall tv n points argsort c, 0 < c -> points <> [] ->
  base_metrics tv n points (sample_weights (length points) None) argsort = base_metrics tv n points (repeat c (length points)) argsort.
Proof.
  intros tv n points argsort c C N. unfold base_metrics, sample_weights. rewrite !repeat_length.
  assert (E : normalise (repeat c (length points)) = normalise (repeat 1 (length points))).
  { assert (MR : forall k, repeat c k = map (fun w => c * w) (repeat 1 k)) by (induction k as [|k IH]; [reflexivity|]; cbn [repeat map]; rewrite <- IH, Rmult_1_r; reflexivity). rewrite MR. apply C104_weights; [lra|].
    destruct points as [|a points]; [congruence|]. cbn [length repeat]. change (1 + rsum (repeat 1 (length points)) <> 0). assert (0 <= rsum (repeat 1 (length points))); [|lra]. apply rsum_nonneg. intros x Hx. apply repeat_spec in Hx. lra. }
  rewrite E. reflexivity.
Qed.
Print Assumptions C104_default_weights.

(** ** The collection *)
Definition keys {D} (d : list (string * D)) : list string := map fst d.
Fixpoint get {D} (d : list (string * D)) (k : string) : option D := match d with [] => None | (k', v) :: r => if String.eqb k k' then Some v else get r k end.
Lemma assign_keys {D} (d : list (string * D)) k v : keys (assign d k v) = if in_dec string_dec k (keys d) then keys d else (keys d ++ [k])%list.
Proof.
  induction d as [|[k' v'] r IH]; [reflexivity|]. cbn [assign keys map fst]. destruct (String.eqb_spec k k') as [->|N].
  - cbn [keys map fst]. destruct (in_dec string_dec k' (k' :: map fst r)) as [_|X]; [reflexivity|exfalso; apply X; left; reflexivity].
  - cbn [keys map fst]. unfold keys in IH. rewrite IH. destruct (in_dec string_dec k (map fst r)) as [I|I]; destruct (in_dec string_dec k (k' :: map fst r)) as [J|J]; try reflexivity.
    + exfalso. apply J. right. exact I.
    + destruct J as [J|J]; [congruence|tauto].
Qed.
Lemma assign_get {D} (d : list (string * D)) k v k' : get (assign d k v) k' = if String.eqb k' k then Some v else get d k'.
Proof.
  induction d as [|[k0 v0] r IH]; cbn [assign get]; [reflexivity|]. destruct (String.eqb_spec k k0) as [->|N]; cbn [get].
  - destruct (String.eqb k' k0); reflexivity.
  - rewrite IH. destruct (String.eqb_spec k' k0) as [->|M]; [|reflexivity]. destruct (String.eqb_spec k0 k); [congruence|reflexivity].
Qed.
(** An accepted distribution is found under its label, every other label keeps its own, and a label that is there keeps its place; a rejected one
    changes nothing. *)
Theorem C104_add : forall A D (stats : A -> outcome D) d label a, match stats a with
  | Returned s => let k := get_label d label in let d' := add_distribution stats d (label, a) in
      get d' k = Some s /\ (forall k', k' <> k -> get d' k' = get d k') /\ keys d' = (if in_dec string_dec k (keys d) then keys d else (keys d ++ [k])%list)
  | Raised _ => add_distribution stats d (label, a) = d end.
Proof.
  intros A D stats d label a. unfold add_distribution. cbn [fst snd]. destruct (stats a) as [s|e]; [|reflexivity]. cbv zeta. split; [|split].
  - rewrite assign_get, String.eqb_refl. reflexivity.
  - intros k' N. rewrite assign_get. destruct (String.eqb_spec k' (get_label d label)); [congruence|reflexivity].
  - apply assign_keys.
Qed.
Print Assumptions C104_add.
(** Labels occur once, whatever the history. *)
Lemma NoDup_snoc {A} (l : list A) x : NoDup l -> ~ In x l -> NoDup (l ++ [x]).
Proof. intros H N. apply (Permutation_NoDup (Permutation_cons_append l x)). constructor; assumption. Qed.
Theorem C104_labels : forall A D (stats : A -> outcome D) calls, NoDup (keys (add_all stats calls)).
Proof.
  intros A D stats calls. unfold add_all. assert (H : forall d : list (string * D), NoDup (keys d) -> NoDup (keys (fold_left (add_distribution stats) calls d))); [|apply H; constructor].
  induction calls as [|[l a] r IH]; intros d N; [exact N|]. cbn [fold_left]. apply IH. unfold add_distribution. cbn [snd]. destruct (stats a); [|exact N].
  rewrite assign_keys. destruct (in_dec _ _ _); [exact N|apply NoDup_snoc; assumption].
Qed.
Print Assumptions C104_labels.
Lemma append_inj a x y : append a x = append a y -> x = y.
Proof. induction a as [|c a IH]; [auto|]. cbn. intro H. injection H as H. auto. Qed.
Lemma default_label_inj m n : default_label m = default_label n -> m = n.
Proof.
  unfold default_label. intro H. apply append_inj in H.
  assert (NN : forall k, Nat.to_uint k <> Nil).
  { intro k. rewrite <- (DecimalNat.Unsigned.of_to k) at 1. rewrite DecimalNat.Unsigned.to_of. apply DecimalFacts.unorm_nonnil. }
  assert (E : NilZero.uint_of_string (NilZero.string_of_uint (Nat.to_uint m)) = NilZero.uint_of_string (NilZero.string_of_uint (Nat.to_uint n))) by congruence.
  rewrite !NilZero.usu in E by apply NN. injection E as E. apply DecimalNat.Unsigned.to_uint_inj. exact E.
Qed.
(** Unlabelled distributions are all kept, in order, as Distribution 1, 2, ... *)
Theorem C104_unlabelled : forall A (data : list A), add_all (fun a => Returned a) (map (fun a => (None, a)) data) = combine (map (fun i => default_label (S i)) (seq 0 (length data))) data.
Proof.
  intros A data. unfold add_all.
  assert (H : forall rest done, fold_left (add_distribution (fun a : A => Returned a)) (map (fun a => (None, a)) rest) (combine (map (fun i => default_label (S i)) (seq 0 (length done))) done) =
    combine (map (fun i => default_label (S i)) (seq 0 (length (done ++ rest)))) (done ++ rest)).
  { induction rest as [|a rest IH]; intro done; [rewrite app_nil_r; reflexivity|]. cbn [map fold_left]. unfold add_distribution at 2. cbn [fst snd get_label].
    assert (LC : length (combine (map (fun i => default_label (S i)) (seq 0 (length done))) done) = length done) by (rewrite combine_length, map_length, seq_length; apply Nat.min_id).
    rewrite LC.
    assert (NEW : assign (combine (map (fun i => default_label (S i)) (seq 0 (length done))) done) (default_label (S (length done))) a = combine (map (fun i => default_label (S i)) (seq 0 (length (done ++ [a])))) (done ++ [a])).
    { assert (G : forall (d : list (string * A)) k v, ~ In k (keys d) -> assign d k v = (d ++ [(k, v)])%list).
      { induction d as [|[k' v'] d IHd]; intros k v N; [reflexivity|]. cbn [assign Datatypes.app]. destruct (String.eqb_spec k k') as [->|M]; [exfalso; apply N; left; reflexivity|]. rewrite IHd; [reflexivity|]. intro X. apply N. right. exact X. }
      rewrite G.
      - rewrite app_length. cbn [length]. rewrite Nat.add_1_r, seq_S, map_app. cbn [map Nat.add].
        assert (C : forall (l : list string) (m : list A) x y, length l = length m -> combine (l ++ [x]) (m ++ [y]) = (combine l m ++ [(x, y)])%list).
        { induction l as [|u l IHl]; intros [|v m] x y E; try discriminate E; [reflexivity|]. apply (f_equal (cons (u, v))). apply IHl. cbn in E. lia. }
        rewrite C; [reflexivity|]. rewrite map_length, seq_length. reflexivity.
      - unfold keys. rewrite combine_fst by (rewrite map_length, seq_length; reflexivity). intro X. apply in_map_iff in X. destruct X as [i [X Hi]]. apply default_label_inj in X. apply in_seq in Hi. lia. }
    rewrite NEW, IH, <- app_assoc. reflexivity. }
  exact (H data []).
Qed.
Print Assumptions C104_unlabelled.
(** With labels in between, an unlabelled distribution replaces an earlier one exactly if that one carries the next default label. *)
Theorem C104_replaced : forall D (d : list (string * D)) s, length (add_distribution (fun a => Returned a) d (None, s)) = S (length d) <-> ~ In (default_label (S (length d))) (keys d).
Proof.
  intros D d s. unfold add_distribution. cbn [fst snd get_label]. set (k := default_label (S (length d))).
  assert (L : length (assign d k s) = length (keys (assign d k s))) by (unfold keys; rewrite map_length; reflexivity). rewrite L, assign_keys.
  assert (LK : length (keys d) = length d) by (unfold keys; apply map_length).
  destruct (in_dec string_dec k (keys d)) as [I|I].
  - split; [lia|tauto].
  - rewrite app_length. cbn [length]. split; [auto|lia].
Qed.
Print Assumptions C104_replaced.
Theorem C104_lost_refuted : exists calls : list (option string * nat), length calls = 2%nat /\ add_all (fun a => Returned a) calls = [("Distribution 2"%string, 2%nat)].
Proof. exists [(Some "Distribution 2"%string, 1%nat); (None, 2%nat)]. split; reflexivity. Qed.
Print Assumptions C104_lost_refuted.

(** A corner plot is refused iff none of the additions was accepted; with the backends corner and getdist it goes to that backend, and with any other name nothing
    is drawn and nothing is said. *)
Theorem C104_plot : forall A D (stats : A -> outcome D) calls backend, let p := plot_corner (add_all stats calls) backend in
  ((forall c, In c calls -> exists e, stats (snd c) = Raised e) <-> p = Raised "ValueError"%string) /\
  ((exists c s, In c calls /\ stats (snd c) = Returned s) -> p = Returned (if in_dec string_dec backend ["corner"; "getdist"]%string then Some backend else None)).
Proof.
  intros A D stats calls backend p.
  assert (E : add_all stats calls = [] <-> forall c, In c calls -> exists e, stats (snd c) = Raised e).
  { unfold add_all. assert (G : forall cs d, fold_left (add_distribution stats) cs d = [] <-> d = [] /\ forall c, In c cs -> exists e, stats (snd c) = Raised e).
    { induction cs as [|c cs IH]; intro d; cbn [fold_left]; [split; [intro H; split; [exact H|intros ? []]|tauto]|]. rewrite IH. unfold add_distribution. destruct (stats (snd c)) as [s|e] eqn:S1.
      - split; [intros [H _]; destruct d as [|[k v] d]; cbn [assign] in H; [discriminate|destruct (String.eqb _ k); discriminate]|]. intros [_ H]. destruct (H c (or_introl eq_refl)) as (e & H'). congruence.
      - split; intros [H1 H2]; (split; [exact H1|]); intros c' I; [destruct I as [<-|I]; [exists e; exact S1|apply H2, I]|apply H2; right; exact I]. }
    rewrite G. tauto. }
  assert (Q : forall d : list (string * D), plot_corner d backend = match d with [] => Raised "ValueError"%string | _ => Returned (if in_dec string_dec backend ["corner"; "getdist"]%string then Some backend else None) end).
  { intros [|x d]; [reflexivity|]. cbn [plot_corner]. destruct (String.eqb_spec backend "corner") as [->|N1]; [reflexivity|]. destruct (String.eqb_spec backend "getdist") as [->|N2]; [reflexivity|].
    destruct (in_dec string_dec backend ["corner"; "getdist"]%string) as [I|I]; [|reflexivity]. destruct I as [I|[I|[]]]; congruence. }
  subst p. rewrite Q, <- E. destruct (add_all stats calls) as [|x d]; split.
  - tauto.
  - intros (c & s & I & R). destruct (proj1 E eq_refl c I) as (e & H). congruence.
  - split; discriminate.
  - reflexivity.
Qed.
Print Assumptions C104_plot.
Example C104_plot_sat : let stats := fun n : nat => if Nat.eqb n 0 then Raised "ValueError"%string else Returned n in let calls := [(None, 0%nat); (Some "b"%string, 2%nat)] in
  (exists c s, In c calls /\ stats (snd c) = Returned s) /\ (forall c, In c [(@None string, 0%nat)] -> exists e, stats (snd c) = Raised e).
Proof. split; [exists (Some "b"%string, 2%nat), 2%nat; split; [right; left|]; reflexivity|]. intros c [<-|[]]. exists "ValueError"%string. reflexivity. Qed.

(** ** Labels, grids and chains *)
Theorem C104_param_labels : forall theta given n i, let l := param_labels theta given n in let g := match given with Some x => x | None => [] end in
  length l = Nat.max n (length g) /\ ((i < length g)%nat -> nth i l EmptyString = nth i g EmptyString) /\ ((length g <= i < n)%nat -> nth i l EmptyString = theta (S i)).
Proof.
  intros theta given n i. cbv zeta. assert (NT : forall a k, (a <= i < a + k)%nat -> nth (i - a) (map (fun j => theta (S j)) (seq a k)) EmptyString = theta (S i)).
  { intros a k H. set (f := fun j => theta (S j)). rewrite (nth_indep _ EmptyString (f 0%nat)) by (rewrite map_length, seq_length; lia). rewrite map_nth, seq_nth by lia. unfold f. do 2 f_equal. lia. }
  destruct given as [g|]; cbn [param_labels].
  - destruct (Nat.ltb_spec (length g) n) as [H|H].
    + rewrite app_length, map_length, seq_length. split; [lia|]. split; intro Hi; [apply app_nth1; exact Hi|]. rewrite app_nth2 by lia. apply NT. lia.
    + split; [lia|]. split; [reflexivity|lia].
  - rewrite map_length, seq_length. cbn [length]. split; [lia|]. split; [lia|]. intro Hi. specialize (NT 0%nat n). rewrite Nat.sub_0_r in NT. apply NT. lia.
Qed.
Print Assumptions C104_param_labels.
Lemma column_mesh coords p : column (mesh2 coords) p = flat_map (fun x => map (fun y => nth p [x; y] 0) coords) coords.
Proof. unfold column, mesh2. generalize coords at 2 4. intro l. induction l as [|x l IH]; [reflexivity|]. cbn [flat_map]. rewrite map_app, IH, map_map. reflexivity. Qed.
Lemma dot_app a b c d : length a = length c -> dot (a ++ b) (c ++ d) = dot a c + dot b d.
Proof.
  revert c. unfold dot. induction a as [|x a IH]; intros [|y c] L; try discriminate L; [cbn [Datatypes.app combine map]; unfold rsum at 2; cbn [fold_right]; ring|]. cbn [Datatypes.app combine map fst snd]. unfold rsum in *. cbn [fold_right]. rewrite IH by (cbn in L; lia). ring.
Qed.
Lemma dot_const x (l row : list R) : length row = length l -> dot (map (fun _ => x) l) row = x * rsum row.
Proof. revert row. unfold dot. induction l as [|a l IH]; intros [|r row] L; try discriminate L; [cbn; ring|]. cbn [map combine fst snd]. unfold rsum in *. cbn [fold_right]. rewrite IH by (cbn in L; lia). ring. Qed.
(** The means of a grid are those of its marginals: of the sums of the rows for the first parameter, of the columns for the second. *)
Theorem C104_grid : forall coords rows, length rows = length coords -> Forall (fun r => length r = length coords) rows -> rsum (concat rows) <> 0 ->
  average (column (mesh2 coords) 0) (normalise (concat rows)) = dot coords (map rsum rows) / rsum (map rsum rows) /\
  average (column (mesh2 coords) 1) (normalise (concat rows)) = rsum (map (dot coords) rows) / rsum (map rsum rows).
Proof.
  intros coords rows L F T.
  assert (RS : rsum (concat rows) = rsum (map rsum rows)).
  { clear. induction rows as [|r rows IH]; [reflexivity|]. cbn [concat map]. rewrite rsum_app, IH. reflexivity. }
  assert (SC : forall xs ws, rsum ws <> 0 -> average xs (normalise ws) = dot xs ws / rsum ws).
  { intros xs ws N. assert (D : dot xs (normalise ws) = dot xs ws / rsum ws).
    { unfold normalise. generalize (rsum ws). intro t. unfold dot, Rdiv. rewrite <- rsum_scale_r. revert ws N. induction xs as [|x xs IH]; intros [|w ws] N; try reflexivity. cbn [map combine fst snd]. unfold rsum in *. cbn [fold_right].
      assert (E : forall vs, fold_right Rplus 0 (map (fun p => fst p * snd p) (combine xs (map (fun v => v * / t) vs))) = fold_right Rplus 0 (map (fun p => fst p * snd p * / t) (combine xs vs))).
      { clear. induction xs as [|x xs IH]; intros [|v vs]; try reflexivity. cbn. rewrite IH. ring. }
      rewrite E. ring. }
    unfold average. rewrite D. unfold normalise, Rdiv. rewrite (rsum_scale_r (fun w => w)), map_id. field. exact N. }
  rewrite !SC by exact T. rewrite RS. rewrite !column_mesh. cbn [nth].
  assert (G : forall cs rs, length rs = length cs -> Forall (fun r => length r = length coords) rs ->
    dot (flat_map (fun x => map (fun _ => x) coords) cs) (concat rs) = dot cs (map rsum rs) /\ dot (flat_map (fun _ => map (fun y => y) coords) cs) (concat rs) = rsum (map (dot coords) rs)).
  { induction cs as [|c cs IH]; intros [|r rs] LL FF; try discriminate LL; [split; reflexivity|]. inversion FF as [|? ? F1 F2]; subst. cbn [flat_map concat map]. rewrite !dot_app by (rewrite map_length; symmetry; exact F1).
    destruct (IH rs ltac:(cbn in LL; lia) F2) as [I1 I2]. rewrite I1, I2. rewrite dot_const by exact F1. rewrite map_id. split; reflexivity. }
  destruct (G coords rows L F) as [G1 G2]. rewrite G1, G2. split; reflexivity.
Qed.
Print Assumptions C104_grid.
Example C104_grid_sat : exists (coords : list (list R)) (rows : list (list R)), length rows = length coords /\ (Forall (fun r => length r = length coords) rows) /\ rsum (concat rows) <> 0.
Proof. exists [[0]; [1]], [[1; 2]; [3; 4]]. split; [reflexivity|]. split; [repeat constructor|cbn; lra]. Qed.
(** The printed statistics leave normalised weights in the caller's array; printing again shows the same numbers. *)
Theorem C104_chain : forall xs ws order, rsum ws <> 0 -> let left_behind := snd (chain_stats xs ws order) in
  left_behind = normalise ws /\ rsum left_behind = 1 /\ chain_stats xs left_behind order = chain_stats xs ws order /\ (left_behind = ws <-> rsum ws = 1).
Proof.
  intros xs ws order T. cbn [chain_stats snd]. assert (S1 : rsum (normalise ws) = 1) by (unfold normalise, Rdiv; rewrite (rsum_scale_r (fun w => w)), map_id; field; exact T).
  assert (I1 : normalise (normalise ws) = normalise ws).
  { unfold normalise at 1. rewrite S1. rewrite <- (map_id (normalise ws)) at 2. apply map_ext. intro w. field. }
  split; [reflexivity|]. split; [exact S1|]. split; [unfold chain_stats; rewrite I1; reflexivity|]. split.
  - intro E. rewrite <- E. exact S1.
  - intro E. unfold normalise. rewrite E. rewrite <- (map_id ws) at 2. apply map_ext. intro w. field.
Qed.
Print Assumptions C104_chain.
(** The mean printed plus its upper, minus its lower width are the two ends of the interval between 16% and 84% of the weight, exact up
    to the weight of one sample; the widths never sum to less than zero. *)
Theorem C104_widths : forall xs ws order M, weights_of xs ws -> sorts order xs -> Forall (fun w => w / rsum ws <= M) ws ->
  let '(m, up, down) := fst (chain_stats xs ws order) in
  m = rsum (map (fun p => fst p * snd p) (combine xs ws)) / rsum ws /\ 0 <= up + down /\
  mass (below (m + up)) xs ws <= 84 / 100 /\ 84 / 100 - M <= mass (upto (m + up)) xs ws /\
  mass (below (m - down)) xs ws <= 16 / 100 /\ 16 / 100 - M <= mass (upto (m - down)) xs ws.
Proof.
  intros xs ws order M W S1 HM. cbn [chain_stats fst].
  destruct (C104_quantile xs ws order (84 / 100) M W S1 ltac:(lra) HM) as [A1 A2]. destruct (C104_quantile xs ws order (16 / 100) M W S1 ltac:(lra) HM) as [B1 B2].
  pose proof (quantile_mono xs ws order (16 / 100) (84 / 100) W S1 ltac:(lra)) as Q. cbv zeta in *.
  set (q1 := quantile xs (normalise ws) order (84 / 100)) in *. set (q2 := quantile xs (normalise ws) order (16 / 100)) in *. set (m := average xs (normalise ws)).
  replace (m + (q1 - m)) with q1 by ring. replace (m - (m - q2)) with q2 by ring. split; [|split; [lra|tauto]].
  assert (T : rsum ws <> 0) by (destruct W as (_ & _ & W); lra).
  assert (E : forall t vs, rsum (map (fun p => fst p * snd p) (combine xs (map (fun v => v / t) vs))) = rsum (map (fun p => fst p * snd p) (combine xs vs)) / t).
  { clear. intros t. induction xs as [|x xs IH]; intros [|v vs]; cbn; try (unfold Rdiv; ring). unfold rsum in *. rewrite IH. unfold Rdiv. ring. }
  unfold m, average, dot. replace (rsum (normalise ws)) with 1; [|unfold normalise, Rdiv; rewrite (rsum_scale_r (fun w => w)), map_id; symmetry; field; exact T].
  unfold normalise. rewrite E. field. exact T.
Qed.
Print Assumptions C104_widths.
(** The width printed with a plus may be negative: the mean need not lie in the interval. *)
Theorem C104_width_refuted : exists xs ws order, weights_of xs ws /\ sorts order xs /\ snd (fst (fst (chain_stats xs ws order))) = - (1 / 10).
Proof.
  exists [0; 1], [9; 1], [0%nat; 1%nat]. split; [repeat split; [repeat (constructor; try lra)|cbn; lra]|]. split; [split; [apply Permutation_refl|cbn; repeat (constructor; try lra)]|].
  cbn. destruct (Rlt_dec (84 / 100) (0 + 9 / (9 + (1 + 0)))); [|lra]. unfold average, dot. cbn. field.
Qed.
Print Assumptions C104_width_refuted.

(** Every column has an order, here by insertion. *)
Fixpoint put (xs : list R) (i : nat) (o : list nat) : list nat := match o with [] => [i] | j :: r => if Rle_dec (nth i xs 0) (nth j xs 0) then i :: o else j :: put xs i r end.
Definition insertion (xs : list R) : list nat := fold_right (put xs) [] (seq 0 (length xs)).
Lemma put_perm xs i o : Permutation (put xs i o) (i :: o).
Proof. induction o as [|j r IH]; cbn [put]; [reflexivity|]. destruct (Rle_dec _ _); [reflexivity|]. rewrite IH. apply perm_swap. Qed.
Theorem C104_argsort : forall xs, sorts (insertion xs) xs.
Proof.
  intro xs. unfold insertion, sorts. generalize (seq 0 (length xs)). intro l. induction l as [|i l [P S1]]; cbn [fold_right]; [split; constructor|]. split; [rewrite put_perm; constructor; exact P|].
  revert S1. generalize (fold_right (put xs) [] l). clear. intro o. induction o as [|j r IH]; intro S1; cbn [put].
  - cbn. repeat constructor.
  - inversion S1 as [|? ? S2 F]; subst. destruct (Rle_dec (nth i xs 0) (nth j xs 0)) as [A|A].
    + cbn [take map]. constructor; [exact S1|]. constructor; [exact A|]. eapply Forall_impl; [|exact F]. cbn. intros; lra.
    + cbn [take map]. constructor; [apply IH; exact S2|]. apply Forall_forall. intros y Hy. unfold take in Hy. apply (Permutation_in _ (Permutation_map _ (put_perm xs i r))) in Hy. destruct Hy as [<-|Hy]; [lra|].
      rewrite Forall_forall in F. apply F. exact Hy.
Qed.
Print Assumptions C104_argsort.
Example C104_sat : weights_of [3; 1; 2] [1; 0; 2] /\ sorts [1%nat; 2%nat; 0%nat] [3; 1; 2] /\ NoDup [3; 1; 2] /\
  (exists m, base_metrics (Some [0; 1]) 2 [[0; 1]; [1; 0]; [2; 2]] [1; 1; 2] (fun p => insertion (column [[0; 1]; [1; 0]; [2; 2]] p)) = Returned m) /\ quantile [3; 1; 2] (normalise [1; 1; 2]) [1%nat; 2%nat; 0%nat] (1 / 2) = 3 / 2.
Proof.
  split; [repeat split; [repeat (constructor; try lra)|cbn; lra]|]. split.
  { split; [cbn; apply Permutation_sym; apply (perm_trans (perm_swap 1%nat 0%nat [2%nat])); apply perm_skip, perm_swap|cbn; repeat (constructor; try lra)]. }
  split; [repeat constructor; cbn; intuition lra|]. split.
  - apply C104_returns; [discriminate|reflexivity|repeat (constructor; try lra)|cbn; lra|left; cbn; lia].
  - cbn. destruct (Rlt_dec (1 / 2) (0 + 1 / (1 + (1 + (2 + 0))))); [lra|]. destruct (Rle_dec (0 + 1 / (1 + (1 + (2 + 0))) + 2 / (1 + (1 + (2 + 0)))) (1 / 2)); [lra|]. field.
Qed.
