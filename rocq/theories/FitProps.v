(** C88: fits with named parameters. *)
From Coq Require Import List Arith Reals Lra Lia Bool.
From Verif Require Import FitModel.
Import ListNotations.
Local Open Scope R_scope.

(** * Dictionaries *)
Fixpoint get (k : nat) (d : dict) : option num := match d with [] => None | (k', v) :: r => if Nat.eqb k k' then Some v else get k r end.
Lemma put_keys_in : forall k v d, In k (map fst d) -> map fst (put k v d) = map fst d.
Proof. intros k v d. induction d as [|[k' v'] d IH]; intro I; [destruct I|]. cbn [put]. destruct (Nat.eqb_spec k k') as [-> |N]; [reflexivity|]. cbn [map fst]. rewrite IH; [reflexivity|]. destruct I as [E|I]; [cbn in E; congruence|exact I]. Qed.
Lemma put_keys_new : forall k v d, ~ In k (map fst d) -> map fst (put k v d) = map fst d ++ [k] /\ put k v d = d ++ [(k, v)].
Proof. intros k v d. induction d as [|[k' v'] d IH]; intro I; [auto|]. cbn [put]. destruct (Nat.eqb_spec k k') as [-> |N]; [exfalso; apply I; left; reflexivity|]. destruct IH as [IH1 IH2]; [intro X; apply I; right; exact X|]. cbn [map fst app]. rewrite IH1, IH2. split; reflexivity. Qed.
Lemma put_all_same : forall keys theta d, NoDup keys -> length theta = length keys -> map fst d = keys -> put_all keys theta d = combine keys theta.
Proof.
  intros keys theta d ND L E. unfold put_all.
  assert (G : forall ks th pre old, NoDup (map fst pre ++ ks) -> length th = length ks -> map fst old = ks -> fold_left (fun d kv => put (fst kv) (snd kv) d) (combine ks th) (pre ++ old) = pre ++ combine ks th).
  { induction ks as [|k ks IH]; intros th pre old N Lt Eo.
    - destruct old; [|discriminate]. destruct th; [reflexivity|discriminate].
    - destruct th as [|t th]; [discriminate|]. destruct old as [|[k' v'] old]; [discriminate|]. cbn [map fst] in Eo. injection Eo as -> Eo. cbn [combine fold_left fst snd].
      assert (P : put k t (pre ++ (k, v') :: old) = (pre ++ [(k, t)]) ++ old).
      { assert (NI : ~ In k (map fst pre)) by (intro X; apply NoDup_remove_2 in N; apply N, in_or_app; left; exact X). clear - NI. induction pre as [|[a b] pre IH]; cbn [app put]; [rewrite Nat.eqb_refl; reflexivity|]. destruct (Nat.eqb_spec k a) as [-> |N]; [exfalso; apply NI; left; reflexivity|]. rewrite IH; [reflexivity|]. intro X. apply NI. right. exact X. }
      rewrite P, (IH th (pre ++ [(k, t)]) old); [rewrite <- app_assoc; reflexivity| |cbn in Lt; lia|exact Eo]. rewrite map_app. cbn [map fst]. rewrite <- app_assoc. exact N. }
  apply (G keys theta [] d); assumption.
Qed.
Lemma put_all_empty : forall keys theta, NoDup keys -> length theta = length keys -> put_all keys theta [] = combine keys theta.
Proof.
  intros keys theta ND L. unfold put_all.
  assert (G : forall ks th pre, NoDup (map fst pre ++ ks) -> length th = length ks -> fold_left (fun d kv => put (fst kv) (snd kv) d) (combine ks th) pre = pre ++ combine ks th).
  { induction ks as [|k ks IH]; intros th pre N Lt; [destruct th; [symmetry; apply app_nil_r|discriminate]|]. destruct th as [|t th]; [discriminate|]. cbn [combine fold_left fst snd].
    destruct (put_keys_new k t pre) as [_ ->]; [apply NoDup_remove_2 in N; intro X; apply N, in_or_app; left; exact X|]. rewrite IH; [rewrite <- app_assoc; reflexivity| |cbn in Lt; lia]. rewrite map_app. cbn [map fst]. rewrite <- app_assoc. exact N. }
  apply (G keys theta []); assumption.
Qed.
Definition ready (keys : list nat) (d : dict) : Prop := d = [] \/ map fst d = keys.
Lemma put_all_ready : forall keys theta d, NoDup keys -> length theta = length keys -> ready keys d -> put_all keys theta d = combine keys theta.
Proof. intros keys theta d ND L [-> |R]; [apply put_all_empty|apply put_all_same]; assumption. Qed.
Lemma combine_keys : forall (keys : list nat) (theta : list num), length theta = length keys -> map fst (combine keys theta) = keys /\ theta_of (combine keys theta) = theta.
Proof. unfold theta_of. induction keys as [|k keys IH]; intros [|t theta] L; try discriminate; [split; reflexivity|]. cbn [combine map fst snd]. destruct (IH theta ltac:(cbn in L; lia)) as [-> ->]. split; reflexivity. Qed.

(** * Cross validation *)
Definition sized (keys : list nat) (c : call) : Prop := length (plain c) = length keys /\ forall n f, In f (folds c n) -> length (fst f) = length keys.
(** Every finite fold is scored with its own parameters. *)
Lemma cv_folds : forall keys fs d, NoDup keys -> (forall f, In f fs -> length (fst f) = length keys) -> ready keys d ->
  let s := fold_left (cv_step keys) fs (CV d [] []) in let good := filter (fun f => finite (fst f)) fs in
  rows s = map fst good /\ scrs s = map (fun f : fold => snd f (fst f)) good /\ ready keys (dct s).
Proof.
  intros keys fs d ND L R. cbv zeta.
  assert (G : forall fs d r0 s0, (forall f, In f fs -> length (fst f) = length keys) -> ready keys d -> let s := fold_left (cv_step keys) fs (CV d r0 s0) in let good := filter (fun f => finite (fst f)) fs in rows s = r0 ++ map fst good /\ scrs s = s0 ++ map (fun f : fold => snd f (fst f)) good /\ ready keys (dct s)).
  { clear fs d L R; induction fs as [|f fs0 IH]; intros d0 r0 s0 L0 R0; cbv zeta; cbn [fold_left filter map]; [cbn [rows scrs dct]; rewrite !app_nil_r; auto|]. unfold cv_step at 2 4 6. cbn [dct rows scrs]. destruct (finite (fst f)) eqn:F.
    - rewrite (put_all_ready keys (fst f) d0 ND (L0 f (or_introl eq_refl)) R0). destruct (combine_keys keys (fst f) (L0 f (or_introl eq_refl))) as [K1 K2]. rewrite K2. specialize (IH (combine keys (fst f)) (r0 ++ [fst f]) (s0 ++ [snd f (fst f)]) (fun g Hg => L0 g (or_intror Hg)) (or_intror K1)). cbv zeta in IH. cbn [map]. rewrite <- !app_assoc in IH. exact IH.
    - apply IH; [intros g Hg; apply L0; right; exact Hg|exact R0]. }
  exact (G fs d [] [] L R).
Qed.
(** * Specification *)
Definition effective_cv (c0 : option nat) (cs : list call) : option nat := fold_left (fun a c => match arg_cv c with Some n => Some n | None => a end) cs c0.
(** Folds that count: finite parameters and a positive score of those parameters. *)
Definition counted (fs : list fold) : list fold := filter (fun f => finite (fst f) && positive (snd f (fst f)))%bool fs.
Definition averages (keys : list nat) (fs : list fold) : list num := map (fun i => mean (map (fun f => value (nth i (fst f) None)) (counted fs))) (seq 0 (length keys)).
Definition spreads (keys : list nat) (fs : list fold) : list num := map (fun i => std (map (fun f => value (nth i (fst f) None)) (counted fs))) (seq 0 (length keys)).
Definition outcome (keys : list nat) (c0 : option nat) (before : list call) (c : call) : list num :=
  match effective_cv c0 (before ++ [c]) with None => plain c | Some n => averages keys (folds c n) end.
Lemma select_counted : forall i (fs : list fold), select (column i (map fst (filter (fun f => finite (fst f)) fs))) (map (fun f : fold => snd f (fst f)) (filter (fun f => finite (fst f)) fs)) = map (fun f => value (nth i (fst f) None)) (counted fs).
Proof.
  intros i fs. unfold select, column, counted. induction fs as [|f fs IH]; [reflexivity|]. cbn [filter]. destruct (finite (fst f)); cbn [andb]; [|exact IH]. cbn [map combine filter fst snd]. destruct (positive (snd f (fst f))); cbn [map fst]; rewrite IH; reflexivity.
Qed.
Lemma history_state : forall keys c0 cs, NoDup keys -> Forall (sized keys) cs -> let o := fold_left fit cs (new keys c0) in params o = keys /\ cv o = effective_cv c0 cs /\ ready keys (fitted o).
Proof.
  intros keys c0 cs ND S. cbv zeta. assert (G : forall cs o, Forall (sized keys) cs -> params o = keys -> ready keys (fitted o) -> let o' := fold_left fit cs o in params o' = keys /\ cv o' = effective_cv (cv o) cs /\ ready keys (fitted o')).
  { clear cs S. induction cs as [|c cs IH]; intros o S P R; [cbn; auto|]. inversion S as [|? ? [S1 S2] S']; subst. cbn [fold_left]. unfold effective_cv. cbn [fold_left]. set (cv' := match arg_cv c with Some n => Some n | None => cv o end).
    assert (Q : params (fit o c) = params o /\ cv (fit o c) = cv' /\ ready (params o) (fitted (fit o c))).
    { unfold fit. fold cv'. destruct cv' as [n|].
      - unfold cv_finish. cbn [params cv fitted]. split; [reflexivity|]. split; [reflexivity|]. right. destruct (cv_folds (params o) (folds c n) (fitted o) ND (S2 n) R) as (_ & _ & R'). rewrite put_all_ready; [apply combine_keys; rewrite map_length, seq_length; reflexivity|exact ND|rewrite map_length, seq_length; reflexivity|exact R'].
      - cbn [params cv fitted]. split; [reflexivity|]. split; [reflexivity|]. right. rewrite put_all_ready by assumption. apply combine_keys, S1. }
    destruct Q as (Q1 & Q2 & Q3). specialize (IH (fit o c) S' Q1 Q3). cbv zeta in IH. rewrite Q2 in IH. unfold effective_cv in IH. exact IH. }
  apply (G cs (new keys c0) S eq_refl). left. reflexivity.
Qed.
(** After any history of fits on one object, prediction passes the parameters in the order in which they were named: the solution of the
    optimizer, or per parameter the mean over the folds with finite parameters and positive score. Whether cross validation is used is
    decided by the last call (or the constructor) that named a number of splits. *)
Theorem C88_prediction : forall keys c0 before c, NoDup keys -> Forall (sized keys) before -> sized keys c ->
  let o := fold_left fit (before ++ [c]) (new keys c0) in theta_of (fitted o) = outcome keys c0 before c /\ fitted o = combine keys (outcome keys c0 before c) /\
  (forall n, effective_cv c0 (before ++ [c]) = Some n -> stds o = Some (spreads keys (folds c n)) /\ cv_scores o = Some (map (fun f : fold => snd f (fst f)) (filter (fun f => finite (fst f)) (folds c n)))).
Proof.
  intros keys c0 before c ND Sb [S1 S2]. cbv zeta. rewrite fold_left_app. cbn [fold_left]. destruct (history_state keys c0 before ND Sb) as (P & V & R). set (o := fold_left fit before (new keys c0)) in *.
  unfold outcome. assert (EC : effective_cv c0 (before ++ [c]) = match arg_cv c with Some n => Some n | None => cv o end) by (unfold effective_cv; rewrite fold_left_app; cbn [fold_left]; rewrite V; reflexivity). rewrite EC. unfold fit. rewrite P. destruct (match arg_cv c with Some n => Some n | None => cv o end) as [n|].
  - destruct (cv_folds keys (folds c n) (fitted o) ND (S2 n) R) as (R1 & R2 & R3). unfold cv_finish. rewrite R1, R2. cbn [fitted stds cv_scores].
    assert (A : map (fun i => mean (select (column i (map fst (filter (fun f => finite (fst f)) (folds c n)))) (map (fun f : fold => snd f (fst f)) (filter (fun f => finite (fst f)) (folds c n))))) (seq 0 (length keys)) = averages keys (folds c n)) by (apply map_ext; intro i; rewrite select_counted; reflexivity).
    assert (B : map (fun i => std (select (column i (map fst (filter (fun f => finite (fst f)) (folds c n)))) (map (fun f : fold => snd f (fst f)) (filter (fun f => finite (fst f)) (folds c n))))) (seq 0 (length keys)) = spreads keys (folds c n)) by (apply map_ext; intro i; rewrite select_counted; reflexivity).
    rewrite A, B. assert (LA : length (averages keys (folds c n)) = length keys) by (unfold averages; rewrite map_length, seq_length; reflexivity). rewrite (put_all_ready keys (averages keys (folds c n)) _ ND LA R3). split; [apply combine_keys, LA|]. split; [reflexivity|]. intros n' E. injection E as <-. split; reflexivity.
  - cbn [fitted]. rewrite (put_all_ready keys (plain c) _ ND S1 R). split; [apply combine_keys, S1|]. split; [reflexivity|]. intros n' E. discriminate.
Qed.
Print Assumptions C88_prediction.
Example C88_prediction_sat : exists (keys : list nat) (before : list call) (c : call), NoDup keys /\ Forall (sized keys) before /\ sized keys c.
Proof. exists [4; 7]%nat, [Call (Some 3%nat) [Some 1; None] (fun _ => [])], (Call None [Some 1; Some 2] (fun _ => [])). split; [repeat constructor; cbn; intuition discriminate|]. split; [constructor; [|constructor]|]; (split; [reflexivity|intros n f []]). Qed.
Example C88_sat : let c := Call None [Some 1; Some 2] (fun _ => [([Some 1; Some 2], fun _ => Some 1); ([None; Some 2], fun _ => Some 1)]) in NoDup [7; 3]%nat /\ sized [7; 3]%nat c /\ counted (folds c 2) <> [].
Proof. cbv zeta. split; [repeat constructor; cbn; intuition lia|]. split; [split; [reflexivity|intros n f [<-|[<-|[]]]; reflexivity]|]. unfold counted. cbn. destruct (Rlt_dec 0 1); [discriminate|lra]. Qed.
(** The averages are nan exactly when no fold counts. *)
Theorem C88_nan : forall keys fs i, (i < length keys)%nat -> (nth i (averages keys fs) (Some 0) = None <-> counted fs = []).
Proof.
  intros keys fs i I. unfold averages. set (g := fun i => mean (map (fun f => value (nth i (fst f) None)) (counted fs))). rewrite (nth_indep _ (Some 0) (g 0%nat)) by (rewrite map_length, seq_length; exact I). rewrite map_nth, seq_nth by exact I. unfold g. destruct (counted fs); cbn [map mean]; split; intro X; (reflexivity || discriminate).
Qed.
Print Assumptions C88_nan.
Example C88_nan_sat : exists (keys : list nat) (i : nat), (i < length keys)%nat.
Proof. exists [1; 2; 3]%nat, 1%nat. cbn; lia. Qed.
(** A number of splits once given stays in force for every later call that names none. *)
Theorem C88_sticky : forall keys c0 before mid n plain0 folds0, (forall c, In c mid -> arg_cv c = None) ->
  cv (fold_left fit (before ++ Call (Some n) plain0 folds0 :: mid) (new keys c0)) = Some n.
Proof.
  intros keys c0 before mid n plain0 folds0 M. assert (G : forall cs o, cv (fold_left fit cs o) = effective_cv (cv o) cs). { induction cs as [|c cs IH]; intro o; [reflexivity|]. cbn [fold_left]. rewrite IH. unfold effective_cv. cbn [fold_left]. f_equal. unfold fit. destruct (match arg_cv c with Some n0 => Some n0 | None => cv o end); [destruct (cv_finish _ _)|]; reflexivity. }
  rewrite G. unfold effective_cv. rewrite fold_left_app. cbn [fold_left arg_cv]. generalize (cv (new keys c0)) as x. intros _. induction mid as [|m mid IH]; [reflexivity|]. cbn [fold_left]. rewrite (M m (or_introl eq_refl)). apply IH. intros c Hc. apply M. right. exact Hc.
Qed.
Print Assumptions C88_sticky.
Example C88_sticky_sat : exists (mid : list call), (forall c, In c mid -> arg_cv c = None).
Proof. exists [Call None [] (fun _ => [])]. intros c [<-|[]]. reflexivity. Qed.
(** Naming the parameters in another order for a second fit does not reach the prediction: it still passes them in the order of the first
    fit. *)
Theorem C88_reorder_refuted : forall a b v w v' w' fs, a <> b ->
  theta_of (fitted (fit (set_params [b; a] (fit (new [a; b] None) (Call None [Some v; Some w] fs))) (Call None [Some v'; Some w'] fs))) = [Some w'; Some v'].
Proof.
  intros a b v w v2 w2 fs N. assert (AB : Nat.eqb b a = false) by (apply Nat.eqb_neq; congruence). assert (BA : Nat.eqb a b = false) by (apply Nat.eqb_neq; congruence). cbn. repeat (progress (rewrite ?AB, ?BA, ?Nat.eqb_refl; cbn)). reflexivity.
Qed.
Print Assumptions C88_reorder_refuted.
Example C88_reorder_refuted_sat : exists (a : nat) (b : nat), a <> b.
Proof. exists 1%nat, 2%nat. discriminate. Qed.
(** The averages are arithmetic means over the folds that count, the spreads the root mean square deviations from them. *)
Theorem C88_means : forall keys fs i m s, (i < length keys)%nat -> nth i (averages keys fs) None = Some m -> nth i (spreads keys fs) None = Some s ->
  let vs := map (fun f => value (nth i (fst f) None)) (counted fs) in let n := INR (length vs) in
  0 < n /\ m * n = fold_right Rplus 0 vs /\ 0 <= s /\ s ^ 2 * n = fold_right Rplus 0 (map (fun v => (v - m) ^ 2) vs).
Proof.
  intros keys fs i m s I Hm Hs vs n. unfold averages in Hm. unfold spreads in Hs.
  set (g := fun i => mean (map (fun f => value (nth i (fst f) None)) (counted fs))) in Hm. rewrite (nth_indep _ None (g 0%nat)) in Hm by (rewrite map_length, seq_length; exact I). rewrite (map_nth g), seq_nth in Hm by exact I.
  set (g' := fun i => std (map (fun f => value (nth i (fst f) None)) (counted fs))) in Hs. rewrite (nth_indep _ None (g' 0%nat)) in Hs by (rewrite map_length, seq_length; exact I). rewrite (map_nth g'), seq_nth in Hs by exact I.
  unfold g in Hm. unfold g' in Hs. cbn [Nat.add] in Hm, Hs. fold vs in Hm, Hs. unfold std in Hs. rewrite Hm in Hs. unfold mean in Hm.
  assert (TE : forall l, total l = fold_right Rplus 0 l) by reflexivity. rewrite <- !TE.
  destruct vs as [|v0 vs'] eqn:V; [discriminate|]. assert (P : 0 < n) by (unfold n; apply lt_0_INR; cbn; lia).
  assert (EM : m = total (v0 :: vs') / n) by (unfold n; congruence). assert (ES : s = sqrt (total (map (fun x => (x - m) ^ 2) (v0 :: vs')) / n)) by (unfold n; congruence).
  assert (NN : 0 <= total (map (fun x => (x - m) ^ 2) (v0 :: vs')) / n).
  { apply Rle_mult_inv_pos; [|exact P]. rewrite TE. clear. generalize (v0 :: vs'). induction l as [|a l IH]; [cbn; lra|]. cbn [map fold_right]. pose proof (pow2_ge_0 (a - m)). lra. }
  split; [exact P|]. split; [rewrite EM; field; lra|]. split; [rewrite ES; apply sqrt_pos|]. set (T := total (map (fun x => (x - m) ^ 2) (v0 :: vs'))) in *. rewrite ES. replace (sqrt (T / n) ^ 2) with (sqrt (T / n) * sqrt (T / n)) by ring. rewrite sqrt_sqrt by exact NN. unfold Rdiv. rewrite Rmult_assoc, Rinv_l by lra. apply Rmult_1_r.
Qed.
Print Assumptions C88_means.
Example C88_means_sat : exists keys fs i m s, (i < length keys)%nat /\ nth i (averages keys fs) None = Some m /\ nth i (spreads keys fs) None = Some s /\ counted fs <> [].
Proof. exists [7; 3]%nat, [([Some 1; Some 2], fun _ => Some 1); ([Some 3; Some 4], fun _ => Some 1)], 1%nat. unfold averages, spreads, counted. cbn. destruct (Rlt_dec 0 1) as [_|N]; [|lra]. cbn. do 2 eexists. repeat split; try lia; discriminate. Qed.
