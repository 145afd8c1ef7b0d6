(** C78: watershed size distribution. *)
From Coq Require Import List ZArith Reals Lra Lia Bool.
From Coq Require Import Sorting.Sorted.
From Verif Require Import WsModel.
Import ListNotations.
Local Open Scope R_scope.

(** * Specification *)
(** Volume of a region: its number of voxels. *)
Definition volume (labels : list Z) (v : Z) : nat := length (filter (Z.eqb v) labels).
(** The regions of a labelled volume. *)
Definition is_region (labels : list Z) (v : Z) : Prop := (0 < v)%Z /\ In v labels.

Lemma insert_in : forall v l w, In w (insert_unique v l) <-> w = v \/ In w l.
Proof.
  intros v l w. induction l as [|u r IH]; cbn [insert_unique]; [cbn; intuition|]. destruct (Z.ltb_spec v u); [cbn; intuition|]. destruct (Z.eqb_spec v u); [subst; cbn; intuition|]. cbn [In]. rewrite IH. intuition.
Qed.
Lemma insert_sorted : forall v l, StronglySorted Z.lt l -> StronglySorted Z.lt (insert_unique v l).
Proof.
  intros v l H. induction H as [|u r H IH F]; cbn [insert_unique]; [repeat constructor|]. destruct (Z.ltb_spec v u); [constructor; [constructor; assumption|constructor; [assumption|]]; rewrite Forall_forall in *; intros w Hw; specialize (F w Hw); lia|].
  destruct (Z.eqb_spec v u); [constructor; assumption|]. constructor; [exact IH|]. rewrite Forall_forall in *. intros w Hw. apply insert_in in Hw. destruct Hw as [-> |Hw]; [lia|apply F, Hw].
Qed.
Lemma unique_in : forall l v, In v (unique_labels l) <-> is_region l v.
Proof.
  intros l v. unfold unique_labels, is_region. induction l as [|u r IH]; cbn [filter fold_right]; [cbn; intuition|]. destruct (Z.ltb_spec 0 u); cbn [fold_right].
  - rewrite insert_in, IH. cbn. split; [intros [-> |[A B]]; auto|]. intros [A [-> |B]]; auto.
  - rewrite IH. cbn. split; [intros [A B]; auto|]. intros [A [-> |B]]; [lia|auto].
Qed.
Lemma unique_sorted : forall l, StronglySorted Z.lt (unique_labels l).
Proof. intro l. unfold unique_labels. induction (filter (fun v => (0 <? v)%Z) l) as [|u r IH]; cbn [fold_right]; [constructor|apply insert_sorted, IH]. Qed.
Lemma sorted_ext : forall l l', StronglySorted Z.lt l -> StronglySorted Z.lt l' -> (forall v, In v l <-> In v l') -> l = l'.
Proof.
  intros l l' H. revert l'. induction H as [|u r H IH F]; intros l' H' E; [destruct l' as [|w s]; [reflexivity|]; exfalso; apply (proj2 (E w)); left; reflexivity|].
  destruct H' as [|w s H' F']; [exfalso; apply (proj1 (E u)); left; reflexivity|]. rewrite Forall_forall in F, F'.
  assert (U : u = w). { destruct (proj1 (E u) (or_introl eq_refl)) as [X|X]; [auto|]. destruct (proj2 (E w) (or_introl eq_refl)) as [Y|Y]; [auto|]. specialize (F w Y). specialize (F' u X). lia. }
  subst w. f_equal. apply IH; [exact H'|]. intro v. split; intro I.
  - destruct (proj1 (E v) (or_intror I)) as [X|X]; [subst; specialize (F v I); lia|exact X].
  - destruct (proj2 (E v) (or_intror I)) as [X|X]; [subst; specialize (F' v I); lia|exact X].
Qed.
(** * Theorems *)
(** The distribution does not depend on the volumes of the regions at all: only on which labels occur. *)
Theorem C78_volume_blind : forall l l' box n, (forall v, is_region l v <-> is_region l' v) -> watershed_bsd l box n = watershed_bsd l' box n.
Proof.
  intros l l' box n H. assert (E : unique_labels l = unique_labels l') by (apply sorted_ext; [apply unique_sorted|apply unique_sorted|]; intro v; rewrite !unique_in; apply H).
  unfold watershed_bsd, r_list. rewrite E. reflexivity.
Qed.
Print Assumptions C78_volume_blind.
Example C78_volume_blind_sat : exists (l : list Z) (l' : list Z), (forall v, is_region l v <-> is_region l' v).
Proof. exists [0; 1; 2; 2]%Z, [2; 1; 1; 1]%Z. intro v. unfold is_region. cbn. intuition lia. Qed.
(** So five regions of one voxel and five of many give the same sizes. *)
Theorem C78_volume_refuted : exists l l', (forall v, (1 <= v <= 5)%Z -> volume l v = 1%nat /\ volume l' v = 100%nat) /\ forall box n, watershed_bsd l box n = watershed_bsd l' box n.
Proof.
  exists [1; 2; 3; 4; 5]%Z, (flat_map (fun v => repeat v 100) [1; 2; 3; 4; 5]%Z). split.
  - intros v H. assert (C : (v = 1 \/ v = 2 \/ v = 3 \/ v = 4 \/ v = 5)%Z) by lia. destruct C as [-> |[-> |[-> |[-> | ->]]]]; split; vm_compute; reflexivity.
  - intros box n. apply C78_volume_blind. intro v. unfold is_region. rewrite in_flat_map. split; intros [P I]; (split; [exact P|]).
    + exists v. split; [exact I|]. cbn. auto.
    + destruct I as (u & I & J). apply repeat_spec in J. subst. exact I.
Qed.
Print Assumptions C78_volume_refuted.

Lemma largest_ge : forall l v, In v l -> v <= largest l.
Proof. intros l. induction l as [|w r IH]; intros v H; [destruct H|]. destruct r as [|u r]; [destruct H as [-> |[]]; cbn; lra|]. change (largest (w :: u :: r)) with (Rmax w (largest (u :: r))). destruct H as [-> |H]; [apply Rmax_l|]. eapply Rle_trans; [|apply Rmax_r]. apply IH, H. Qed.
Lemma largest_in : forall l, l <> [] -> In (largest l) l.
Proof. intros l. induction l as [|w r IH]; intro H; [congruence|]. destruct r as [|u r]; [left; reflexivity|]. change (largest (w :: u :: r)) with (Rmax w (largest (u :: r))). apply (Rmax_case w (largest (u :: r)) (fun v => In v (w :: u :: r))); [left; reflexivity|right; apply IH; discriminate]. Qed.
Lemma PI_bounds : 3 < PI <= 3.5.
Proof.
  split; [pose proof PI2_3_2; lra|]. pose proof (PI_ineq 1) as [_ H]. cbn [mult plus] in H. unfold sum_f_R0, tg_alt, PI_tg in H. cbn in H. lra.
Qed.
Lemma radius_pos : forall v, 0 < radius v. Proof. intro v. apply exp_pos. Qed.
Lemma cube_third : forall x, 0 < x -> Rpower x (1 / 3) ^ 3 = x.
Proof. intros x H. rewrite <- Rpower_pow by apply exp_pos. rewrite Rpower_mult. replace (1 / 3 * INR 3) with 1 by (cbn; field). apply Rpower_1, H. Qed.
Lemma radius_cube : forall v, 0 < v -> radius v ^ 3 = 3 * v / 4 / PI.
Proof. intros v H. unfold radius. apply cube_third. pose proof PI_bounds. apply Rdiv_lt_0_compat; lra. Qed.
Lemma cube_lt : forall a b, 0 < a -> 0 < b -> a ^ 3 < b ^ 3 -> a < b.
Proof. intros a b Ha Hb H. destruct (Rlt_dec a b) as [|N]; [assumption|]. exfalso. assert (b <= a) by lra. assert (b ^ 3 <= a ^ 3) by (apply pow_incr; lra). lra. Qed.
Lemma radius_lt_1 : forall v, 0 < v <= 4 -> radius v < 1.
Proof. intros v H. apply cube_lt; [apply radius_pos|lra|]. rewrite radius_cube by lra. pose proof PI_bounds. rewrite pow1. apply (Rmult_lt_reg_r PI); [lra|]. replace (3 * v / 4 / PI * PI) with (3 * v / 4) by (field; lra). lra. Qed.
Lemma radius_ge_1 : forall v, 5 <= v -> 1 < radius v.
Proof. intros v H. apply cube_lt; [lra|apply radius_pos|]. rewrite radius_cube by lra. pose proof PI_bounds. rewrite pow1. apply (Rmult_lt_reg_r PI); [lra|]. replace (3 * v / 4 / PI * PI) with (3 * v / 4) by (field; lra). lra. Qed.
Lemma radius_gt_half : forall v, 1 <= v -> 0.5 < radius v.
Proof. intros v H. apply cube_lt; [lra|apply radius_pos|]. rewrite radius_cube by lra. pose proof PI_bounds. apply (Rmult_lt_reg_r PI); [lra|]. replace (3 * v / 4 / PI * PI) with (3 * v / 4) by (field; lra). cbn. lra. Qed.
Lemma radius_one_small : radius 1 < 0.9.
Proof. apply cube_lt; [apply radius_pos|lra|]. rewrite radius_cube by lra. pose proof PI_bounds. apply (Rmult_lt_reg_r PI); [lra|]. replace (3 * 1 / 4 / PI * PI) with (3 * 1 / 4) by (field; lra). cbn. lra. Qed.
Lemma Int_part_unique : forall x z, IZR z <= x < IZR z + 1 -> Int_part x = z.
Proof. intros x z [A B]. destruct (base_Int_part x) as [C D]. assert (Int_part x < z + 1)%Z by (apply lt_IZR; rewrite plus_IZR; lra). assert (z < Int_part x + 1)%Z by (apply lt_IZR; rewrite plus_IZR; lra). lia. Qed.
Lemma edges_length : forall rs, length (edges rs) = Z.to_nat (Int_part (largest rs + 2)).
Proof. intro rs. unfold edges. rewrite map_length, seq_length. reflexivity. Qed.
Lemma edges_nth : forall rs k, (k < length (edges rs))%nat -> nth k (edges rs) 0 = INR k - 0.5.
Proof. intros rs k H. rewrite edges_length in H. unfold edges. rewrite (nth_indep _ 0 (INR 0 - 0.5)) by (rewrite map_length, seq_length; exact H). rewrite (map_nth (fun k => INR k - 0.5)), seq_nth by exact H. reflexivity. Qed.
Lemma total_zero : forall l, (forall v, In v l -> 0 <= v) -> (total l = 0 <-> forall v, In v l -> v = 0).
Proof.
  intros l H. induction l as [|w r IH]; [cbn; split; [intros _ v []|reflexivity]|]. specialize (IH (fun v Hv => H v (or_intror Hv))). pose proof (H w (or_introl eq_refl)).
  assert (P : 0 <= total r). { assert (G : forall v, In v r -> 0 <= v) by (intros v Hv; apply H; right; exact Hv). clear - G. induction r as [|u r IH]; cbn [total fold_right]; [lra|]. pose proof (G u (or_introl eq_refl)). specialize (IH (fun x Hx => G x (or_intror Hx))). unfold total in IH. lra. }
  cbn [total fold_right]. fold (total r). split.
  - intros E v [<- |Hv]; [lra|]. apply IH; [lra|exact Hv].
  - intro A. rewrite (A w (or_introl eq_refl)). rewrite (proj2 IH) by (intros v Hv; apply A; right; exact Hv). ring.
Qed.
Lemma histogram_nonneg : forall es rs v, In v (histogram es rs) -> 0 <= v.
Proof. intros es rs v H. unfold histogram in H. apply in_map_iff in H. destruct H as (k & <- & _). apply pos_INR. Qed.
(** With m regions numbered 1..m (as the labelling does) the distribution exists iff there are at least five of them. *)
Theorem C78_defined : forall labels box n m, (1 <= m)%Z -> (forall v, is_region labels v <-> (1 <= v <= m)%Z) -> (watershed_bsd labels box n <> None <-> (5 <= m)%Z).
Proof.
  intros labels box n m Hm H. unfold watershed_bsd. destruct (unique_labels labels) as [|u0 r0] eqn:EU; [exfalso; assert (I : In 1%Z (unique_labels labels)) by (apply unique_in, H; lia); rewrite EU in I; destruct I|]. clear EU u0 r0.
  assert (IR : forall r, In r (r_list labels) <-> exists v, (1 <= v <= m)%Z /\ r = radius (IZR v)).
  { intro r. unfold r_list. rewrite in_map_iff. split; [intros (v & <- & I); exists v; split; [apply H, unique_in, I|reflexivity]|]. intros (v & B & ->). exists v. split; [reflexivity|]. apply unique_in, H, B. }
  assert (NE : r_list labels <> []). { intro E. assert (I : In (radius (IZR 1)) (r_list labels)) by (apply IR; exists 1%Z; split; [lia|reflexivity]). rewrite E in I. destruct I. }
  set (rs := r_list labels) in *. cbv zeta. set (h := histogram (edges rs) rs). pose proof (total_zero h (histogram_nonneg _ _)) as TZ.
  destruct (Z.lt_ge_cases m 5) as [S|S].
  - (* at most four *)
    assert (K : Int_part (largest rs + 2) = 2%Z). { apply Int_part_unique. pose proof (largest_in rs NE) as I. apply IR in I. destruct I as (v & B & E). rewrite E. pose proof (radius_pos (IZR v)). assert (radius (IZR v) < 1) by (apply radius_lt_1; split; [apply IZR_lt; lia|apply IZR_le; lia]). cbn; lra. }
    assert (L : length (edges rs) = 2%nat) by (rewrite edges_length, K; reflexivity).
    assert (Z0 : total h = 0). { apply TZ. intros v Hv. unfold h, histogram in Hv. rewrite L in Hv. cbn [minus seq map] in Hv. destruct Hv as [<-|[]].
      assert (F : filter (in_bin (edges rs) 0) rs = []). { destruct (filter _ rs) as [|x l] eqn:FF; [reflexivity|]. exfalso. assert (I : In x (filter (in_bin (edges rs) 0) rs)) by (rewrite FF; left; reflexivity). apply filter_In in I. destruct I as [I B]. unfold in_bin in B. rewrite !edges_nth in B by lia. apply IR in I. destruct I as (v & V & ->). pose proof (radius_gt_half (IZR v) ltac:(apply IZR_le; lia)). cbn [INR] in B. destruct (Rle_dec (0 - 0.5) (radius (IZR v))); [|discriminate]. destruct (Rlt_dec (radius (IZR v)) (1 - 0.5)); [lra|]. destruct (Req_EM_T (radius (IZR v)) (1 - 0.5)); [lra|discriminate]. }
      rewrite F. reflexivity. }
    destruct (Req_EM_T (total h) 0); [|contradiction]. split; [intro C; exfalso; apply C; reflexivity|lia].
  - (* five or more: region 1 falls into the second bin *)
    assert (G : 1 < largest rs). { eapply Rlt_le_trans; [apply (radius_ge_1 (IZR 5)); lra|]. apply largest_ge, IR. exists 5%Z. split; [lia|reflexivity]. }
    assert (K : (3 <= Int_part (largest rs + 2))%Z). { destruct (base_Int_part (largest rs + 2)) as [_ B]. assert (2 < Int_part (largest rs + 2))%Z; [|lia]. apply lt_IZR. lra. }
    assert (L : (3 <= length (edges rs))%nat) by (rewrite edges_length; lia).
    assert (NZ : total h <> 0). { intro E. assert (Q : In (INR (length (filter (in_bin (edges rs) 1) rs))) h) by (unfold h, histogram; apply (in_map (fun k => INR (length (filter (in_bin (edges rs) k) rs)))); apply in_seq; lia).
      apply (proj1 TZ E) in Q. assert (I : In (radius (IZR 1)) (filter (in_bin (edges rs) 1) rs)). { apply filter_In. split; [apply IR; exists 1%Z; split; [lia|reflexivity]|]. unfold in_bin. rewrite !edges_nth by lia. pose proof (radius_gt_half 1 ltac:(lra)). pose proof radius_one_small. cbn [INR]. destruct (Rle_dec (1 - 0.5) (radius 1)); [|lra]. destruct (Rlt_dec (radius 1) (1 + 1 - 0.5)); [reflexivity|lra]. }
      destruct (filter (in_bin (edges rs) 1) rs) as [|x l]; [destruct I|]. cbn [length] in Q. rewrite S_INR in Q. pose proof (pos_INR (length l)). lra. }
    destruct (Req_EM_T (total h) 0); [contradiction|]. split; [intros _; exact S|discriminate].
Qed.
Print Assumptions C78_defined.
Example C78_defined_sat : forall v, is_region [1; 2; 3; 4; 5; 0; 5]%Z v <-> (1 <= v <= 5)%Z.
Proof. intro v. unfold is_region. cbn. lia. Qed.
(** When it exists it is a probability distribution over bins centred on whole radii. *)
Lemma total_scale : forall l c, total (map (fun v => v / c) l) = total l / c.
Proof. intros l c. induction l as [|v r IH]; cbn [map total fold_right] in *; [unfold Rdiv; ring|]. unfold total in *. rewrite IH. unfold Rdiv. ring. Qed.
Theorem C78_distribution : forall labels box n rs fl f, watershed_bsd labels box n = Some (rs, fl, f) ->
  total f = 1 /\ (forall v, In v f -> 0 <= v) /\ length rs = length f /\ length fl = length f /\
  forall k, (k < length f)%nat -> nth k rs 0 = INR k * box / INR n /\ nth k fl 0 = INR k * nth k f 0.
Proof.
  intros labels box n rs fl f H. unfold watershed_bsd in H. destruct (unique_labels labels) as [|u0 r0]; [discriminate|]. cbv zeta in H. set (r := r_list labels) in *. set (es := edges r) in *. set (h := histogram es r) in *. destruct (Req_EM_T (total h) 0) as [|N]; [discriminate|]. injection H as <- <- <-.
  assert (LH : length h = (length es - 1)%nat) by (unfold h, histogram; rewrite map_length, seq_length; reflexivity).
  set (mid := map (fun k => nth (S k) es 0 / 2 + nth k es 0 / 2) (seq 0 (length es - 1))). assert (LM : length mid = (length es - 1)%nat) by (unfold mid; rewrite map_length, seq_length; reflexivity).
  assert (MN : forall k, (k < length es - 1)%nat -> nth k mid 0 = INR k).
  { intros k Hk. unfold mid. rewrite (nth_indep _ 0 (nth 1 es 0 / 2 + nth 0 es 0 / 2)) by (rewrite map_length, seq_length; exact Hk). rewrite (map_nth (fun k => nth (S k) es 0 / 2 + nth k es 0 / 2)), seq_nth by exact Hk. cbn [plus]. unfold es. rewrite !edges_nth by (fold es; lia). rewrite S_INR. lra. }
  assert (T : 0 < total h). { assert (0 <= total h); [|lra]. clear - h. assert (G : forall v, In v h -> 0 <= v) by apply histogram_nonneg. clearbody h. induction h as [|u l IH]; cbn [total fold_right]; [lra|]. pose proof (G u (or_introl eq_refl)). specialize (IH (fun x Hx => G x (or_intror Hx))). unfold total in IH. lra. }
  split; [rewrite total_scale; field; exact N|]. split.
  { intros v Hv. apply in_map_iff in Hv. destruct Hv as (u & <- & Hu). apply histogram_nonneg in Hu. apply Rmult_le_pos; [exact Hu|left; apply Rinv_0_lt_compat, T]. }
  rewrite !map_length, combine_length, map_length, LM, LH. split; [reflexivity|]. split; [lia|]. intros k Hk. split.
  - rewrite (nth_indep _ 0 (0 * box / INR n)) by (rewrite map_length, LM; exact Hk). rewrite (map_nth (fun r => r * box / INR n)). rewrite MN by exact Hk. reflexivity.
  - rewrite (nth_indep _ 0 (fst (0, 0) * snd (0, 0))) by (rewrite map_length, combine_length, map_length, LM, LH; lia). rewrite (map_nth (fun p => fst p * snd p)). rewrite combine_nth by (rewrite map_length; congruence). cbn [fst snd]. rewrite MN by exact Hk. reflexivity.
Qed.
Print Assumptions C78_distribution.
