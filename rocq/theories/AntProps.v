(** Properties C08 (baseline lists), C09 (time chunks), C51 (antenna stamps) and
    C52 (Lagrangian rows). *)
From Coq Require Import List Arith ZArith QArith Lia Bool Sorted.
From Verif Require Import PyBase PyBaseProofs UvGridModel UvGridSpec UvGridProofs UvGridProps AntModel AntSpec AntProofs.
Import ListNotations.
Local Open Scope nat_scope.

Definition ex_ants : list baseline := [(0,0,0); (300,0,1); (0,400,2); (10,20,30)]%Q.

(** C08: one row per unordered pair i < j, in lexicographic order, N(N-1)/2 of
    them, each the position difference over the wavelength. *)
Theorem C08_baselines_all_pairs :
  forall lam ants, exists pairs : list (nat * nat),
    StronglySorted lex pairs
    /\ (forall i j, In (i, j) pairs <-> i < j < length ants)
    /\ length (from_antenna_config lam ants) = length pairs
    /\ 2 * length (from_antenna_config lam ants) = length ants * (length ants - 1)
    /\ (forall k i j, nth_error pairs k = Some (i, j) ->
          exists a b r, nth_error ants i = Some a /\ nth_error ants j = Some b
            /\ nth_error (from_antenna_config lam ants) k = Some r /\ is_baseline lam a b r).
Proof.
  intros lam ants. exists (combinations2 (seq 0 (length ants))).
  split; [apply comb_sorted|]. split; [intros i j; rewrite comb_in; lia|].
  unfold from_antenna_config. rewrite map_length. split; [reflexivity|].
  split; [now rewrite comb_length, seq_length|].
  intros k i j H. assert (Hin : i < j < length ants).
  { apply nth_error_In in H. apply comb_in in H. lia. }
  exists (nth i ants (0,0,0)%Q), (nth j ants (0,0,0)%Q). eexists.
  rewrite nth_error_map, H. split; [apply nth_error_nth'; lia|].
  split; [apply nth_error_nth'; lia|]. split; [reflexivity|].
  unfold is_baseline; simpl. repeat split; reflexivity.
Qed.
Print Assumptions C08_baselines_all_pairs.

Example C08_baselines_sat : length (from_antenna_config (3#2) ex_ants) = 6.
Proof. reflexivity. Qed.

Lemma config_forall2 (lam lam' : Q) (f : baseline -> baseline) ants :
  (forall a b, beq ((bu (f a) - bu (f b)) / lam, (bv (f a) - bv (f b)) / lam, (bw (f a) - bw (f b)) / lam)%Q
                   ((bu a - bu b) / lam', (bv a - bv b) / lam', (bw a - bw b) / lam')%Q) ->
  Forall2 beq (from_antenna_config lam (map f ants)) (from_antenna_config lam' ants).
Proof.
  intros H. unfold from_antenna_config. rewrite map_length.
  assert (G : forall l, (forall i j, In (i, j) l -> i < length ants /\ j < length ants) ->
    Forall2 beq
     (map (fun ij => let a := nth (fst ij) (map f ants) (0,0,0)%Q in
        let b := nth (snd ij) (map f ants) (0,0,0)%Q in
        ((bu a - bu b) / lam, (bv a - bv b) / lam, (bw a - bw b) / lam)%Q) l)
     (map (fun ij => let a := nth (fst ij) ants (0,0,0)%Q in
        let b := nth (snd ij) ants (0,0,0)%Q in
        ((bu a - bu b) / lam', (bv a - bv b) / lam', (bw a - bw b) / lam')%Q) l)).
  { induction l as [|[i j] l IH]; intros Hl; cbn [map]; constructor.
    - destruct (Hl i j (or_introl eq_refl)) as [Hi Hj]. cbn [fst snd] in *.
      rewrite !nth_indep with (l := map f ants) (d := (0,0,0)%Q) (d' := f (0,0,0)%Q) by (now rewrite map_length).
      rewrite !map_nth. apply H.
    - apply IH. intros i' j' Hin. apply Hl. now right. }
  apply G. intros i j Hin. apply comb_in in Hin. lia.
Qed.

(** C08: moving the whole array does not change the baselines. *)
Theorem C08_baselines_translation_invariant :
  forall lam ants t,
    Forall2 beq (from_antenna_config lam (map (translate t) ants)) (from_antenna_config lam ants).
Proof.
  intros lam ants t. apply config_forall2. intros a b.
  unfold beq, translate, bu, bv, bw; simpl. unfold Qdiv.
  split; [|split]; apply Qmult_comp; try reflexivity; ring.
Qed.
Print Assumptions C08_baselines_translation_invariant.

(** C08: stretching the layout by c is the same as dividing the wavelength by c. *)
Theorem C08_baselines_scale :
  forall lam c ants, ~ (c == 0)%Q ->
    Forall2 beq (from_antenna_config lam (map (stretch c) ants)) (from_antenna_config (lam / c) ants).
Proof.
  intros lam c ants Hc. apply config_forall2. intros a b.
  unfold beq, stretch, bu, bv, bw; simpl.
  assert (E : forall x y, ((c * x - c * y) / lam == (x - y) / (lam / c))%Q).
  { intros x y. destruct (Qeq_dec lam 0) as [Z|NZ].
    - unfold Qdiv. setoid_rewrite Z. unfold Qdiv.
      assert (Z0 : (0 * / c == 0)%Q) by ring. rewrite Z0. change (/ 0)%Q with 0%Q. ring.
    - field. split; assumption. }
  split; [|split]; apply E.
Qed.
Print Assumptions C08_baselines_scale.

Example C08_baselines_scale_sat : ~ ((3#2) == 0)%Q.
Proof. vm_compute. discriminate. Qed.

(** C08: [antenna_positions_to_baselines] has one row per ordered pair. *)
Theorem C08_all_ordered_baselines :
  forall ants, exists pairs : list (nat * nat),
    StronglySorted lex pairs
    /\ (forall i j, In (i, j) pairs <-> i <> j /\ i < length ants /\ j < length ants)
    /\ length (antenna_positions_to_baselines ants) = length ants * (length ants - 1)
    /\ antenna_positions_to_baselines ants
       = map (fun ij => let '(x, y, z) := nth (fst ij) ants (0,0,0)%Q in let '(x', y', z') := nth (snd ij) ants (0,0,0)%Q in (x - x', y - y', z - z')%Q) pairs.
Proof.
  intros ants. exists (ordered_pairs (length ants)).
  split; [apply ordered_pairs_sorted|]. split; [apply ordered_pairs_in|].
  unfold antenna_positions_to_baselines. rewrite (perm_eq ants (0,0,0)%Q).
  fold (ordered_pairs (length ants)). rewrite map_map, map_length.
  split; [apply ordered_pairs_length|]. apply map_ext. intros [i j]. cbn [fst snd].
  destruct (nth i ants (0,0,0)%Q) as [[x y] z], (nth j ants (0,0,0)%Q) as [[x' y'] z']. reflexivity.
Qed.
Print Assumptions C08_all_ordered_baselines.

(** C08: the stamped list is the plain list with the 1-based antenna numbers attached. *)
Theorem C08_stamped_baselines :
  forall lam ants k r i j,
    nth_error (from_antenna_config_stamped lam ants) k = Some (r, (i, j)) ->
    nth_error (from_antenna_config lam ants) k = Some r
    /\ 1 <= i < j /\ j <= length ants
    /\ exists a b, nth_error ants (i - 1) = Some a /\ nth_error ants (j - 1) = Some b /\ is_baseline lam a b r.
Proof.
  intros lam ants k r i j H. unfold from_antenna_config_stamped, from_antenna_config in *.
  rewrite combine_map_same in H. rewrite nth_error_map in H. rewrite nth_error_map.
  destruct (nth_error (combinations2 (seq 0 (length ants))) k) as [[x y]|] eqn:E; [|discriminate].
  cbn [option_map fst snd] in *. injection H as <- <- <-.
  apply nth_error_In in E. apply comb_in in E.
  split; [reflexivity|]. split; [lia|]. split; [lia|].
  exists (nth x ants (0,0,0)%Q), (nth y ants (0,0,0)%Q).
  replace (S x - 1) with x by lia. replace (S y - 1) with y by lia.
  split; [apply nth_error_nth'; lia|]. split; [apply nth_error_nth'; lia|].
  unfold is_baseline; simpl. repeat split; reflexivity.
Qed.
Print Assumptions C08_stamped_baselines.
Example C08_stamped_baselines_sat : exists (lam : Q) (ants : list baseline) (k : nat) (r : baseline) (i : nat) (j : nat), nth_error (from_antenna_config_stamped lam ants) k = Some (r, (i, j)).
Proof. eexists (3#2)%Q, ex_ants, 1, _, _, _. reflexivity. Qed.

Example C08_stamped_sat :
  exists r, nth_error (from_antenna_config_stamped 2 ex_ants) 4 = Some (r, (2, 4)).
Proof. eexists. reflexivity. Qed.

(** C09: the chunked run returns, iff 1 <= n_jobs <= total, exactly the slices
    0 .. total-1 in order; otherwise it raises. *)
Theorem C09_chunks_partition :
  forall (S : Type) (blank : S) (slice : nat -> S) total n_jobs,
    run_chunks blank slice total n_jobs
    = if ((1 <=? n_jobs) && (n_jobs <=? Z.of_nat total))%Z
      then Some (map slice (seq 0 total)) else None.
Proof. exact @run_chunks_eq. Qed.
Print Assumptions C09_chunks_partition.

Example C09_chunks_partition_sat :
  chunks 11 4 = Some [(0, 2); (2, 4); (4, 6); (6, 8); (8, 10); (10, 11)]
  /\ run_chunks 0 (fun t => t * t) 11 4 = Some [0;1;4;9;16;25;36;49;64;81;100]
  /\ run_chunks 0 (fun t => t * t) 3 4 = None.
Proof. vm_compute. auto. Qed.

(** C09: the chunks are contiguous, non-empty and no longer than total // n_jobs. *)
Theorem C09_chunks_shape :
  forall total n_jobs cs,
    (1 <= n_jobs <= Z.of_nat total)%Z -> chunks total n_jobs = Some cs ->
    (forall k a b, nth_error cs k = Some (a, b) ->
        a < b <= total /\ b - a <= total / Z.to_nat n_jobs
        /\ (k = 0 -> a = 0)
        /\ (forall c d, nth_error cs (S k) = Some (c, d) -> c = b)
        /\ (nth_error cs (S k) = None -> b = total)).
Proof.
  intros T nj cs H E k a b Hk.
  destruct (chunks_ok T nj H) as (s & Hs & Es & Ec). rewrite Ec in E.
  assert (Ecs := f_equal (fun o => match o with Some l => l | None => [] end) E). cbn beta iota in Ecs.
  clear E. subst cs. rewrite <- Es.
  pose proof (ceil_cover T s Hs) as HC.
  set (m := (T + s - 1) / s) in *.
  assert (Hm : (m - 1) * s < T).
  { unfold m. pose proof (Nat.div_mod (T + s - 1) s ltac:(lia)) as D.
    pose proof (Nat.mod_upper_bound (T + s - 1) s ltac:(lia)). nia. }
  assert (N : forall j, nth_error (map (fun j => (j * s, Nat.min (j * s + s) T)) (seq 0 m)) j
        = if j <? m then Some (j * s, Nat.min (j * s + s) T) else None).
  { intros j. rewrite nth_error_map. destruct (Nat.ltb_spec j m) as [L|L].
    - rewrite nth_error_nth' with (d := 0) by (now rewrite seq_length).
      rewrite seq_nth by exact L. reflexivity.
    - replace (nth_error (seq 0 m) j) with (@None nat); [reflexivity|].
      symmetry. apply nth_error_None. now rewrite seq_length. }
  rewrite !N in *. destruct (Nat.ltb_spec k m) as [L|L]; [|discriminate].
  assert (Ea : a = k * s) by congruence. assert (Eb : b = Nat.min (k * s + s) T) by congruence.
  subst a b. assert (k * s < T) by nia.
  split; [lia|]. split; [lia|]. split; [intros ->; reflexivity|]. split.
  - intros c d Hc. destruct (Nat.ltb_spec (S k) m) as [L'|L']; [|discriminate].
    assert (c = S k * s) by congruence. subst c. assert (S k * s < T) by nia. lia.
  - destruct (Nat.ltb_spec (S k) m) as [L'|L']; [discriminate|]. intros _.
    assert (k = m - 1) by lia. subst k. nia.
Qed.
Print Assumptions C09_chunks_shape.

Example C09_chunks_shape_sat : (1 <= 4 <= Z.of_nat 11)%Z /\ exists cs, chunks 11 4 = Some cs /\ length cs = 6.
Proof. split; [lia|]. eexists. split; [reflexivity|reflexivity]. Qed.

Definition ex_rows : list (baseline * (nat * nat)) :=
  [((1,1,0)%Q,(1,2)); ((-3,1,0)%Q,(1,3)); ((9,1,0)%Q,(2,3)); ((1,1,5)%Q,(1,4))].

(** C51: the list stored at a pixel holds exactly the antenna pairs whose baseline
    rounds to that pixel (negative coordinates wrap), in order; the call never raises. *)
Theorem C51_stamps_at_pixel :
  forall n theta rows, exists f,
    stamp_slice n theta rows = Some f /\ forall i j, f i j = pairs_at n theta rows i j.
Proof. exact stamp_slice_eq. Qed.
Print Assumptions C51_stamps_at_pixel.

Example C51_stamps_sat :
  pairs_at 8 1 ex_rows 1 1 = [(1,2); (1,4)] /\ pairs_at 8 1 ex_rows 5 1 = [(1,3)].
Proof. vm_compute. auto. Qed.

(** C51: collapsing the stamps gives the uv counts summed over the slices; every
    in-range baseline of every slice is counted once. *)
Theorem C51_stamps_collapse :
  forall n theta (slices : list (list (baseline * (nat * nat)))),
    exists fs, Forall2 (fun rows f => stamp_slice n theta rows = Some f) slices fs
    /\ (forall i j, stamps_to_uv_map fs i j
          = list_sum (map (fun rows => hits 0 n theta (map fst rows) (Z.of_nat i) (Z.of_nat j)) slices))
    /\ sum2 n (stamps_to_uv_map fs) = list_sum (map (fun rows => visible n theta (map fst rows)) slices).
Proof.
  intros n theta slices. induction slices as [|rows slices (fs & HF & Hij & Hs)].
  - exists []. split; [constructor|]. split; [reflexivity|]. exact (sum2_zero n).
  - destruct (stamp_slice_eq n theta rows) as (f & Ef & Hf).
    exists (f :: fs). split; [now constructor|].
    assert (E : forall i j, stamps_to_uv_map (f :: fs) i j
       = hits 0 n theta (map fst rows) (Z.of_nat i) (Z.of_nat j) + stamps_to_uv_map fs i j).
    { intros i j. unfold stamps_to_uv_map. cbn [map]. unfold list_sum at 1. cbn [fold_right].
      fold (list_sum (map (fun f0 : nat -> nat -> list (nat * nat) => length (f0 i j)) fs)).
      rewrite Hf, pairs_at_length. reflexivity. }
    split.
    + intros i j. rewrite E, Hij. reflexivity.
    + rewrite (sum2_ext n _ _ E), sum2_add, Hs, sum2_hits. reflexivity.
Qed.
Print Assumptions C51_stamps_collapse.

(** C51: on even grids one slice agrees pixel by pixel with [grid_uv_tracks]. *)
Theorem C51_stamps_agree_with_grid :
  forall n theta rows f m i j,
    Nat.even n = true -> stamp_slice n theta rows = Some f ->
    grid_uv_tracks false n theta (map fst rows) = Some m -> i < n -> j < n ->
    entry m i j = Some (inject_Z (Z.of_nat (length (f i j)))).
Proof.
  intros n theta rows f m i j Ev Hf Hm Hi Hj.
  destruct (stamp_slice_eq n theta rows) as (g & Eg & Hg).
  assert (f = g) by congruence. subst g. rewrite Hg, pairs_at_length.
  now apply C05_uv_grid_pixel_even.
Qed.
Print Assumptions C51_stamps_agree_with_grid.

Example C51_stamps_agree_sat :
  exists f m, stamp_slice 8 1 ex_rows = Some f /\ grid_uv_tracks false 8 1 (map fst ex_rows) = Some m
    /\ length (f 1 1) = 2.
Proof. eexists _, _. split; [reflexivity|]. split; reflexivity. Qed.

(** C51: on odd grids the two disagree already for one zero-length baseline. *)
Theorem C51_stamps_odd_grid_refuted :
  exists n theta rows f m, stamp_slice n theta rows = Some f
    /\ grid_uv_tracks false n theta (map fst rows) = Some m
    /\ entry m 0 0 <> Some (inject_Z (Z.of_nat (length (f 0 0)))).
Proof.
  exists 5, 1%Q, [((0,0,0)%Q, (1,2))]. eexists _, _. split; [reflexivity|].
  split; [vm_compute; reflexivity|]. vm_compute. discriminate.
Qed.
Print Assumptions C51_stamps_odd_grid_refuted.

(** C52: row k of a slice holds the coordinates of the k-th in-range baseline. *)
Theorem C52_lagrangian_rows :
  forall n theta bs k, k < length bs ->
    nth_error (lagrangian_slice n theta bs) k
    = Some (nth_error (map (fun b => (gx theta b, gy theta b)) (filter (on_grid n theta) bs)) k).
Proof.
  intros n theta bs k Hk. rewrite lagrangian_row by exact Hk. do 2 f_equal.
  induction bs as [|b bs IH]; [reflexivity|].
  assert (IH' : filter (mask n) (map (pix theta) bs)
     = map (fun b0 => (gx theta b0, gy theta b0)) (filter (on_grid n theta) bs)).
  { clear. induction bs as [|b bs IH]; [reflexivity|]. cbn [map filter]. rewrite mask_on_grid.
    destruct (on_grid n theta b); cbn [map]; now rewrite IH. }
  cbn [map filter]. rewrite mask_on_grid. destruct (on_grid n theta b); cbn [map]; now rewrite IH'.
Qed.
Print Assumptions C52_lagrangian_rows.
Example C52_lagrangian_rows_sat : exists (bs : list baseline) (k : nat), k < length bs.
Proof. exists [((1, 2), 3); ((4, 5), 6)]%Q, 1%nat. cbn; lia. Qed.

(** C52 (finding): so the documented correspondence (row k = baseline k, NaN when
    outside) holds exactly when no out-of-range baseline precedes an in-range one. *)
Theorem C52_lagrangian_documented_iff :
  forall n theta bs,
    lagrangian_slice n theta bs = documented_rows n theta bs
    <-> (forall i j a b, i < j -> nth_error bs i = Some a -> nth_error bs j = Some b ->
           on_grid n theta a = false -> on_grid n theta b = false).
Proof. exact lagrangian_documented_iff. Qed.
Print Assumptions C52_lagrangian_documented_iff.

Example C52_lagrangian_documented_sat :
  lagrangian_slice 8 1 [(1,1,0); (9,0,0)]%Q = documented_rows 8 1 [(1,1,0); (9,0,0)]%Q
  /\ lagrangian_slice 8 1 [(9,0,0); (1,1,0)]%Q = [Some (1, 1)%Z; None].
Proof. vm_compute. auto. Qed.

Theorem C52_lagrangian_identity_refuted :
  exists n theta bs, lagrangian_slice n theta bs <> documented_rows n theta bs.
Proof. exists 8, 1%Q, [(9,0,0); (1,1,0)]%Q. vm_compute. discriminate. Qed.
Print Assumptions C52_lagrangian_identity_refuted.
