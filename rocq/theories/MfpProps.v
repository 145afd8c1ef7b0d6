(** C31: mean-free-path rays. *)
From Coq Require Import List Arith ZArith Reals Bool Lia Lra.
From Verif Require Import RLib FourierModel FourierSpec FourierProofs MfpModel MfpSpec.
Import ListNotations.
Local Open Scope R_scope.

Lemma in_grid_dec_iff : forall shape pos, in_grid_dec shape pos = true <-> in_grid shape pos.
Proof.
  induction shape as [|n sh IH]; intros [|x xs]; simpl; try tauto.
  rewrite andb_true_iff, IH. destruct (Rle_dec 0 x); [destruct (Rle_dec x (INR n - 1))|]; intuition discriminate.
Qed.
Lemma above_half_iff : forall v, above_half v = true <-> 1/2 < v.
Proof. intro v. unfold above_half. destruct (Rlt_dec (1/2) v); intuition discriminate. Qed.

(** * Interpolation facts *)
Lemma multilinear_ones : forall shape pos f, (forall i, f i = true) -> multilinear shape f pos = 1.
Proof.
  induction shape as [|n sh IH]; intros [|x xs] f H; simpl; try (rewrite H; reflexivity).
  rewrite !IH by (intros; apply H). ring.
Qed.
Lemma interp_outside : forall shape f pos, ~ in_grid shape pos -> interp shape f pos = 0.
Proof.
  intros shape f pos H. unfold interp. destruct (in_grid_dec shape pos) eqn:E; [|reflexivity].
  apply in_grid_dec_iff in E. contradiction.
Qed.
Lemma Int_part_INR : forall n, Int_part (INR n) = Z.of_nat n.
Proof.
  intro n. rewrite INR_IZR_INZ. destruct (base_Int_part (IZR (Z.of_nat n))) as [A B].
  apply le_IZR in A. assert (C : (Z.of_nat n - 1 < Int_part (IZR (Z.of_nat n)))%Z) by (apply lt_IZR; rewrite minus_IZR; lra).
  lia.
Qed.
(** At a cell the interpolated field is the field. *)
Theorem C31_interpolation_at_cells : forall shape f i, valid shape i ->
  interp shape f (map INR i) = (if f i then 1 else 0).
Proof.
  intros shape f i H. unfold interp.
  assert (G : in_grid_dec shape (map INR i) = true).
  { apply in_grid_dec_iff. induction H as [|n k sh r L _ IH]; simpl; [exact I|]. split; [|exact IH].
    split; [apply pos_INR|]. apply le_INR in L. rewrite S_INR in L. lra. }
  rewrite G. clear G. revert f. induction H as [|n k sh r L _ IH]; intro f; [reflexivity|]. cbn [map multilinear].
  rewrite Int_part_INR, Nat2Z.id, !IH.
  destruct (Nat.le_gt_cases k (n - 2)) as [C|C].
  - rewrite Nat.min_l by exact C. replace (INR k - INR k) with 0 by ring. destruct (f (k :: r)), (f (S k :: r)); ring.
  - assert (E : k = (n - 1)%nat) by lia. rewrite Nat.min_r by lia.
    destruct (Nat.eq_dec n 1) as [N1|N1].
    + subst n. assert (k = 0%nat) by lia. subst k. simpl. destruct (f (0%nat :: r)), (f (1%nat :: r)); ring.
    + replace (S (n - 2)) with k by lia. replace (INR k - INR (n - 2)) with 1.
      * destruct (f ((n - 2)%nat :: r)), (f (k :: r)); ring.
      * replace k with (S (n - 2)) by lia. rewrite S_INR. ring.
Qed.
Print Assumptions C31_interpolation_at_cells.
Example C31_interpolation_at_cells_sat : exists (shape : list nat) (i : list nat), valid shape i.
Proof. exists [3; 4; 5]%nat, [2; 0; 4]%nat. repeat constructor. Qed.

(** * The loop *)
Definition ib (shape : list nat) (f : list nat -> bool) (r : ray) (k : nat) : bool :=
  above_half (interp shape f (along (fst r) (snd r) k)).
Definition adv (m : nat) (r : ray) : ray := (along (fst r) (snd r) m, snd r).
Definition alive shape f (m : nat) (r : ray) : bool := forallb (ib shape f r) (seq 1 m).

Lemma along_0 : forall p d, length p = length d -> along p d 0 = p.
Proof. induction p as [|x p IH]; intros [|y d] H; try discriminate; [reflexivity|]. simpl in *. rewrite IH by lia. f_equal. ring. Qed.
Lemma along_S : forall p d m, vadd (along p d m) d = along p d (S m).
Proof. induction p as [|x p IH]; intros [|y d] m; try reflexivity. cbn [along vadd]. rewrite IH, S_INR. f_equal. ring. Qed.
Lemma move_adv : forall m r, move (adv m r) = adv (S m) r.
Proof. intros m r. unfold move, adv. cbn [fst snd]. rewrite along_S. reflexivity. Qed.

Lemma filter_map : forall {A B} (P : B -> bool) (g : A -> B) l, filter P (map g l) = map g (filter (fun a => P (g a)) l).
Proof. induction l as [|a l IH]; [reflexivity|]. simpl. destruct (P (g a)); simpl; rewrite IH; reflexivity. Qed.
Lemma filter_filter : forall {A} (P Q : A -> bool) l, filter P (filter Q l) = filter (fun a => Q a && P a) l.
Proof.
  induction l as [|a l IH]; [reflexivity|]. simpl. destruct (Q a); simpl; [destruct (P a)|]; rewrite IH; reflexivity.
Qed.
Lemma alive_S : forall shape f m r, alive shape f (S m) r = alive shape f m r && ib shape f r (S m).
Proof. intros. unfold alive. rewrite seq_S, forallb_app. simpl. rewrite andb_true_r. reflexivity. Qed.
Lemma count_split : forall {A} (P Q : A -> bool) l,
  (length (filter P l) - length (filter (fun a => P a && Q a) l))%nat = length (filter (fun a => P a && negb (Q a)) l).
Proof.
  intros A P Q l. assert (E : length (filter P l) = (length (filter (fun a => P a && Q a) l) + length (filter (fun a => P a && negb (Q a)) l))%nat).
  { induction l as [|a l IH]; [reflexivity|]. simpl. destruct (P a), (Q a); simpl; rewrite ?IH; lia. }
  lia.
Qed.
Lemma filter_none : forall {A} (P : A -> bool) l, (forall a, In a l -> P a = false) -> filter P l = [].
Proof.
  induction l as [|a l IH]; intro H; [reflexivity|]. simpl. rewrite H by (left; auto). apply IH. intros; apply H; right; auto.
Qed.

Lemma loop_count : forall shape f rays s m,
  ray_loop shape f s (map (adv m) (filter (alive shape f m) rays)) =
  map (fun k => length (filter (fun r => alive shape f k r && negb (ib shape f r (S k))) rays)) (seq m s).
Proof.
  intros shape f rays. induction s as [|s IH]; intro m; [reflexivity|]. cbn [ray_loop seq map].
  rewrite map_map, filter_map, map_length.
  assert (V : filter (fun r => above_half (interp shape f (fst (move (adv m r))))) (filter (alive shape f m) rays)
            = filter (alive shape f (S m)) rays).
  { rewrite filter_filter. apply filter_ext. intro r. rewrite move_adv, alive_S. reflexivity. }
  rewrite V, map_length.
  assert (M : map (fun x => move (adv m x)) (filter (alive shape f (S m)) rays) = map (adv (S m)) (filter (alive shape f (S m)) rays))
    by (apply map_ext; intro; apply move_adv).
  rewrite M. f_equal.
  - rewrite (filter_ext (alive shape f (S m)) (fun r => alive shape f m r && ib shape f r (S m))) by (intro; apply alive_S).
    apply count_split.
  - destruct (map (adv (S m)) (filter (alive shape f (S m)) rays)) eqn:E.
    + assert (N : filter (alive shape f (S m)) rays = []) by (destruct (filter (alive shape f (S m)) rays); [reflexivity|discriminate]).
      assert (Z : forall k, (S m <= k)%nat -> length (filter (fun r => alive shape f k r && negb (ib shape f r (S k))) rays) = 0%nat).
      { intros k Hk. rewrite filter_none; [reflexivity|]. intros r Hr.
        destruct (alive shape f k r) eqn:A; [|reflexivity]. exfalso.
        assert (In r (filter (alive shape f (S m)) rays)).
        { apply filter_In. split; [exact Hr|]. unfold alive in *. apply forallb_forall. intros j Hj.
          apply in_seq in Hj. rewrite forallb_forall in A. apply A. apply in_seq. lia. }
        rewrite N in H. exact H. }
      clear - Z. revert Z. generalize (S m). induction s as [|s IH]; intros a Z; [reflexivity|].
      simpl. rewrite Z by lia. f_equal. apply IH. intros; apply Z; lia.
    + rewrite <- E. apply IH.
Qed.

Definition ending shape f (L : nat) (r : ray) : option nat := find (fun k => negb (ib shape f r (S k))) (seq 0 L).
Lemma find_seq : forall (P : nat -> bool) L a k, find P (seq a L) = Some k <->
  (a <= k < a + L)%nat /\ P k = true /\ forall j, (a <= j < k)%nat -> P j = false.
Proof.
  intros P. induction L as [|L IH]; intros a k; cbn [seq find].
  - split; [discriminate|]. intros [H _]. lia.
  - destruct (P a) eqn:E.
    + split.
      * intros [= <-]. split; [lia|]. split; [exact E|]. intros; lia.
      * intros [H [H1 H2]]. destruct (Nat.eq_dec a k) as [->|N]; [reflexivity|]. rewrite H2 in E by lia. discriminate.
    + rewrite IH. split.
      * intros [H [H1 H2]]. split; [lia|]. split; [exact H1|]. intros j Hj.
        destruct (Nat.eq_dec j a) as [->|N]; [exact E|apply H2; lia].
      * intros [H [H1 H2]]. assert (k <> a) by (intro; subst; congruence). split; [lia|]. split; [exact H1|]. intros; apply H2; lia.
Qed.
Lemma ib_iff : forall shape f r k, ib shape f r k = true <-> inside_at shape f r k.
Proof. intros. unfold ib, inside_at. apply above_half_iff. Qed.
Lemma ending_iff : forall shape f L r k, ending shape f L r = Some k <-> (k < L)%nat /\ ends_after shape f r k.
Proof.
  intros shape f L r k. unfold ending. rewrite find_seq. unfold ends_after. split.
  - intros [H [H1 H2]]. split; [lia|]. apply negb_true_iff in H1. split.
    + intros j Hj. apply ib_iff. specialize (H2 (j - 1)%nat ltac:(lia)). apply negb_false_iff in H2.
      replace (S (j - 1)) with j in H2 by lia. exact H2.
    + rewrite <- ib_iff. congruence.
  - intros [H [H1 H2]]. split; [lia|]. split.
    + apply negb_true_iff. rewrite <- ib_iff in H2. apply not_true_is_false. exact H2.
    + intros j Hj. apply negb_false_iff. apply ib_iff. apply H1. lia.
Qed.
Lemma ending_alive : forall shape f L r k, (k < L)%nat ->
  match ending shape f L r with Some j => Nat.eqb j k | None => false end
  = alive shape f k r && negb (ib shape f r (S k)).
Proof.
  intros shape f L r k H.
  assert (E : (alive shape f k r && negb (ib shape f r (S k)) = true) <-> ending shape f L r = Some k).
  { rewrite ending_iff, andb_true_iff, negb_true_iff. unfold alive, ends_after. rewrite forallb_forall. split.
    - intros [A B]. split; [exact H|]. split.
      + intros j Hj. apply ib_iff. apply A. apply in_seq. lia.
      + rewrite <- ib_iff. congruence.
    - intros [_ [A B]]. split.
      + intros j Hj. apply in_seq in Hj. apply ib_iff. apply A. lia.
      + apply not_true_is_false. rewrite ib_iff. exact B. }
  destruct (ending shape f L r) as [j|] eqn:D.
  - destruct (Nat.eqb_spec j k) as [->|N].
    + symmetry. apply E. reflexivity.
    + symmetry. apply not_true_is_false. rewrite E. congruence.
  - symmetry. apply not_true_is_false. rewrite E. discriminate.
Qed.
Lemma loop_start : forall shape f L rays d, Forall (proper d) rays ->
  ray_loop shape f L rays = map (fun k => tally (ending shape f L) k rays) (seq 0 L).
Proof.
  intros shape f L rays d H.
  assert (E : map (adv 0) (filter (alive shape f 0) rays) = rays).
  { unfold alive. simpl. induction H as [|r l [H1 H2] _ IH]; [reflexivity|]. simpl. rewrite IH. f_equal.
    unfold adv. rewrite along_0 by congruence. destruct r; reflexivity. }
  rewrite <- E at 1. rewrite loop_count. apply map_ext_in. intros k Hk. apply in_seq in Hk. unfold tally.
  f_equal. apply filter_ext. intro r. symmetry. apply ending_alive. lia.
Qed.

(** Bin k of the histogram counts the rays that are inside after steps 1 .. k and not
    after step k+1, each ray in at most one bin. *)
Theorem C31_histogram : forall shape f L rays d, Forall (proper d) rays ->
  exists e : ray -> option nat,
    (forall r k, e r = Some k <-> (k < L)%nat /\ ends_after shape f r k) /\
    length (ray_loop shape f L rays) = L /\
    (forall k, (k < L)%nat -> nth k (ray_loop shape f L rays) 0%nat = tally e k rays) /\
    (list_sum (ray_loop shape f L rays) + tally_none e rays = length rays)%nat.
Proof.
  intros shape f L rays d H. exists (ending shape f L).
  split; [intros; apply ending_iff|]. rewrite (loop_start shape f L rays d H).
  split; [rewrite map_length, seq_length; reflexivity|]. split.
  - intros k Hk. rewrite (nth_indep _ 0%nat (tally (ending shape f L) 0 rays)) by (rewrite map_length, seq_length; exact Hk).
    rewrite (map_nth (fun k => tally (ending shape f L) k rays)), seq_nth by exact Hk. reflexivity.
  - assert (B : forall r k, ending shape f L r = Some k -> (k < L)%nat) by (intros r k Hk; apply ending_iff in Hk; tauto).
    revert B. generalize (ending shape f L). clear H. intros e B. unfold tally, tally_none.
    induction rays as [|r rays IH].
    + simpl. clear B. induction (seq 0 L); simpl; auto.
    + assert (S1 : forall l, NoDup l ->
        list_sum (map (fun k => length (filter (fun r0 => match e r0 with Some j => Nat.eqb j k | None => false end) (r :: rays))) l)
        = ((match e r with Some j => if in_dec Nat.eq_dec j l then 1 else 0 | None => 0 end)
          + list_sum (map (fun k => length (filter (fun r0 => match e r0 with Some j => Nat.eqb j k | None => false end) rays)) l))%nat).
      { intros l N. induction N as [|k l Hk N IHl].
        - simpl. destruct (e r); reflexivity.
        - assert (LS : forall x (u : list nat), list_sum (x :: u) = (x + list_sum u)%nat) by reflexivity.
          cbn [map]. rewrite !LS, IHl. cbn [filter]. destruct (e r) as [j|] eqn:Er; [|lia].
          destruct (Nat.eqb_spec j k) as [->|NE].
          + destruct (in_dec Nat.eq_dec k (k :: l)) as [_|C]; [|exfalso; apply C; left; reflexivity].
            destruct (in_dec Nat.eq_dec k l); [contradiction|]. cbn [length]. lia.
          + destruct (in_dec Nat.eq_dec j (k :: l)) as [C|C], (in_dec Nat.eq_dec j l) as [C'|C']; try lia.
            * destruct C as [C|C]; [congruence|contradiction].
            * exfalso. apply C. right. exact C'. }
      rewrite S1 by apply seq_NoDup. cbn [filter length]. 
      destruct (e r) as [j|] eqn:Er; [|cbn [length]; lia].
      destruct (in_dec Nat.eq_dec j (seq 0 L)) as [_|C]; [lia|]. exfalso. apply C. apply in_seq. apply B in Er. lia.
Qed.
Print Assumptions C31_histogram.
Example C31_histogram_sat : exists (rays : list ray) (d : nat), Forall (proper d) rays.
Proof. exists [([1; 2], [0; 1]); ([3; 4], [1; 0])], 2%nat. repeat constructor. Qed.

(** A ray with a component that carries it across the whole grid within the number of
    steps is recorded. *)
Lemma grid_nth : forall shape pos i, in_grid shape pos -> (i < length shape)%nat -> (i < length pos)%nat ->
  0 <= nth i pos 0 <= INR (nth i shape 0%nat) - 1.
Proof.
  induction shape as [|n sh IH]; intros [|x xs] i H Hi Hp; simpl in *; try lia.
  destruct H as [H1 H2]. destruct i; [exact H1|]. apply IH; auto; lia.
Qed.
Lemma along_length : forall p d k, length p = length d -> length (along p d k) = length p.
Proof. induction p as [|x p IH]; intros [|y d] k H; try discriminate; [reflexivity|]. simpl in *. rewrite IH by lia. reflexivity. Qed.
Lemma along_nth : forall p d k i, length p = length d -> (i < length p)%nat -> nth i (along p d k) 0 = nth i p 0 + INR k * nth i d 0.
Proof.
  induction p as [|x p IH]; intros [|y d] k i H Hi; try discriminate; [simpl in Hi; lia|]. simpl in *.
  destruct i; [reflexivity|]. apply IH; lia.
Qed.
Lemma not_inside_ends : forall shape f r L, ~ inside_at shape f r L -> (1 <= L)%nat ->
  exists k, (k < L)%nat /\ ends_after shape f r k.
Proof.
  intros shape f r L H HL. destruct (ending shape f L r) as [k|] eqn:E.
  - exists k. apply ending_iff in E. exact E.
  - exfalso. unfold ending in E. pose proof (find_none _ _ E (L - 1)%nat) as F.
    rewrite in_seq in F. specialize (F ltac:(lia)). cbv beta in F. apply negb_false_iff in F.
    replace (S (L - 1)) with L in F by lia. apply ib_iff in F. contradiction.
Qed.
Theorem C31_crossing_rays_end : forall shape f r L i, (1 <= L)%nat -> proper (length shape) r -> in_grid shape (fst r) ->
  (i < length shape)%nat -> INR (nth i shape 0%nat) - 1 < INR L * Rabs (nth i (snd r) 0) ->
  exists k, (k < L)%nat /\ ends_after shape f r k.
Proof.
  intros shape f [p d] L i HL [P1 P2] G Hi C. cbn [fst snd] in *. apply not_inside_ends; [|exact HL].
  unfold inside_at. cbn [fst snd]. rewrite interp_outside; [lra|]. intro G2.
  pose proof (grid_nth _ _ i G Hi ltac:(lia)) as B1.
  pose proof (grid_nth _ _ i G2 Hi) as B2. rewrite along_length in B2 by lia. specialize (B2 ltac:(lia)).
  rewrite along_nth in B2 by lia.
  destruct (Rcase_abs (nth i d 0)) as [N|N]; [rewrite Rabs_left in C by exact N|rewrite Rabs_right in C by exact N]; lra.
Qed.
Print Assumptions C31_crossing_rays_end.
Example C31_crossing_rays_end_sat : exists (shape : list nat) (r : ray) (L : nat) (i : nat), (1 <= L)%nat /\ proper (length shape) r /\ in_grid shape (fst r) /\ (i < length shape)%nat /\ INR (nth i shape 0%nat) - 1 < INR L * Rabs (nth i (snd r) 0).
Proof. exists [3; 4]%nat, ([1; 2], [0; 1]), 5%nat, 1%nat. split; [lia|]. split; [split; reflexivity|]. split; [cbn; lra|]. split; [cbn; lia|]. cbn. rewrite Rabs_R1. lra. Qed.

(** In two dimensions every ray is recorded, so the histogram adds up to the number of
    rays. *)
Lemma list_max_nth : forall l i, (nth i l 0 <= list_max l)%nat.
Proof.
  induction l as [|x l IH]; intros [|i]; simpl; try lia. specialize (IH i). lia.
Qed.
Theorem C31_2d_complete : forall n0 n1 f rays, (1 <= n0)%nat -> (1 <= n1)%nat ->
  Forall (fun r => proper 2 r /\ in_grid [n0; n1] (fst r) /\ unit_vector (snd r)) rays ->
  list_sum (ray_loop [n0; n1] f (longest_2d [n0; n1]) rays) = length rays.
Proof.
  intros n0 n1 f rays H0 H1 H. set (M := list_max [n0; n1]).
  assert (HM : (1 <= M)%nat) by (unfold M; simpl; lia).
  assert (S2 : sqrt 2 * sqrt 2 = 2) by (apply sqrt_sqrt; lra).
  assert (S2p : 0 < sqrt 2) by (apply sqrt_lt_R0; lra).
  assert (S21 : 1 < sqrt 2) by (apply Rsqr_incrst_0; unfold Rsqr; lra).
  assert (LB : sqrt 2 * INR M - 1 < INR (longest_2d [n0; n1])).
  { unfold longest_2d. fold M. destruct (base_Int_part (sqrt 2 * INR M)) as [A B].
    apply le_INR in HM. simpl in HM. assert (1 <= sqrt 2 * INR M) by nra.
    rewrite (INR_IZR_INZ (Z.to_nat _)), Z2Nat.id; [lra|]. apply le_IZR.
    assert (-1 < Int_part (sqrt 2 * INR M))%Z; [apply lt_IZR; lra|]. apply IZR_le. lia. }
  set (L := longest_2d [n0; n1]) in *.
  assert (HL : (1 <= L)%nat).
  { apply le_INR in HM. simpl in HM. assert (0 < INR L) by nra. destruct L; [simpl in H2; lra|lia]. }
  assert (P : Forall (proper 2) rays) by (eapply Forall_impl; [|exact H]; cbv beta; tauto).
  destruct (C31_histogram [n0; n1] f L rays 2 P) as [e [E1 [_ [_ E2]]]].
  assert (T : tally_none e rays = 0%nat).
  { unfold tally_none. rewrite filter_none; [reflexivity|]. intros r Hr. rewrite Forall_forall in H.
    destruct (H r Hr) as [Pr [G U]]. destruct r as [p d]. cbn [fst snd] in *.
    destruct Pr as [P1 P2]. cbn [fst snd] in *. destruct d as [|dx [|dy [|? ?]]]; try discriminate. unfold unit_vector in U. simpl in U.
    assert (CM : exists i, (i < 2)%nat /\ 1 <= 2 * (nth i [dx; dy] 0 * nth i [dx; dy] 0)).
    { destruct (Rle_dec 1 (2 * (dx * dx))); [exists 0%nat; split; [lia|simpl; lra]|].
      exists 1%nat. split; [lia|]. simpl. lra. }
    destruct CM as [i [Hi C]].
    destruct (C31_crossing_rays_end [n0; n1] f (p, [dx; dy]) L i HL) as [k Hk].
    - split; assumption.
    - exact G.
    - exact Hi.
    - cbn [snd]. set (c := nth i [dx; dy] 0) in *.
      pose proof (list_max_nth [n0; n1] i) as B. fold M in B. apply le_INR in B.
      assert (A : 1 <= sqrt 2 * Rabs c).
      { apply Rsqr_incr_0_var; [|apply Rmult_le_pos; [lra|apply Rabs_pos]].
        unfold Rsqr. replace (sqrt 2 * Rabs c * (sqrt 2 * Rabs c)) with ((sqrt 2 * sqrt 2) * (Rabs c * Rabs c)) by ring.
        rewrite S2, <- Rabs_mult. rewrite Rabs_pos_eq by (apply Rle_0_sqr). lra. }
      apply le_INR in HM. simpl in HM.
      assert (A2 : sqrt 2 * INR M - 1 < sqrt 2 * (INR L * Rabs c)).
      { replace (sqrt 2 * (INR L * Rabs c)) with (INR L * (sqrt 2 * Rabs c)) by ring.
        pose proof (pos_INR L). nra. }
      apply Rle_lt_trans with (INR M - 1); [lra|].
      apply Rmult_lt_reg_l with (sqrt 2); [exact S2p|]. rewrite Rmult_minus_distr_l. lra.
    - apply E1 in Hk. rewrite Hk. reflexivity. }
  lia.
Qed.
Print Assumptions C31_2d_complete.
Example C31_2d_complete_sat : exists (n0 : nat) (n1 : nat) (rays : list ray), (1 <= n0)%nat /\ (1 <= n1)%nat /\ Forall (fun r => proper 2 r /\ in_grid [n0; n1] (fst r) /\ unit_vector (snd r)) rays.
Proof. exists 3%nat, 4%nat, [([1; 2], [0; 1])]. split; [lia|]. split; [lia|]. constructor; [|constructor]. split; [split; reflexivity|]. split; [cbn; lra|]. unfold unit_vector. cbn. lra. Qed.
Lemma dir_2d_unit : forall t, unit_vector (dir_2d t).
Proof.
  intro t. unfold unit_vector, dir_2d. simpl. pose proof (sin2_cos2 (radians t)) as E. unfold Rsqr in E. lra.
Qed.

(** The directions of the rays: unit vectors at the polar angle theta from the third axis
    and the azimuth phi from the first, in degrees; in two dimensions at the angle theta
    from the second axis. *)
Theorem C31_directions : forall theta phi,
  unit_vector (dir_3d theta phi) /\ unit_vector (dir_2d theta) /\
  (let t := 2 * PI * IZR theta / 360 in let p := 2 * PI * IZR phi / 360 in
   dir_3d theta phi = [sin t * cos p; sin t * sin p; cos t] /\ dir_2d theta = [sin t; cos t]).
Proof.
  intros theta phi.
  assert (E : forall d, radians d = 2 * PI * IZR d / 360) by (intro d; unfold radians; field).
  split; [|split; [apply dir_2d_unit|]].
  - unfold unit_vector, dir_3d. cbn [map fold_right]. pose proof (sin2_cos2 (radians theta)) as A. pose proof (sin2_cos2 (radians phi)) as B. unfold Rsqr in A, B.
    set (st := sin (radians theta)) in *. set (ct := cos (radians theta)) in *. set (sp := sin (radians phi)) in *. set (cp := cos (radians phi)) in *.
    cbn. replace (st * cp * (st * cp) + (st * sp * (st * sp) + (ct * ct + 0))) with (st * st * (sp * sp + cp * cp) + ct * ct) by ring. rewrite B. lra.
  - cbv zeta. unfold dir_3d, dir_2d. rewrite !E. split; reflexivity.
Qed.
Print Assumptions C31_directions.

(** The two angles are drawn uniformly in degrees, so directions are not uniform on the
    sphere: averaged over the equally likely draws the squared component along the third
    axis is 1/2, and 1/4 along each of the others, instead of 1/3. *)
Lemma quarter_sum : forall f : nat -> R, rsum (map f (seq 0 360)) =
  rsum (map (fun t => f t + f (t + 90)%nat + (f (t + 180)%nat + f (t + 270)%nat)) (seq 0 90)).
Proof.
  intro f. replace (seq 0 360) with (seq 0 90 ++ seq 90 90 ++ seq 180 90 ++ seq 270 90) by reflexivity. rewrite !map_app, !rsum_app.
  assert (SH : forall k, seq k 90 = map (fun t => (t + k)%nat) (seq 0 90)).
  { intro k. generalize 90%nat. intro n. replace k with (0 + k)%nat at 1 by lia. generalize 0%nat. revert k. induction n as [|n IH]; intros k s; [reflexivity|].
    cbn [seq map]. f_equal. replace (S (s + k)) with (S s + k)%nat by lia. apply IH. }
  rewrite (SH 90%nat), (SH 180%nat), (SH 270%nat), !map_map, !rsum_plus. ring.
Qed.
Lemma degrees_plus : forall t k, radians (Z.of_nat (t + k)) = radians (Z.of_nat t) + IZR (Z.of_nat k) * PI / 180.
Proof. intros. unfold radians. rewrite Nat2Z.inj_add, plus_IZR. field. Qed.
Lemma cos2_sum : rsum (map (fun t => cos (radians (Z.of_nat t)) * cos (radians (Z.of_nat t))) (seq 0 360)) = 180 /\
                 rsum (map (fun t => sin (radians (Z.of_nat t)) * sin (radians (Z.of_nat t))) (seq 0 360)) = 180.
Proof.
  assert (Q : forall t, cos (radians (Z.of_nat (t + 90))) = - sin (radians (Z.of_nat t)) /\ sin (radians (Z.of_nat (t + 90))) = cos (radians (Z.of_nat t))).
  { intro t. rewrite degrees_plus. replace (IZR (Z.of_nat 90) * PI / 180) with (PI / 2) by (cbn; field).
    set (x := radians (Z.of_nat t)). rewrite cos_plus, sin_plus, cos_PI2, sin_PI2. split; ring. }
  assert (C : rsum (map (fun _ : nat => 2) (seq 0 90)) = 180).
  { rewrite rsum_const, seq_length. replace (INR 90) with 90 by (rewrite INR_IZR_INZ; reflexivity). lra. }
  split; rewrite quarter_sum, <- C; apply rsum_ext; intros t _;
    replace (t + 180)%nat with (t + 90 + 90)%nat by lia; replace (t + 270)%nat with (t + 90 + 90 + 90)%nat by lia;
    pose proof (Q t) as (A1 & B1); pose proof (Q (t + 90)%nat) as (A2 & B2); pose proof (Q (t + 90 + 90)%nat) as (A3 & B3);
    rewrite ?A3, ?B3, ?A2, ?B2, ?A1, ?B1; pose proof (sin2_cos2 (radians (Z.of_nat t))) as E; unfold Rsqr in E; lra.
Qed.
Theorem C31_directions_anisotropic : forall i, (i < 3)%nat ->
  rsum (map (fun t => rsum (map (fun p => nth i (dir_3d (Z.of_nat t) (Z.of_nat p)) 0 ^ 2) (seq 0 360))) (seq 0 360)) / (360 * 360) =
  if (i =? 2)%nat then 1 / 2 else 1 / 4.
Proof.
  destruct cos2_sum as [C2 S2]. intros i Hi.
  assert (L : INR (length (seq 0 360)) = 360) by (rewrite seq_length, INR_IZR_INZ; reflexivity).
  assert (P : forall f g : nat -> R, rsum (map (fun t => rsum (map (fun p => f t * g p) (seq 0 360))) (seq 0 360)) = rsum (map f (seq 0 360)) * rsum (map g (seq 0 360))).
  { intros f g. rewrite <- (rsum_scale_r f). apply rsum_ext. intros t _. rewrite rsum_scale. reflexivity. }
  destruct i as [|[|[|i]]]; [| | |lia]; cbn [nth dir_3d Nat.eqb].
  - transitivity (rsum (map (fun t => rsum (map (fun p => (sin (radians (Z.of_nat t)) * sin (radians (Z.of_nat t))) * (cos (radians (Z.of_nat p)) * cos (radians (Z.of_nat p)))) (seq 0 360))) (seq 0 360)) / (360 * 360)).
    { f_equal. apply rsum_ext. intros t _. apply rsum_ext. intros p _. ring. }
    rewrite P, C2, S2. field.
  - transitivity (rsum (map (fun t => rsum (map (fun p => (sin (radians (Z.of_nat t)) * sin (radians (Z.of_nat t))) * (sin (radians (Z.of_nat p)) * sin (radians (Z.of_nat p)))) (seq 0 360))) (seq 0 360)) / (360 * 360)).
    { f_equal. apply rsum_ext. intros t _. apply rsum_ext. intros p _. ring. }
    rewrite P, S2. field.
  - transitivity (rsum (map (fun t => rsum (map (fun p => (cos (radians (Z.of_nat t)) * cos (radians (Z.of_nat t))) * 1) (seq 0 360))) (seq 0 360)) / (360 * 360)).
    { f_equal. apply rsum_ext. intros t _. apply rsum_ext. intros p _. ring. }
    rewrite (P _ (fun _ => 1)), C2, rsum_const, L. field.
Qed.
Print Assumptions C31_directions_anisotropic.
Example C31_directions_anisotropic_sat : exists (i : nat), (i < 3)%nat.
Proof. exists 2%nat. repeat split; first [lra | lia | reflexivity | discriminate | congruence | auto]. Qed.

(** In three dimensions the number of steps is the longest side, and rays along diagonals
    are lost: in a 4x4x4 box that is entirely inside, the ray from a corner at 45, 45
    degrees is never recorded. *)
Theorem C31_3d_rays_lost_refuted :
  let r := ([0; 0; 0], dir_3d 45 45) in
  unit_vector (dir_3d 45 45) /\ in_grid [4; 4; 4]%nat (fst r) /\
  list_sum (ray_loop [4; 4; 4]%nat (fun _ => true) (longest_3d [4; 4; 4]%nat) [r]) = 0%nat.
Proof.
  set (r := ([0; 0; 0], dir_3d 45 45)). cbv zeta.
  assert (RA : radians 45 = PI / 4) by (unfold radians; field).
  assert (SC : sin (PI / 4) = cos (PI / 4)) by (rewrite sin_PI4, cos_PI4; reflexivity).
  assert (CC : cos (PI / 4) * cos (PI / 4) = 1 / 2).
  { pose proof (sin2_cos2 (PI / 4)) as E. unfold Rsqr in E. rewrite SC in E. lra. }
  assert (CP : 0 < cos (PI / 4)) by (apply cos_gt_0; pose proof PI_RGT_0; lra).
  assert (CL : 4 * cos (PI / 4) <= 3) by nra.
  assert (D : dir_3d 45 45 = [1 / 2; 1 / 2; cos (PI / 4)]).
  { unfold dir_3d. rewrite RA, SC, CC. reflexivity. }
  split; [unfold unit_vector; rewrite D; simpl; lra|]. split; [simpl; lra|].
  assert (P : Forall (proper 3) [r]) by (constructor; [split; reflexivity|constructor]).
  destruct (C31_histogram [4; 4; 4]%nat (fun _ => true) (longest_3d [4; 4; 4]%nat) [r] 3 P) as [e [E1 [_ [_ E2]]]].
  assert (N : e r = None).
  { destruct (e r) as [k|] eqn:Er; [exfalso|reflexivity]. apply E1 in Er. destruct Er as [Hk [_ Hn]]. apply Hn.
    unfold inside_at, interp. replace (in_grid_dec [4; 4; 4]%nat (along (fst r) (snd r) (S k))) with true.
    - rewrite multilinear_ones by reflexivity. lra.
    - symmetry. apply in_grid_dec_iff. unfold r. cbn [fst snd]. rewrite D.
      assert (B : 1 <= INR (S k) <= 4).
      { assert (S k <= 4)%nat by (unfold longest_3d in Hk; simpl in Hk; lia). apply le_INR in H. 
        assert (1 <= S k)%nat by lia. apply le_INR in H0. simpl INR in H, H0 |- *. lra. }
      cbn [along in_grid]. set (q := INR (S k)) in *. simpl (INR 4). repeat split; try nra. }
  unfold tally_none in E2. cbn [filter] in E2. rewrite N in E2. cbn [length] in E2. lia.
Qed.
Print Assumptions C31_3d_rays_lost_refuted.

(** * The wrapper *)
Lemma combine_snd_zero : forall (l : list R) n, map (fun p => fst p * snd p) (combine l (map (fun _ : nat => 0) n)) = map (fun _ => 0) (combine l n).
Proof. induction l; intros [|x n]; simpl; auto. rewrite IHl. f_equal. ring. Qed.

(** If no cell reaches the threshold the curve is zero, but only if the threshold is at
    most 1: above that the function raises. *)
Definition no_cell (shape : list nat) (data : list nat -> R) (xth : R) (upper : bool) : Prop :=
  forall i, valid shape i -> if upper then xth < data i else data i < xth.
Theorem C31_no_region : forall longest shape data xth upper it box ch dirs ch0 dirs0,
  (exists i, valid shape i) -> no_cell shape data xth upper ->
  ((if upper then - xth else xth) <= 1 ->
     exists r p, mfp longest shape data xth upper it box ch dirs ch0 dirs0 = Some (r, p) /\ Forall (fun x => x = 0) p) /\
  (1 < (if upper then - xth else xth) -> mfp longest shape data xth upper it box ch dirs ch0 dirs0 = None).
Proof.
  intros longest shape data xth upper it box ch dirs ch0 dirs0 [i0 Hi0] N. unfold mfp.
  set (dat := if upper then fun i => -1 * data i else data). set (th := if upper then -1 * xth else xth).
  assert (TH : th = (if upper then - xth else xth)) by (unfold th; destruct upper; ring).
  assert (Z : filter (fun i => geb (dat i) th) (indices shape) = []).
  { apply filter_none. intros i Hi. apply indices_valid in Hi. specialize (N i Hi). unfold geb, dat, th.
    destruct upper; destruct (Rle_dec _ _); try reflexivity; lra. }
  rewrite Z. cbn [length Nat.eqb]. rewrite <- TH. split; intro B.
  - assert (G : geb 1 th = true) by (unfold geb; destruct (Rle_dec th 1); [reflexivity|lra]).
    unfold mfp_np. rewrite G. unfold roi_cells.
    destruct (filter (fun _ => true) (indices shape)) as [|c l] eqn:E.
    { exfalso. assert (In i0 (filter (fun _ : list nat => true) (indices shape))) by (apply filter_In; split; [apply indices_valid; exact Hi0|reflexivity]).
      rewrite E in H. exact H. }
    cbn [option_map]. eexists. eexists. split; [reflexivity|]. rewrite combine_snd_zero.
    apply Forall_forall. intros x Hx. apply in_map_iff in Hx. destruct Hx as [? [<- _]]. reflexivity.
  - assert (G : geb 1 th = false) by (unfold geb; destruct (Rle_dec th 1); [lra|reflexivity]).
    unfold mfp_np. rewrite G. unfold roi_cells. rewrite filter_none by reflexivity. reflexivity.
Qed.
Print Assumptions C31_no_region.
Example C31_no_region_sat : exists (shape : list nat) (data : list nat -> R) (xth : R) (upper : bool), (exists i, valid shape i) /\ no_cell shape data xth upper.
Proof. exists [2; 2]%nat, (fun _ => 0), (1/2), false. split; [exists [0; 1]%nat; repeat constructor|]. intros i _. lra. Qed.

(** Otherwise entry k of the curve is k times the fraction of rays that ended after k
    steps inside. *)
Theorem C31_curve : forall longest shape (data : list nat -> R) (xth : R) (upper : bool) it box ch dirs ch0 dirs0,
  (exists i, valid shape i /\ if upper then data i <= xth else xth <= data i) ->
  exists r p hist, mfp longest shape data xth upper it box ch dirs ch0 dirs0 = Some (r, p) /\
    hist = ray_loop shape (fun i => if upper then geb xth (data i) else geb (data i) xth) (longest shape)
             (start_rays (filter (fun i => if upper then geb xth (data i) else geb (data i) xth) (indices shape)) ch dirs) /\
    length r = length hist /\ length p = length hist /\
    forall k, (k < length hist)%nat ->
      nth k r 0 = INR k * box / INR (hd 0%nat shape) /\
      nth k p 0 = INR k * (INR (nth k hist 0%nat) / INR it).
Proof.
  intros longest shape data xth upper it box ch dirs ch0 dirs0 [i0 [Hi0 Hd]]. unfold mfp.
  set (dat := if upper then fun i => -1 * data i else data). set (th := if upper then -1 * xth else xth).
  assert (RO : forall i, geb (dat i) th = (if upper then geb xth (data i) else geb (data i) xth)).
  { intro i. unfold dat, th. destruct upper; [|reflexivity]. unfold geb. destruct (Rle_dec _ _), (Rle_dec _ _); try reflexivity; lra. }
  set (roi := fun i => if upper then geb xth (data i) else geb (data i) xth) in *.
  assert (IN : In i0 (filter (fun i => geb (dat i) th) (indices shape))).
  { apply filter_In. split; [apply indices_valid; exact Hi0|]. rewrite RO. unfold roi, geb.
    destruct upper; destruct (Rle_dec _ _); try reflexivity; lra. }
  destruct (filter (fun i => geb (dat i) th) (indices shape)) as [|c l] eqn:E; [contradiction|]. cbn [length Nat.eqb].
  unfold mfp_np, roi_cells. rewrite E. cbn [option_map].
  assert (RL : forall s rays, ray_loop shape (fun i => geb (dat i) th) s rays = ray_loop shape roi s rays).
  { assert (ML : forall sh (g g' : list nat -> bool) pos, (forall i, g i = g' i) -> multilinear sh g pos = multilinear sh g' pos).
    { induction sh as [|n sh IH]; intros g g' [|x pos] Hg; simpl; try (rewrite Hg; reflexivity).
      f_equal; f_equal; apply IH; intro; apply Hg. }
    induction s as [|s IH]; intro rays; [reflexivity|]. cbn [ray_loop].
    assert (V : filter (fun r => above_half (interp shape (fun i => geb (dat i) th) (fst r))) (map move rays)
              = filter (fun r => above_half (interp shape roi (fst r))) (map move rays)).
    { apply filter_ext. intro r. unfold interp. destruct (in_grid_dec shape (fst r)); [|reflexivity].
      rewrite (ML shape _ roi (fst r) RO). reflexivity. }
    rewrite V, IH. reflexivity. }
  rewrite RL. rewrite (filter_ext _ roi RO) in E. rewrite <- E.
  set (hist := ray_loop shape roi (longest shape) (start_rays (filter roi (indices shape)) ch dirs)).
  eexists. eexists. exists hist. split; [reflexivity|]. split; [reflexivity|].
  assert (L1 : length (map INR (seq 0 (length hist))) = length (map (fun c0 => INR c0 / INR it) hist))
    by (rewrite !map_length, seq_length; reflexivity).
  split; [rewrite !map_length, seq_length; reflexivity|].
  split; [rewrite map_length, combine_length, !map_length, seq_length; lia|].
  intros k Hk. split.
  - rewrite map_map. set (F := fun x => INR x * box / INR (hd 0%nat shape)).
    rewrite (nth_indep _ 0 (F 0%nat)) by (rewrite map_length, seq_length; exact Hk).
    rewrite (map_nth F), seq_nth by exact Hk. reflexivity.
  - set (F := fun p : R * R => fst p * snd p).
    rewrite (nth_indep _ 0 (F (INR 0, INR 0 / INR it))) by (rewrite map_length, combine_length, !map_length, seq_length; lia).
    rewrite (map_nth F), combine_nth by exact L1. unfold F. cbn [fst snd].
    rewrite (map_nth INR), seq_nth by exact Hk. rewrite (map_nth (fun c0 => INR c0 / INR it)). reflexivity.
Qed.
Print Assumptions C31_curve.
Example C31_curve_sat : exists (shape : list nat) (data : list nat -> R) (xth : R) (upper : bool), (exists i, valid shape i /\ if upper then data i <= xth else xth <= data i).
Proof. exists [2; 2]%nat, (fun _ => 1), (1/2), false. exists [0; 1]%nat. split; [repeat constructor|lra]. Qed.

Example C31_sat : Forall (proper 2) [([1; 1], dir_2d 30)] /\ in_grid [3; 3]%nat [1; 1] /\ unit_vector (dir_2d 30).
Proof.
  split; [constructor; [split; reflexivity|constructor]|]. split; [simpl; lra|apply dir_2d_unit].
Qed.
