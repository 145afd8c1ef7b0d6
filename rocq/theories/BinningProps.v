(** C21, C22, C59, C60: binning of Fourier modes. *)
From Coq Require Import List Arith ZArith QArith Qabs Bool Lia Lqa Setoid.
From Verif Require Import QLib BinningModel BinningSpec BinningProofs.
Import ListNotations.
Local Open Scope nat_scope.

Lemma centres_nth : forall e i, S i < length e ->
  (nth i (centres e) 0 == (nth i e 0 + nth (S i) e 0) / 2)%Q.
Proof.
  induction e as [|a [|b tl] IH]; intros i Hi; [simpl in Hi; lia|simpl in Hi; lia|].
  destruct i; [cbn; field|]. cbn [centres nth]. rewrite IH; [reflexivity|]. simpl in Hi |- *. lia.
Qed.

Lemma radial_average_unfold : forall modes edges, ascending edges ->
  radial_average modes edges =
  Some (map2 div_nan (diffs modes edges) (diffs (map (fun x => (fst x, 1%Q)) modes) edges),
        centres edges, diffs (map (fun x => (fst x, 1%Q)) modes) edges).
Proof.
  intros modes edges A. unfold radial_average, histogram.
  apply monotone_ascending in A. rewrite A. reflexivity.
Qed.
Lemma filter_map_fst : forall (f : Q -> bool) (m : list (Q * Q)),
  (qsum (map snd (filter (fun x => f (fst x)) (map (fun x => (fst x, 1%Q)) m)))
   == qlen (filter (fun x => f (fst x)) m))%Q.
Proof.
  induction m as [|x m IH]; [reflexivity|]. cbn [map filter fst]. destruct (f (fst x)); [|exact IH].
  rewrite qlen_cons. cbn [map qsum fold_right snd]. rewrite <- IH. reflexivity.
Qed.

(** Every bin holds exactly the modes of its interval: their number, their mean power
    (NaN iff the bin is empty) and the centre of the interval. *)
Theorem C21_radial_average : forall modes edges, ascending edges ->
  exists out cs ns, radial_average modes edges = Some (out, cs, ns) /\
    length out = length edges - 1 /\ length ns = length edges - 1 /\
    forall i, S i < length edges ->
      let members := filter (fun m => in_binb edges i (fst m)) modes in
      (nth i ns 0 == qlen members)%Q /\
      (nth i cs 0 == (nth i edges 0 + nth (S i) edges 0) / 2)%Q /\
      match nth i out None with
      | None => members = []
      | Some p => members <> [] /\ (p == qsum (map snd members) / qlen members)%Q
      end.
Proof.
  intros modes edges A. rewrite radial_average_unfold by exact A.
  eexists _, _, _. split; [reflexivity|].
  split; [rewrite map2_length; rewrite ?diffs_length; reflexivity|].
  split; [apply diffs_length|]. intros i Hi members.
  assert (N : (nth i (diffs (map (fun x => (fst x, 1%Q)) modes) edges) 0 == qlen members)%Q).
  { rewrite diffs_nth by auto. apply filter_map_fst. }
  split; [exact N|]. split; [apply centres_nth; exact Hi|].
  set (s := diffs modes edges) in *. set (n := diffs (map (fun x => (fst x, 1%Q)) modes) edges) in *.
  assert (Es : nth_error s i = Some (nth i s 0%Q)) by (apply nth_error_nth'; unfold s; rewrite diffs_length; lia).
  assert (En : nth_error n i = Some (nth i n 0%Q)) by (apply nth_error_nth'; unfold n; rewrite diffs_length; lia).
  rewrite (nth_error_nth _ _ None (map2_nth_error div_nan s n i _ _ Es En)).
  unfold div_nan. destruct (Qeq_bool (nth i n 0%Q) 0) eqn:E.
  - apply Qeq_bool_iff in E. apply qlen_zero. rewrite <- N. exact E.
  - split.
    + intro C. apply Qeq_bool_neq in E. apply E. rewrite N, C. reflexivity.
    + unfold s at 1. rewrite diffs_nth by auto. rewrite N. reflexivity.
Qed.
Print Assumptions C21_radial_average.
Example C21_radial_average_sat : exists (edges : list Q), ascending edges.
Proof. exists [1#1; 2#1; 4#1]%Q. intros i H. cbn in H. destruct i as [|[|i]]; cbn; unfold Qle; cbn; lia. Qed.

(** A value between the first and the last edge is in exactly one bin, any other value
    is in none. *)
Theorem C21_one_bin : forall edges k, ascending edges -> 2 <= length edges ->
  (in_range edges k -> exists! i, S i < length edges /\ in_bin edges i k) /\
  (~ in_range edges k -> forall i, S i < length edges -> ~ in_bin edges i k).
Proof.
  intros edges k A L. split.
  - intro R. destruct (in_bin_exists edges k L R) as [i [Hi B]]. exists i. split; [auto|].
    intros j [Hj Bj]. eapply in_bin_unique; eauto.
  - intros R i Hi B. apply R. eapply in_bin_range; eauto.
Qed.
Print Assumptions C21_one_bin.
Example C21_one_bin_sat : exists (edges : list Q), ascending edges /\ 2 <= length edges.
Proof. exists [1#1; 2#1; 4#1]%Q. split; [intros i H; cbn in H; destruct i as [|[|i]]; cbn; unfold Qle; cbn; lia|cbn; lia]. Qed.

(** Nothing is lost or counted twice: the numbers of modes add up to the number of modes
    in range, and mean times number adds up to their total power. *)
Theorem C21_conservation : forall modes edges out cs ns, ascending edges -> 2 <= length edges ->
  radial_average modes edges = Some (out, cs, ns) ->
  (qsum ns == qlen (filter (fun m => in_rangeb edges (fst m)) modes))%Q /\
  (qsum (map2 (fun p n => match p with Some v => v * n | None => 0 end) out ns)
   == qsum (map snd (filter (fun m => in_rangeb edges (fst m)) modes)))%Q.
Proof.
  assert (D : forall m edges, ascending edges -> 2 <= length edges ->
    (qsum (diffs m edges) == qsum (map snd (filter (fun x => in_rangeb edges (fst x)) m)))%Q).
  { intros m edges A L.
    assert (E : (qsum (diffs m edges) == qsum (map (fun i => nth i (diffs m edges) 0) (seq 0 (length edges - 1))))%Q).
    { rewrite <- (diffs_length m edges). generalize (diffs m edges). intro l.
      assert (H : map (fun i => nth i l 0%Q) (seq 0 (length l)) = l).
      { clear. induction l; [reflexivity|]. cbn [length seq map nth]. f_equal.
        rewrite <- seq_shift, map_map. exact IHl. }
      rewrite H. reflexivity. }
    rewrite E, (qsum_ext _ (fun i => qsum (map (fun x => if in_binb edges i (fst x) then snd x else 0%Q) m))).
    2:{ intros i Hi. apply in_seq in Hi. rewrite diffs_nth by (auto; lia). apply qsum_filter_ind. }
    rewrite qsum_swap, qsum_filter_ind. apply qsum_ext. intros x _.
    rewrite (qsum_indicator (fun i => in_binb edges i (fst x))).
    2:{ intros i j Hi Hj Bi Bj. apply in_binb_spec in Bi, Bj. eapply in_bin_unique; eauto; lia. }
    replace (existsb (fun i => in_binb edges i (fst x)) (seq 0 (length edges - 1)))
      with (in_rangeb edges (fst x)); [reflexivity|].
    apply bool_iff. rewrite in_rangeb_spec, existsb_exists. split.
    - intro R. destruct (in_bin_exists edges _ L R) as [i [Hi B]]. exists i.
      split; [apply in_seq; lia|apply in_binb_spec; exact B].
    - intros [i [Hi B]]. apply in_seq in Hi. apply in_binb_spec in B.
      apply (in_bin_range edges i); [exact A|lia|exact B]. }
  intros modes edges out cs ns A L H. rewrite radial_average_unfold in H by exact A.
  injection H as <- <- <-. split.
  - rewrite D by auto. apply filter_map_fst.
  - rewrite <- D by auto.
    assert (Z : forall i, S i < length edges ->
      (nth i (diffs (map (fun x => (fst x, 1%Q)) modes) edges) 0 == 0)%Q ->
      (nth i (diffs modes edges) 0 == 0)%Q).
    { intros i Hi E. rewrite diffs_nth in * by auto. rewrite filter_map_fst in E.
      apply qlen_zero in E. rewrite E. reflexivity. }
    assert (LL : length (diffs (map (fun x => (fst x, 1%Q)) modes) edges) = length (diffs modes edges))
      by (rewrite !diffs_length; reflexivity).
    assert (Z' : forall i, i < length (diffs modes edges) ->
      (nth i (diffs (map (fun x => (fst x, 1%Q)) modes) edges) 0 == 0)%Q ->
      (nth i (diffs modes edges) 0 == 0)%Q).
    { intros i Hi. rewrite diffs_length in Hi. apply Z. lia. }
    clear - Z' LL. revert Z' LL.
    generalize (diffs (map (fun x => (fst x, 1%Q)) modes) edges) as n.
    induction (diffs modes edges) as [|s l IH]; intros [|n ns] Z LL; try discriminate LL; [reflexivity|].
    cbn [map2 qsum fold_right].
    fold (qsum (map2 (fun p n0 => match p with Some v => (v * n0)%Q | None => 0%Q end) (map2 div_nan l ns) ns)).
    fold (qsum l). rewrite (IH ns); [|intros i Hi; apply (Z (S i)); simpl; lia|simpl in LL; lia].
    unfold div_nan. destruct (Qeq_bool n 0) eqn:E.
    + apply Qeq_bool_iff in E. specialize (Z 0 ltac:(simpl; lia) E). cbn in Z. lra.
    + apply Qeq_bool_neq in E. apply Qplus_comp; [|reflexivity]. field. exact E.
Qed.
Print Assumptions C21_conservation.
Example C21_conservation_sat : exists (modes : list (Q * Q)) (edges : list Q) (out : list (option Q)) (cs : list Q) (ns : list Q), ascending edges /\ 2 <= length edges /\ radial_average modes edges = Some (out, cs, ns).
Proof. eexists [(3#2, 5#1); (3#1, 7#1)]%Q, [1#1; 2#1; 4#1]%Q, _, _, _. split; [intros i H; cbn in H; destruct i as [|[|i]]; cbn; unfold Qle; cbn; lia|]. split; [cbn; lia|reflexivity]. Qed.

(** Edges that decrease somewhere are rejected. *)
Theorem C21_raises : forall modes edges, radial_average modes edges = None <-> ~ ascending edges.
Proof.
  intros. rewrite <- monotone_ascending. unfold radial_average, histogram.
  destruct (monotone edges); split; intro H; try congruence; try discriminate.
Qed.
Print Assumptions C21_raises.

(** With an integer number of bins the lowest edge is 2 pi over the SHORTEST side: a mode
    is counted iff its k is at least that, so in an elongated box the modes along the
    long sides with smaller k are dropped. *)
Theorem C21_integer_kbins : forall two_pi L0 box k0 ks n k,
  0 < n -> In k ks -> (two_pi / qmin L0 box <= qmax k0 ks)%Q ->
  let edges := kbins_linear two_pi L0 box k0 ks n in
  ascending edges /\
  ((exists i, S i < length edges /\ in_bin edges i k) <-> (two_pi / qmin L0 box <= k)%Q).
Proof.
  intros two_pi L0 box k0 ks n k Hn Hk Hle edges.
  assert (A : ascending edges) by (apply linspace_ascending; exact Hle).
  split; [exact A|].
  assert (F : (nth 0 edges 0 == two_pi / qmin L0 box)%Q) by (apply linspace_first; lia).
  assert (La : nth (length edges - 1) edges 0%Q = qmax k0 ks).
  { unfold edges, kbins_linear. rewrite linspace_length. simpl. rewrite Nat.sub_0_r. apply linspace_last. }
  split.
  - intros [i [Hi B]]. destruct (in_bin_range edges i k A Hi B) as [H _]. rewrite F in H. exact H.
  - intro H. apply in_bin_exists.
    + unfold edges, kbins_linear. rewrite linspace_length. lia.
    + split; [rewrite F; exact H|rewrite La; apply qmax_ge; exact Hk].
Qed.
Print Assumptions C21_integer_kbins.
Example C21_integer_kbins_sat : exists (two_pi : Q) (L0 : Q) (box : list Q) (k0 : Q) (ks : list Q) (n : nat) (k : Q), 0 < n /\ In k ks /\ (two_pi / qmin L0 box <= qmax k0 ks)%Q.
Proof. exists (6#1)%Q, (3#1)%Q, [3#1; 4#1]%Q, (1#1)%Q, [1#1; 5#1]%Q, 4, (5#1)%Q. split; [lia|]. split; [right; left; reflexivity|]. vm_compute. discriminate. Qed.

(** 'mixed' edges ascend whenever the two lists they are taken from do, they are the
    edges other than the break point itself, and lie on the right side of it. *)
Theorem C21_mixed_edges : forall b low high, ascending low -> ascending high ->
  ascending (kbins_mixed b low high) /\
  forall e, In e (kbins_mixed b low high) <-> (In e low /\ (e < b)%Q) \/ (In e high /\ (b < e)%Q).
Proof.
  intros b low high A1 A2. split.
  - apply ascending_app; try (apply ascending_filter; auto).
    intros x y Hx Hy. apply filter_In in Hx as [_ Hx]. apply filter_In in Hy as [_ Hy].
    apply Qltb_true in Hx, Hy. lra.
  - intro e. unfold kbins_mixed. rewrite in_app_iff, !filter_In, !Qltb_true. reflexivity.
Qed.
Print Assumptions C21_mixed_edges.
Example C21_mixed_edges_sat : exists (low : list Q) (high : list Q), ascending low /\ ascending high.
Proof. exists [1#1; 2#1; 3#1]%Q, [4#1; 8#1]%Q. split; intros i H; cbn in H; destruct i as [|[|i]]; cbn; unfold Qle; cbn; lia. Qed.

(** A box of 100 x 100 x 400: the two longest modes along the third side are dropped. *)
Example C21_sat :
  let ks := [2#100; 4#100; 6#100; 8#100; 12#100] in
  let edges := kbins_linear (6#1) (100#1) [100#1; 100#1; 400#1] (2#100) ks 2 in
  ascending edges /\ edges <> [] /\
  ~ ((6#1) / qmin (100#1) [100#1; 100#1; 400#1] <= 4#100)%Q /\
  match radial_average (map (fun k => (k, 1%Q)) ks) edges with
  | Some (_, _, ns) => (qsum ns == 3)%Q
  | None => False
  end.
Proof.
  split; [apply monotone_ascending; reflexivity|].
  split; [discriminate|]. split; [intro H; vm_compute in H; auto|].
  reflexivity.
Qed.

(** * C22 *)

(** The table has one entry per pair of bins; entry (i, j) counts and averages exactly
    the modes with mu in the half-open mu bin i, k in the half-open k bin j, not excluded
    by the k_perp mask and with k at least 0.001. *)
Theorem C22_mu_binning : forall absolute modes mubins kbins i j,
  S i < length mubins -> S j < length kbins ->
  exists row chosen mean number, nth_error (mu_binning absolute modes mubins kbins) i = Some row /\
    nth_error row j = Some (mean, number) /\
    length (mu_binning absolute modes mubins kbins) = length mubins - 1 /\ length row = length kbins - 1 /\
    (forall x, chosen x = true <->
      mgood x = true /\ (1#1000 <= mk x)%Q /\ half_open kbins j (mk x) /\
      half_open mubins i (if absolute then Qabs (mlos x) / mk x else mlos x / mk x)%Q) /\
    number = length (filter chosen modes) /\
    match mean with
    | None => filter chosen modes = []
    | Some v => filter chosen modes <> [] /\ (v == qsum (map mpow (filter chosen modes)) / qlen (filter chosen modes))%Q
    end.
Proof.
  intros absolute modes mubins kbins i j Hi Hj. unfold mu_binning.
  pose proof (pairs_nth mubins i Hi) as Pi. pose proof (pairs_nth kbins j Hj) as Pj.
  assert (Ei : nth_error (pairs mubins) i = Some (nth i (pairs mubins) (0, 0)%Q))
    by (apply nth_error_nth'; rewrite pairs_length; lia).
  assert (Ej : nth_error (pairs kbins) j = Some (nth j (pairs kbins) (0, 0)%Q))
    by (apply nth_error_nth'; rewrite pairs_length; lia).
  set (ch := in_mu_bin absolute (fst (nth j (pairs kbins) (0, 0)%Q)) (snd (nth j (pairs kbins) (0, 0)%Q))
     (fst (nth i (pairs mubins) (0, 0)%Q)) (snd (nth i (pairs mubins) (0, 0)%Q))).
  eexists _, ch, _, _.
  split; [apply map_nth_error; exact Ei|].
  split; [exact (map_nth_error (fun kb : Q * Q =>
      let sel := filter (in_mu_bin absolute (fst kb) (snd kb) (fst (nth i (pairs mubins) (0, 0)%Q)) (snd (nth i (pairs mubins) (0, 0)%Q))) modes in
      (mean_nan (map mpow sel), length sel)) _ _ Ej)|].
  split; [now rewrite map_length, pairs_length|]. split; [now rewrite map_length, pairs_length|].
  split; [|split; [reflexivity|]].
  2:{ fold ch. unfold mean_nan. destruct (filter ch modes) as [|x r] eqn:E; [reflexivity|]. cbn [map]. split; [discriminate|].
      change (mpow x :: map mpow r) with (map mpow (x :: r)). unfold qlen. rewrite map_length. reflexivity. }
  intro x. unfold ch. rewrite Pi, Pj. cbn [fst snd]. unfold in_mu_bin, get_mu.
  destruct (Qltb (mk x) (1#1000)) eqn:E.
  - apply Qltb_true in E. split; [intros H; discriminate H|intros [_ [H _]]; lra].
  - apply Qltb_false in E. rewrite !andb_true_iff, !Qle_bool_iff, !Qltb_true. unfold half_open.
    assert (M : ((if absolute then Qabs (mlos x / mk x) else mlos x / Qabs (mk x))
             == (if absolute then Qabs (mlos x) / mk x else mlos x / mk x))%Q).
    { destruct absolute.
      - unfold Qdiv. rewrite Qabs_Qmult. rewrite (Qabs_pos (/ mk x)); [reflexivity|].
        apply Qlt_le_weak, Qinv_lt_0_compat. lra.
      - rewrite (Qabs_pos (mk x)) by lra. reflexivity. }
    rewrite M. tauto.
Qed.
Print Assumptions C22_mu_binning.
Example C22_mu_binning_sat : exists (mubins : list Q) (kbins : list Q) (i : nat) (j : nat), S i < length mubins /\ S j < length kbins.
Proof. exists [0; 1#2; 1]%Q, [1; 2]%Q, 1, 0. cbn. lia. Qed.

(** With increasing edges a mode is in at most one entry of the table. *)
Theorem C22_one_bin : forall mubins kbins i i' j j' k mu,
  ascending mubins -> ascending kbins ->
  S i < length mubins -> S i' < length mubins -> S j < length kbins -> S j' < length kbins ->
  half_open kbins j k -> half_open mubins i mu -> half_open kbins j' k -> half_open mubins i' mu ->
  i = i' /\ j = j'.
Proof.
  intros mubins kbins i i' j j' k mu A1 A2 H1 H2 H3 H4 K1 M1 K2 M2. split.
  - exact (half_open_unique mubins i i' mu A1 H1 H2 M1 M2).
  - exact (half_open_unique kbins j j' k A2 H3 H4 K1 K2).
Qed.
Print Assumptions C22_one_bin.
Example C22_one_bin_sat : exists (mubins : list Q) (kbins : list Q) (i : nat) (i' : nat) (j : nat) (j' : nat) (k : Q) (mu : Q), ascending mubins /\ ascending kbins /\ S i < length mubins /\ S i' < length mubins /\ S j < length kbins /\ S j' < length kbins /\ half_open kbins j k /\ half_open mubins i mu /\ half_open kbins j' k /\ half_open mubins i' mu.
Proof. exists [0; 1#2; 1]%Q, [1; 2]%Q, 1, 1, 0, 0, (3#2)%Q, (3#4)%Q. split; [intros i H; cbn in H; destruct i as [|[|i]]; cbn; unfold Qle; cbn; lia|]. split; [intros i H; cbn in H; destruct i as [|[|i]]; cbn; unfold Qle; cbn; lia|]. cbn [length]. unfold half_open. cbn [nth]. repeat split; try lia; unfold Qle, Qlt; cbn; lia. Qed.

(** A value on or above the last edge is in no bin: mu = 1 with the default mu bins, and
    the largest k with an integer number of k bins; a value from the first edge up to
    but not including the last one is in some bin. *)
Theorem C22_top_edge : forall edges x, ascending edges -> 2 <= length edges ->
  ((exists i, S i < length edges /\ half_open edges i x) <->
   (nth 0 edges 0 <= x < nth (length edges - 1) edges 0)%Q).
Proof.
  intros edges x A L. split.
  - intros [i [Hi [H1 H2]]]. split.
    + eapply Qle_trans; [apply (ascending_nth edges 0 i A); lia|exact H1].
    + eapply Qlt_le_trans; [exact H2|apply ascending_nth; auto; lia].
  - intros [H1 H2]. apply half_open_exists; auto.
Qed.
Print Assumptions C22_top_edge.
Example C22_top_edge_sat : exists (edges : list Q), ascending edges /\ 2 <= length edges.
Proof. exists [0; 1#2; 1]%Q. split; [intros i H; cbn in H; destruct i as [|[|i]]; cbn; unfold Qle; cbn; lia|cbn; lia]. Qed.

(** With the default mu bins (linspace from 0 to 1) the modes whose wave vector is along the
    line of sight could as well be absent, even when zero modes are not excluded. *)
Theorem C22_los_modes_dropped : forall absolute modes n kbins, 0 < n ->
  mu_binning absolute modes (linspace 0 1 n) kbins
  = mu_binning absolute (filter (fun x => negb (Qeq_bool (mlos x) (mk x))) modes) (linspace 0 1 n) kbins.
Proof.
  intros absolute modes n kbins Hn. unfold mu_binning. apply map_ext_in. intros mb Hmb. apply map_ext. intros kb.
  replace (filter (in_mu_bin absolute (fst kb) (snd kb) (fst mb) (snd mb)) (filter (fun x => negb (Qeq_bool (mlos x) (mk x))) modes))
    with (filter (in_mu_bin absolute (fst kb) (snd kb) (fst mb) (snd mb)) modes); [reflexivity|].
  induction modes as [|x r IH]; [reflexivity|]. cbn [filter]. rewrite IH.
  destruct (in_mu_bin absolute (fst kb) (snd kb) (fst mb) (snd mb) x) eqn:E.
  2:{ destruct (negb (Qeq_bool (mlos x) (mk x))); [cbn [filter]; now rewrite E|reflexivity]. }
  destruct (Qeq_bool (mlos x) (mk x)) eqn:C; cbn [negb]; [|cbn [filter]; now rewrite E].
  exfalso. apply Qeq_bool_iff in C. apply (In_nth _ _ (0, 0)%Q) in Hmb as (i & Hi & Em). rewrite pairs_length in Hi.
  assert (Hi' : S i < length (linspace 0 1 n)) by lia.
  pose proof (pairs_nth (linspace 0 1 n) i Hi') as Pi. rewrite Em in Pi. subst mb. cbn [fst snd] in E.
  unfold in_mu_bin, get_mu in E. destruct (Qltb (mk x) (1#1000)) eqn:K; [discriminate E|]. apply Qltb_false in K.
  rewrite !andb_true_iff, !Qle_bool_iff, !Qltb_true in E.
  assert (M : ((if absolute then Qabs (mlos x / mk x) else mlos x / Qabs (mk x)) == 1)%Q).
  { destruct absolute; rewrite C.
    - assert (D : (mk x / mk x == 1)%Q) by (field; lra). rewrite D. reflexivity.
    - rewrite (Qabs_pos (mk x)) by lra. field. lra. }
  rewrite M in E.
  assert (T : (nth 0 (linspace 0 1 n) 0 <= 1 < nth (length (linspace 0 1 n) - 1) (linspace 0 1 n) 0)%Q).
  { apply C22_top_edge; [apply linspace_ascending; lra|rewrite linspace_length; lia|].
    exists i. split; [exact Hi'|]. unfold half_open. rewrite Pi in E. cbn [fst snd] in E. tauto. }
  rewrite linspace_length in T. simpl Nat.sub in T. rewrite Nat.sub_0_r, linspace_last in T. lra.
Qed.
Print Assumptions C22_los_modes_dropped.
Example C22_los_modes_dropped_sat : exists (n : nat), 0 < n.
Proof. exists 5%nat. repeat split; first [lra | lia | reflexivity | discriminate | congruence | auto]. Qed.

(** Any array of weights with more than one element makes the call raise. *)
Theorem C22_weights_raise : forall absolute w modes mubins kbins,
  mu_binning_weighted absolute w modes mubins kbins = None <-> exists n, w = Some n /\ 1 < n.
Proof.
  intros absolute [n|] modes mubins kbins; simpl.
  - destruct (Nat.ltb_spec 1 n); split; intro H0; try discriminate; eauto.
    destruct H0 as [m [[= <-] Hm]]. lia.
  - split; [discriminate|]. intros [n [H _]]. discriminate H.
Qed.
Print Assumptions C22_weights_raise.

Example C22_sat :
  let m := [Mode (1#2) (1#4) (3#1) true; Mode (1#2) (1#2) (5#1) true;
            Mode (1#2) (0#1) (7#1) false; Mode (1#1) (0#1) (9#1) true] in
  mu_binning true m (linspace 0 1 2) [1#4; 3#4; 1#1] =
    [[(None, 0); (None, 0)]; [(Some (3#1)%Q, 1); (None, 0)]].
Proof. reflexivity. Qed.

(** * C59: power_spect_fast.py *)

Lemma mids_length : forall l, length (mids l) = length l - 1.
Proof. induction l as [|a [|b tl] IH]; try reflexivity. cbn [mids length] in *. lia. Qed.
Lemma widths_length : forall l, length (widths l) = length l - 1.
Proof. induction l as [|a [|b tl] IH]; try reflexivity. cbn [widths length] in *. lia. Qed.
Lemma mids_nth : forall l i, S i < length l -> (nth i (mids l) 0 == (nth i l 0 + nth (S i) l 0) / 2)%Q.
Proof.
  induction l as [|a [|b tl] IH]; intros i Hi; [simpl in Hi; lia|simpl in Hi; lia|].
  destruct i; [cbn; reflexivity|]. cbn [mids nth]. rewrite IH; [reflexivity|]. simpl in Hi |- *. lia.
Qed.
Lemma widths_nth : forall l i, S i < length l -> (nth i (widths l) 0 == nth (S i) l 0 - nth i l 0)%Q.
Proof.
  induction l as [|a [|b tl] IH]; intros i Hi; [simpl in Hi; lia|simpl in Hi; lia|].
  destruct i; [cbn; reflexivity|]. cbn [widths nth]. rewrite IH; [reflexivity|]. simpl in Hi |- *. lia.
Qed.

(** Spacing and lower edges of [n] equal bins from [kmin] to [kmax]. *)
Definition spacing (kmin kmax : Q) (n : nat) : Q := ((kmax - kmin) / inject_Z (Z.of_nat n))%Q.
Definition lower_edge (kmin kmax : Q) (n i : nat) : Q :=
  (kmin + inject_Z (Z.of_nat i) * spacing kmin kmax n)%Q.

Lemma linspace_lower : forall a b n i, 0 < n -> i <= n ->
  (nth i (linspace a b n) 0 == lower_edge a b n i)%Q.
Proof.
  intros a b n i Hn Hi. rewrite linspace_nth by auto. unfold lower_edge, spacing.
  destruct (Nat.eqb_spec i n) as [->|H]; [|reflexivity]. field.
  change 0%Q with (inject_Z 0). rewrite inject_Z_injective. lia.
Qed.
Lemma fast_centre : forall a b n i, i < n ->
  (nth i (fast_centres a b n) 0 == lower_edge a b n i + spacing a b n / 2)%Q.
Proof.
  intros a b n i Hi. unfold fast_centres. rewrite mids_nth by (rewrite linspace_length; lia).
  rewrite !linspace_lower by lia. unfold lower_edge. rewrite inject_S. field.
Qed.
Lemma fast_width : forall klo khi a b n i, 2 <= n -> i < n ->
  (nth i (fast_widths klo khi (fast_centres a b n)) 0 ==
   (if Nat.eqb i (n - 1) then khi else lower_edge a b n (S i)) -
   (if Nat.eqb i 0 then klo else lower_edge a b n i))%Q.
Proof.
  intros klo khi a b n i Hn Hi. unfold fast_widths.
  set (cs := fast_centres a b n).
  assert (Lc : length cs = n) by (unfold cs, fast_centres; rewrite mids_length, linspace_length; lia).
  assert (Lm : length (mids cs) = n - 1) by (rewrite mids_length; lia).
  rewrite widths_nth by (simpl; rewrite app_length; simpl; lia).
  assert (M : forall j, j < n - 1 -> (nth j (mids cs) 0 == lower_edge a b n (S j))%Q).
  { intros j Hj. rewrite mids_nth by lia. unfold cs. rewrite !fast_centre by lia.
    unfold lower_edge. rewrite !inject_S. field. }
  cbn [nth].
  assert (T : (nth i (mids cs ++ [khi]) 0 == (if Nat.eqb i (n - 1) then khi else lower_edge a b n (S i)))%Q).
  { destruct (Nat.eqb_spec i (n - 1)) as [->|Hne].
    - rewrite app_nth2 by lia. rewrite Lm, Nat.sub_diag. reflexivity.
    - rewrite app_nth1 by lia. apply M. lia. }
  rewrite T. apply Qplus_comp; [reflexivity|]. apply Qopp_comp.
  destruct i as [|i]; [reflexivity|]. cbn [Nat.eqb].
  rewrite app_nth1 by lia. apply M. lia.
Qed.
Lemma fast_in_iff : forall c w k, fast_in c w k = true <-> (c - w / 2 <= k <= c + w / 2)%Q.
Proof.
  intros. unfold fast_in. rewrite Qle_bool_iff, Qabs_Qle_condition. split; intros [H1 H2]; split; lra.
Qed.

(** Bins of the fast spectrum: an interior bin is closed at both ends, so a mode on an
    edge between two interior bins is counted in both. *)
Theorem C59_interior_bins : forall klo khi kmin kmax n i k, 0 < i -> i < n - 1 ->
  let ks := fast_centres kmin kmax n in
  fast_in (nth i ks 0%Q) (nth i (fast_widths klo khi ks) 0%Q) k = true <->
  (lower_edge kmin kmax n i <= k <= lower_edge kmin kmax n (S i))%Q.
Proof.
  intros klo khi kmin kmax n i k H0 H1 ks. rewrite fast_in_iff. unfold ks.
  rewrite fast_centre, fast_width by lia.
  destruct (Nat.eqb_spec i (n - 1)); [lia|]. destruct (Nat.eqb_spec i 0); [lia|].
  assert (E : (lower_edge kmin kmax n (S i) == lower_edge kmin kmax n i + spacing kmin kmax n)%Q)
    by (unfold lower_edge; rewrite inject_S; ring).
  rewrite E. generalize (lower_edge kmin kmax n i) (spacing kmin kmax n). intros l s. clear.
  assert (X : (l + s / 2 - (l + s - l) / 2 == l)%Q) by field.
  assert (Y : (l + s / 2 + (l + s - l) / 2 == l + s)%Q) by field. rewrite X, Y. reflexivity.
Qed.
Print Assumptions C59_interior_bins.
Example C59_interior_bins_sat : exists (n : nat) (i : nat), 0 < i /\ i < n - 1.
Proof. exists 5%nat, 2%nat. repeat split; first [lra | lia | reflexivity | discriminate | congruence | auto]. Qed.

Theorem C59_edge_counted_twice_refuted : forall klo khi kmin kmax n i, 0 < i -> S i < n - 1 ->
  (kmin <= kmax)%Q ->
  let ks := fast_centres kmin kmax n in
  let k := lower_edge kmin kmax n (S i) in
  fast_in (nth i ks 0%Q) (nth i (fast_widths klo khi ks) 0%Q) k = true /\
  fast_in (nth (S i) ks 0%Q) (nth (S i) (fast_widths klo khi ks) 0%Q) k = true.
Proof.
  intros klo khi kmin kmax n i H0 H1 Hle ks k.
  assert (S0 : (0 <= spacing kmin kmax n)%Q).
  { unfold spacing. apply Qle_shift_div_l; [apply inject_pos; lia|]. lra. }
  assert (E : forall j, (lower_edge kmin kmax n (S j) == lower_edge kmin kmax n j + spacing kmin kmax n)%Q)
    by (intro j; unfold lower_edge; rewrite inject_S; ring).
  split; unfold ks; (rewrite C59_interior_bins by lia); unfold k.
  - rewrite E. lra.
  - rewrite (E (S i)). lra.
Qed.
Print Assumptions C59_edge_counted_twice_refuted.
Example C59_edge_counted_twice_refuted_sat : exists (kmin : Q) (kmax : Q) (n : nat) (i : nat), 0 < i /\ S i < n - 1 /\ (kmin <= kmax)%Q.
Proof. exists 1%Q, 3%Q, 5, 2. repeat split; try lia. discriminate. Qed.

(** The first bin is centred on (lower edge + half a spacing) but its width is measured
    from the smallest k: it misses the modes below (k_lo + kmin)/2 and reaches
    (kmin - k_lo)/2 into the second bin. *)
Theorem C59_first_bin : forall klo khi kmin kmax n k, 2 <= n ->
  let ks := fast_centres kmin kmax n in
  fast_in (nth 0 ks 0%Q) (nth 0 (fast_widths klo khi ks) 0%Q) k = true <->
  ((klo + kmin) / 2 <= k <= lower_edge kmin kmax n 1 + (kmin - klo) / 2)%Q.
Proof.
  intros klo khi kmin kmax n k Hn ks. rewrite fast_in_iff. unfold ks.
  rewrite fast_centre, fast_width by lia.
  destruct (Nat.eqb_spec 0 (n - 1)); [lia|]. cbn [Nat.eqb].
  assert (E1 : (lower_edge kmin kmax n 1 == kmin + spacing kmin kmax n)%Q) by (unfold lower_edge; simpl; ring).
  assert (E0 : (lower_edge kmin kmax n 0 == kmin)%Q) by (unfold lower_edge; simpl; ring).
  rewrite E0, E1. generalize (spacing kmin kmax n). intros s. clear.
  assert (X : (kmin + s / 2 - (kmin + s - klo) / 2 == (klo + kmin) / 2)%Q) by field.
  assert (Y : (kmin + s / 2 + (kmin + s - klo) / 2 == kmin + s + (kmin - klo) / 2)%Q) by field.
  rewrite X, Y. reflexivity.
Qed.
Print Assumptions C59_first_bin.
Example C59_first_bin_sat : exists (n : nat), 2 <= n.
Proof. exists 5%nat. repeat split; first [lra | lia | reflexivity | discriminate | congruence | auto]. Qed.

(** The last bin likewise misses the modes above (kmax + k_hi)/2 and reaches (k_hi - kmax)/2 into the last but one. *)
Theorem C59_last_bin : forall klo khi kmin kmax n k, 2 <= n ->
  let ks := fast_centres kmin kmax n in
  fast_in (nth (n - 1) ks 0%Q) (nth (n - 1) (fast_widths klo khi ks) 0%Q) k = true <->
  (lower_edge kmin kmax n (n - 1) - (khi - kmax) / 2 <= k <= (kmax + khi) / 2)%Q.
Proof.
  intros klo khi kmin kmax n k Hn ks. rewrite fast_in_iff. unfold ks.
  rewrite fast_centre, fast_width by lia. rewrite Nat.eqb_refl. destruct (Nat.eqb_spec (n - 1) 0); [lia|].
  assert (E : (kmax == lower_edge kmin kmax n (n - 1) + spacing kmin kmax n)%Q).
  { unfold lower_edge, spacing. assert (N : (inject_Z (Z.of_nat n) == inject_Z (Z.of_nat (n - 1)) + 1)%Q) by (change 1%Q with (inject_Z 1); rewrite <- inject_Z_plus; replace (Z.of_nat n) with (Z.of_nat (n - 1) + 1)%Z by lia; reflexivity).
    assert (P : (0 < inject_Z (Z.of_nat n))%Q) by (change 0%Q with (inject_Z 0); rewrite <- Zlt_Qlt; lia). rewrite N in *. field. intro Z. rewrite Z in P. discriminate P. }
  revert E. generalize (lower_edge kmin kmax n (n - 1)) (spacing kmin kmax n). intros l s E. rewrite E.
  assert (X : (l + s / 2 - (khi - l) / 2 == l - (khi - (l + s)) / 2)%Q) by field.
  assert (Y : (l + s / 2 + (khi - l) / 2 == (l + s + khi) / 2)%Q) by field.
  rewrite X, Y. reflexivity.
Qed.
Print Assumptions C59_last_bin.
Example C59_last_bin_sat : exists (n : nat), 2 <= n.
Proof. exists 5%nat. repeat split; first [lra | lia | reflexivity | discriminate | congruence | auto]. Qed.

(** Logarithmic binning of a field that has the mode k = 0 on its grid: the first bin
    contains every mode. *)
Theorem C59_log_first_bin : forall modes c w,
  (In None (map fst modes) -> fast_first_bin_log modes c w = modes) /\
  (~ In None (map fst modes) -> exists chosen,
     fast_first_bin_log modes c w = filter chosen modes /\
     forall x, chosen x = true <-> exists k, fst x = Some k /\ (Qabs (k - c) <= w / 2)%Q).
Proof.
  intros modes c w. unfold fast_first_bin_log.
  assert (E : ext_min_is_minus_inf (map fst modes) = true <-> In None (map fst modes)).
  { unfold ext_min_is_minus_inf. rewrite existsb_exists. split.
    - intros [x [H1 H2]]. destruct x; [discriminate|exact H1].
    - intro H. exists None. auto. }
  split; intro H.
  - rewrite (proj2 E H). reflexivity.
  - destruct (ext_min_is_minus_inf (map fst modes)); [exfalso; apply H, E; reflexivity|].
    eexists. split; [reflexivity|]. intro x. cbv beta. unfold fast_in. destruct (fst x) as [k|].
    + rewrite Qle_bool_iff. split.
      * intro H2. exists k. auto.
      * intros [k' [[= <-] H2]]. exact H2.
    + split; [discriminate|intros [k' [H2 _]]; discriminate].
Qed.
Print Assumptions C59_log_first_bin.

Lemma positions_from_In : forall {A} (f : A -> bool) l i j,
  In j (positions_from i f l) <-> i <= j /\ exists x, nth_error l (j - i) = Some x /\ f x = true.
Proof.
  induction l as [|a l IH]; intros i j; cbn [positions_from].
  - split; [intros []|]. intros [_ [x [H _]]]. destruct (j - i); discriminate H.
  - assert (R : In j (positions_from (S i) f l) <-> i < j /\ exists x, nth_error (a :: l) (j - i) = Some x /\ f x = true).
    { rewrite IH. split; intros [H1 H2]; split; try lia.
      - replace (j - i) with (S (j - S i)) by lia. exact H2.
      - replace (j - i) with (S (j - S i)) in H2 by lia. exact H2. }
    destruct (f a) eqn:E; cbn [In]; rewrite R.
    + split.
      * intros [->|[H1 H2]]; split; auto; try lia. exists a. rewrite Nat.sub_diag. auto.
      * intros [H1 H2]. destruct (Nat.eq_dec i j); auto. right. split; auto. lia.
    + split.
      * intros [H1 H2]; split; auto; lia.
      * intros [H1 H2]. split; auto. destruct (Nat.eq_dec i j); [|lia]. subst j.
        rewrite Nat.sub_diag in H2. destruct H2 as [x [[= <-] H2]]. congruence.
Qed.
Lemma positions_In : forall {A} (f : A -> bool) l j,
  In j (positions f l) <-> exists x, nth_error l j = Some x /\ f x = true.
Proof.
  intros. unfold positions. rewrite positions_from_In, Nat.sub_0_r.
  split; [intros [_ H]; exact H|intro H; split; [lia|exact H]].
Qed.

(** [power_spect_mu]: with the zero mode at position [p] the cell whose power enters a
    bin is position i, but for i >= p the mu that was tested is that of cell i+1. *)
Theorem C59_mu_index : forall ks (before after : list Q) ck wk cm wm i,
  In i (fast_mu_select ks (map Some before ++ None :: map Some after) ck wk cm wm) <->
  exists k mu, nth_error ks i = Some k /\ fast_in ck wk k = true /\ fast_in cm wm mu = true /\
    nth_error (map Some before ++ None :: map Some after)
              (if Nat.ltb i (length before) then i else S i) = Some (Some mu).
Proof.
  intros. unfold fast_mu_select. rewrite filter_In, positions_In, existsb_exists.
  assert (F : finite (map Some before ++ None :: map Some after) = before ++ after).
  { assert (G : forall l, finite (map Some l) = l) by (induction l; simpl; congruence).
    induction before as [|x b IH]; simpl; [apply G|congruence]. }
  rewrite F.
  assert (N : forall mu, nth_error (before ++ after) i = Some mu <->
    nth_error (map Some before ++ None :: map Some after)
              (if Nat.ltb i (length before) then i else S i) = Some (Some mu)).
  { intro mu. destruct (Nat.ltb_spec i (length before)).
    - rewrite !nth_error_app1 by (rewrite ?map_length; lia). rewrite nth_error_map.
      destruct (nth_error before i); simpl; split; congruence.
    - rewrite !nth_error_app2 by (rewrite ?map_length; lia). rewrite map_length.
      replace (S i - length before) with (S (i - length before)) by lia. cbn [nth_error].
      rewrite nth_error_map. destruct (nth_error after (i - length before)); simpl; split; congruence. }
  split.
  - intros [[k [H1 H2]] [j [H3 H4]]]. apply Nat.eqb_eq in H4. subst j.
    apply positions_In in H3 as [mu [H3 H4]]. exists k, mu. rewrite <- N. auto.
  - intros [k [mu [H1 [H2 [H3 H4]]]]]. apply N in H4. split; [eauto|].
    exists i. rewrite Nat.eqb_refl. split; auto. apply positions_In. eauto.
Qed.
Print Assumptions C59_mu_index.

Example C59_sat :
  map snd (fast_1d (map (fun k => (k, 1%Q)) [0#1; 1#1; 2#1; 3#1; 4#1]) (0#1) (1#1) (4#1) 3)
  = [2; 2; 2]%Q /\
  fast_mu_select [1#1; 0#1; 1#1] [Some (9#10); None; Some (1#10)] (1#1) (1#2) (1#10) (1#10) = [] /\
  fast_mu_select [1#1; 1#1; 1#1] [Some (9#10); None; Some (1#10)] (1#1) (1#2) (1#10) (1#10) = [1].
Proof. split; [|split]; reflexivity. Qed.

(** * C60: cylindrical binning *)

Lemma in_which_spec : forall edges i x, S i < length edges -> in_which edges i x = in_binb edges i x.
Proof.
  induction edges as [|e1 [|e2 tl] IH]; intros i x Hi; [simpl in Hi; lia|simpl in Hi; lia|].
  destruct i as [|i].
  - apply bool_iff. rewrite in_binb_spec. unfold in_bin. cbn [in_which nth].
    rewrite andb_true_iff, Qle_bool_iff. destruct tl as [|e3 tl].
    + rewrite Qle_bool_iff. cbn. split; intros [H1 H2]; (split; [exact H1|]).
      * destruct (Qlt_le_dec x e2); [left; auto|right; split; [auto|lra]].
      * destruct H2 as [H2|[_ H2]]; lra.
    + rewrite Qltb_true. cbn. split; intros [H1 H2]; (split; [exact H1|auto]).
      destruct H2 as [H2|[H2 _]]; [exact H2|discriminate H2].
  - change (in_which (e1 :: e2 :: tl) (S i) x) with (in_which (e2 :: tl) i x).
    rewrite IH by (simpl in Hi |- *; lia). reflexivity.
Qed.

(** Entry (i, j) averages and counts exactly the modes in k_perp bin i and k_par bin j. *)
Theorem C60_binned_2d : forall modes per par i j, S i < length per -> S j < length par ->
  exists row chosen mean number, nth_error (binned_2d modes per par) i = Some row /\
    nth_error row j = Some (mean, number) /\
    length (binned_2d modes per par) = length per - 1 /\ length row = length par - 1 /\
    (forall m, chosen m = true <-> in_bin per i (fst (fst m)) /\ in_bin par j (snd (fst m))) /\
    number = length (filter chosen modes) /\
    match mean with
    | None => filter chosen modes = []
    | Some v => filter chosen modes <> [] /\ (v == qsum (map snd (filter chosen modes)) / qlen (filter chosen modes))%Q
    end.
Proof.
  intros modes per par i j Hi Hj.
  set (ch := fun i j (m : Q * Q * Q) => in_which per i (fst (fst m)) && in_which par j (snd (fst m))).
  set (g := fun i j => let sel := filter (ch i j) modes in (mean_nan (map snd sel), length sel)).
  exists (map (g i) (seq 0 (length par - 1))), (ch i j). do 2 eexists.
  assert (Sq : forall n k, k < n -> nth_error (seq 0 n) k = Some k).
  { intros n k Hk. rewrite (nth_error_nth' _ 0) by (rewrite seq_length; lia). rewrite seq_nth by lia. reflexivity. }
  split; [exact (map_nth_error (fun i => map (g i) (seq 0 (length par - 1))) _ _ (Sq (length per - 1) i ltac:(lia)))|].
  split; [exact (map_nth_error (g i) _ _ (Sq (length par - 1) j ltac:(lia)))|].
  split; [unfold binned_2d; now rewrite map_length, seq_length|]. split; [now rewrite map_length, seq_length|].
  split; [|split; [reflexivity|]].
  - intro m. unfold ch. rewrite andb_true_iff, !in_which_spec, !in_binb_spec by auto. reflexivity.
  - unfold mean_nan. destruct (filter (ch i j) modes) as [|x r] eqn:E; [reflexivity|]. cbn [map]. split; [discriminate|].
    change (snd x :: map snd r) with (map snd (x :: r)). unfold qlen. rewrite map_length. reflexivity.
Qed.
Print Assumptions C60_binned_2d.
Example C60_binned_2d_sat : exists (per : list Q) (par : list Q) (i : nat) (j : nat), S i < length per /\ S j < length par.
Proof. exists [0; 1; 2; 4]%Q, [0; 2; 3]%Q, 2%nat, 1%nat. cbn; lia. Qed.

(** With automatic bins a mode is counted, and then in exactly one entry, iff neither of
    its two components is zero. *)
Theorem C60_automatic_bins : forall vs v0 n x, 0 < n -> In v0 vs -> ~ (v0 == 0)%Q ->
  (forall v, In v vs -> 0 <= v)%Q -> In x vs ->
  ((exists i, S i < length (auto_edges v0 vs n) /\ in_bin (auto_edges v0 vs n) i x) <-> (0 < x)%Q) /\
  ascending (auto_edges v0 vs n).
Proof.
  intros vs v0 n x Hn Hv0 Hnz Hpos Hx. unfold auto_edges.
  set (nz := filter (fun x : Q => negb (Qeq_bool x 0)) vs).
  assert (Pnz : forall v, In v nz <-> In v vs /\ (0 < v)%Q).
  { intro v. unfold nz. rewrite filter_In, negb_true_iff. split; intros [H1 H2]; split; auto.
    - apply Qeq_bool_neq in H2. specialize (Hpos v H1).
      destruct (Qlt_le_dec 0 v); auto. exfalso. apply H2. lra.
    - destruct (Qeq_bool v 0) eqn:E; auto. apply Qeq_bool_iff in E. lra. }
  assert (P0 : In v0 nz).
  { apply Pnz. split; auto. specialize (Hpos v0 Hv0). destruct (Qlt_le_dec 0 v0); auto. exfalso. apply Hnz. lra. }
  assert (Pm : (0 < qmin v0 nz)%Q).
  { destruct (qmin_in v0 nz) as [H|H]; [rewrite H|]; eapply Pnz; eauto. }
  assert (A : ascending (linspace (qmin v0 nz) (qmax v0 vs) n)).
  { apply linspace_ascending. eapply Qle_trans; [apply qmin_le; exact P0|]. apply qmax_ge. exact Hv0. }
  split; [|exact A]. split.
  - intros [i [Hi B]]. destruct (in_bin_range _ _ _ A Hi B) as [H _].
    rewrite linspace_first in H by auto. lra.
  - intro H. apply in_bin_exists; [rewrite linspace_length; lia|]. split.
    + rewrite linspace_first by auto. apply qmin_le. apply Pnz. auto.
    + rewrite linspace_length. replace (S n - 1) with n by lia. rewrite linspace_last. apply qmax_ge. exact Hx.
Qed.
Print Assumptions C60_automatic_bins.
Example C60_automatic_bins_sat : exists (vs : list Q) (v0 : Q) (n : nat) (x : Q), 0 < n /\ In v0 vs /\ ~ (v0 == 0)%Q /\ ((forall v, In v vs -> 0 <= v)%Q) /\ In x vs.
Proof. exists [0; 1; 2]%Q, 2%Q, 3, 1%Q. split; [lia|]. split; [cbn; tauto|]. split; [discriminate|]. split; [intros v [<-|[<-|[<-|[]]]]; discriminate|cbn; tauto]. Qed.

(** The form [n_kper, n_kpar] described in the documentation is the one that raises. *)
Theorem C60_list_of_numbers_raises : forall ap al a,
  edges_2d ap al a = None <-> exists n m, a = KListInt n m.
Proof.
  intros ap al [n|n m|n m|x y]; simpl; split; intro H; try discriminate; eauto;
    destruct H as [? [? H]]; discriminate H.
Qed.
Print Assumptions C60_list_of_numbers_raises.

Example C60_sat :
  let vs := [0#1; 1#1; 2#1; 3#1] in
  auto_edges (1#1) vs 2 = auto_edges (1#1) vs 2 /\
  map (map snd) (binned_2d [((0#1, 1#1), 5#1); ((1#1, 1#1), 5#1); ((3#1, 2#1), 5#1)]%Q
                   (auto_edges (1#1) vs 2) (auto_edges (1#1) vs 2)) = [[1; 0]; [0; 1]].
Proof. split; reflexivity. Qed.
