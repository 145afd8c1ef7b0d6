(** C59 against C21: an inner bin of the fast spherical spectrum and the same bin of the ordinary one. *)
From Coq Require Import List Arith ZArith QArith Qabs Lqa Lia Bool Permutation.
From Verif Require Import QLib BinningModel BinningSpec BinningProofs BinningProps.
Import ListNotations.
Local Open Scope nat_scope.

(** Same value or both undefined. *)
Definition same_num (a b : option Q) : Prop := match a, b with Some p, Some q => (p == q)%Q | None, None => True | _, _ => False end.

Lemma map2_nth_some : forall {A B C} (f : A -> B -> C) l m i da db dc, i < length l -> i < length m -> nth i (map2 f l m) dc = f (nth i l da) (nth i m db).
Proof. intros A B C f. induction l as [|a l IH]; intros [|b m] i da db dc H1 H2; cbn in *; try lia. destruct i; [reflexivity|]. apply IH; lia. Qed.

(** Over the same equal bins: an inner bin of the fast spectrum averages the modes that the ordinary spectrum puts into that bin and the
    modes exactly on its upper edge. *)
Theorem C59_against_ordinary : forall modes k0 kmin kmax n i, 0 < i -> i < n - 1 ->
  let edges := linspace kmin kmax n in
  let both := filter (fun m => in_binb edges i (fst m) || Qeq_bool (fst m) (nth (S i) edges 0%Q))%bool modes in
  (kmin < kmax)%Q ->
  nth i (fast_1d modes k0 kmin kmax n) (None, 0%Q) = (div_nan (qsum (map snd both)) (qlen both), qlen both).
Proof.
  intros modes k0 kmin kmax n i H0 H1 edges both Hlt.
  assert (Lc : length (fast_centres kmin kmax n) = n) by (unfold fast_centres; rewrite mids_length, linspace_length; lia).
  assert (Lw : forall a b, length (fast_widths a b (fast_centres kmin kmax n)) = n).
  { intros a b. unfold fast_widths. rewrite widths_length. cbn [length]. rewrite app_length, mids_length, Lc. cbn. lia. }
  unfold fast_1d. rewrite (map2_nth_some _ _ _ i 0%Q 0%Q) by (rewrite ?Lc, ?Lw; lia).
  assert (F : forall m : Q * Q, fast_in (nth i (fast_centres kmin kmax n) 0%Q) (nth i (fast_widths (qmin k0 (map fst modes)) (qmax k0 (map fst modes)) (fast_centres kmin kmax n)) 0%Q) (fst m) = (in_binb edges i (fst m) || Qeq_bool (fst m) (nth (S i) edges 0%Q))%bool).
  { intro m. apply eq_true_iff_eq. rewrite (C59_interior_bins (qmin k0 (map fst modes)) (qmax k0 (map fst modes)) kmin kmax n i (fst m) H0 H1).
    assert (E1 : (nth i edges 0 == lower_edge kmin kmax n i)%Q) by (apply linspace_lower; lia).
    assert (E2 : (nth (S i) edges 0 == lower_edge kmin kmax n (S i))%Q) by (apply linspace_lower; lia).
    assert (LT : (nth i edges 0 < nth (S i) edges 0)%Q). { apply linspace_increasing; [exact Hlt|]. rewrite linspace_length. lia. }
    rewrite <- E1, <- E2. unfold in_binb. rewrite orb_true_iff, andb_true_iff, orb_true_iff, andb_true_iff, Qle_bool_iff, Qltb_true, Qeq_bool_iff. split.
    - intros [A B]. destruct (Qlt_le_dec (fst m) (nth (S i) edges 0%Q)) as [C|C]; [left; split; [exact A|left; exact C]|right; lra].
    - intros [[A [B|[_ B]]]|B]; split; lra. }
  assert (FE : filter (fun x => fast_in (nth i (fast_centres kmin kmax n) 0%Q) (nth i (fast_widths (qmin k0 (map fst modes)) (qmax k0 (map fst modes)) (fast_centres kmin kmax n)) 0%Q) (fst x)) modes = both).
  { unfold both. apply filter_ext. exact F. }
  rewrite FE. reflexivity.
Qed.
Print Assumptions C59_against_ordinary.
Example C59_against_ordinary_sat : nth 1 (fast_1d [(1, 5); (3#2, 1); (2, 4); (3, 7)]%Q 1 0 4 4) (None, 0%Q) = (Some (10 / 3)%Q, 3%Q) /\ (0 < 4)%Q /\ (1 < 4 - 1).
Proof. split; [vm_compute; reflexivity|]. split; [reflexivity|lia]. Qed.

(** If no mode lies on that edge the two spectra have the same value and the same number of modes there. *)
Theorem C59_equal_off_edges : forall modes k0 kmin kmax n i, 0 < i -> i < n - 1 -> (kmin < kmax)%Q ->
  (forall m, In m modes -> ~ (fst m == nth (S i) (linspace kmin kmax n) 0)%Q) ->
  exists out cs ns, radial_average modes (linspace kmin kmax n) = Some (out, cs, ns) /\
    same_num (fst (nth i (fast_1d modes k0 kmin kmax n) (None, 0%Q))) (nth i out None) /\
    (snd (nth i (fast_1d modes k0 kmin kmax n) (None, 0)) == nth i ns 0)%Q /\
    (nth i (fast_centres kmin kmax n) 0 == nth i cs 0)%Q.
Proof.
  intros modes k0 kmin kmax n i H0 H1 Hlt NE.
  destruct (C21_radial_average modes (linspace kmin kmax n)) as (out & cs & ns & E & _ & _ & P); [apply linspace_ascending; lra|].
  exists out, cs, ns. split; [exact E|]. rewrite (C59_against_ordinary modes k0 kmin kmax n i H0 H1 Hlt). cbn [fst snd].
  assert (FE : filter (fun m => in_binb (linspace kmin kmax n) i (fst m) || Qeq_bool (fst m) (nth (S i) (linspace kmin kmax n) 0%Q))%bool modes = filter (fun m => in_binb (linspace kmin kmax n) i (fst m)) modes).
  { apply filter_ext_in. intros m I. destruct (Qeq_bool (fst m) _) eqn:Q; [exfalso; apply (NE m I); apply Qeq_bool_iff; exact Q|]. apply orb_false_r. }
  rewrite FE. clear FE. destruct (P i) as (A & B & C); [rewrite linspace_length; lia|]. cbv zeta in C. set (mem := filter _ modes) in *.
  split; [|split; [symmetry; exact A|]].
  - unfold div_nan. destruct (nth i out None) as [p|].
    + destruct C as [N C]. destruct (Qeq_bool (qlen mem) 0) eqn:Z; [|exact (Qeq_sym _ _ C)]. exfalso. apply Qeq_bool_iff in Z. apply N. unfold qlen in Z. destruct mem; [reflexivity|]. exfalso. change 0%Q with (inject_Z 0) in Z. rewrite inject_Z_injective in Z. cbn [length] in Z. lia.
    + rewrite C. reflexivity.
  - rewrite B. unfold fast_centres. rewrite mids_nth by (rewrite linspace_length; lia). reflexivity.
Qed.
Print Assumptions C59_equal_off_edges.
Example C59_equal_off_edges_sat : forall m, In m [(1, 5); (3#2, 1); (9#4, 4); (3, 7)]%Q -> ~ (fst m == nth 2 (linspace 0 4 4) 0)%Q.
Proof. intros m [<-|[<-|[<-|[<-|[]]]]]; discriminate. Qed.
