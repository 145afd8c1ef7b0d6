(** C79: any value of the haloes on a grid, [halo_value_on_grid]. *)
From Coq Require Import List Arith ZArith Reals Lra Lia.
From Verif Require Import HaloGridModel HaloGridProps HaloValueModel.
Import ListNotations.
Local Open Scope R_scope.

Lemma total_split (g : cell -> R) : forall l,
  total (map g l) = total (map snd (map (fun c => (c, g c)) (filter (fun c => if Rlt_dec 0 (g c) then true else false) l)))
                    + total (map g (filter (fun c => if Rlt_dec 0 (g c) then false else true) l)).
Proof.
  induction l as [|c l IH]; cbn [map filter total fold_right]; [lra|]. destruct (Rlt_dec 0 (g c)); cbn [map total fold_right snd]; unfold total in *; rewrite IH; lra.
Qed.
Lemma total_nonpos : forall l, (forall v, In v l -> v <= 0) -> total l <= 0 /\ (total l = 0 <-> forall v, In v l -> v = 0).
Proof.
  induction l as [|v l IH]; intro H; cbn [total fold_right].
  - split; [lra|]. split; [intros _ v []|reflexivity].
  - destruct IH as [A B]; [intros x I; apply H; now right|]. pose proof (H v (or_introl eq_refl)) as V. unfold total in *. split; [lra|]. split.
    + intros E x [<-|I]; [lra|]. apply B; [lra|exact I].
    + intro E. rewrite (E v (or_introl eq_refl)). rewrite (proj2 B); [lra|]. intros x I. apply E. now right.
Qed.

(** The cells listed are exactly those whose values add up to more than zero, each once, with that sum. So for values of
    either sign (velocities, overdensities) the list is not the whole: it adds up to at least the sum of the values, and to
    just that iff no cell has a negative sum. *)
Theorem C79_values : forall n s pos value, (0 < n)%nat ->
  match pos, pos_grid s with
  | None, None => halo_value_on_grid n s pos value = NothingListed
  | Some ps, _ | None, Some ps =>
      (length value <> length ps -> halo_value_on_grid n s pos value = Refused) /\
      (length value = length ps -> exists l, let g := value_on_grid n (combine ps value) in halo_value_on_grid n s pos value = Listed l /\
        NoDup (map fst l) /\ (forall c v, In (c, v) l <-> In c (cells n) /\ v = g c /\ 0 < v) /\
        total value <= total (map snd l) /\ (total (map snd l) = total value <-> forall c, In c (cells n) -> 0 <= g c))
  end.
Proof.
  intros n s pos value Hn.
  assert (G : forall ps, length value = length ps -> let g := value_on_grid n (combine ps value) in
     NoDup (map fst (occupied n g)) /\ (forall c v, In (c, v) (occupied n g) <-> In c (cells n) /\ v = g c /\ 0 < v) /\
     total value <= total (map snd (occupied n g)) /\ (total (map snd (occupied n g)) = total value <-> forall c, In c (cells n) -> 0 <= g c)).
  { intros ps L g.
    assert (T : total (map g (cells n)) = total value).
    { unfold g, value_on_grid. rewrite (grid_total n (cell_of n (map fst (combine ps value))) (combine ps value)).
      - unfold masses. f_equal. clear - L. revert ps L. induction value as [|v r IH]; intros [|p ps] L; cbn in *; try discriminate; [reflexivity|]. f_equal. apply IH. congruence.
      - intros h I. unfold cell_of. apply cells_in. split; [|split]; apply index_range; try exact Hn; apply in_map, in_map, I. }
    pose proof (total_split g (cells n)) as SP. rewrite T in SP. fold (occupied n g) in SP.
    set (neg := filter (fun c => if Rlt_dec 0 (g c) then false else true) (cells n)) in *.
    assert (NI : forall c, In c neg <-> In c (cells n) /\ g c <= 0).
    { intro c. unfold neg. rewrite filter_In. destruct (Rlt_dec 0 (g c)); split; intros [A B]; split; try assumption; try discriminate; try reflexivity; lra. }
    destruct (total_nonpos (map g neg)) as [N1 N2]. { intros v I. apply in_map_iff in I. destruct I as (c & <- & I). apply NI in I. apply I. }
    split; [|split; [|split]].
    - unfold occupied. rewrite map_map. cbn [fst]. rewrite map_id. apply NoDup_filter, cells_NoDup.
    - intros c v. unfold occupied. rewrite in_map_iff. split.
      + intros (d & E & I). injection E as -> <-. apply filter_In in I. destruct I as [I Q]. destruct (Rlt_dec 0 (g c)); [auto|discriminate].
      + intros (I & -> & Q). exists c. split; [reflexivity|]. apply filter_In. split; [exact I|]. destruct (Rlt_dec 0 (g c)); [reflexivity|contradiction].
    - lra.
    - split.
      + intros E c I. destruct (Rlt_dec 0 (g c)) as [P|P]; [lra|]. rewrite (proj1 N2); [lra|lra|]. apply in_map, NI. split; [exact I|lra].
      + intro P. assert (Z : total (map g neg) = 0). { apply N2. intros v I. apply in_map_iff in I. destruct I as (c & <- & I). apply NI in I. destruct I as [I J]. specialize (P c I). lra. }
        lra. }
  assert (H : forall ps, match pos with Some q => Some q | None => pos_grid s end = Some ps ->
     (length value <> length ps -> halo_value_on_grid n s pos value = Refused) /\
      (length value = length ps -> exists l, let g := value_on_grid n (combine ps value) in halo_value_on_grid n s pos value = Listed l /\
        NoDup (map fst l) /\ (forall c v, In (c, v) l <-> In c (cells n) /\ v = g c /\ 0 < v) /\
        total value <= total (map snd l) /\ (total (map snd l) = total value <-> forall c, In c (cells n) -> 0 <= g c))).
  { intros ps E. unfold halo_value_on_grid. rewrite E. split.
    - intro N. destruct (Nat.eqb_spec (length value) (length ps)); [contradiction|reflexivity].
    - intro L. exists (occupied n (value_on_grid n (combine ps value))). split; [rewrite L, Nat.eqb_refl; reflexivity|]. exact (G ps L). }
  destruct pos as [ps|]; [apply H; reflexivity|]. destruct (pos_grid s) as [ps|] eqn:E; [apply H; first [exact E | reflexivity]|].
  unfold halo_value_on_grid. rewrite E. reflexivity.
Qed.
Print Assumptions C79_values.

(** Two haloes at opposite corners, with velocities 3 and -2: only the first is listed, and the list adds up to 3 rather than 1. *)
Example C79_values_sat : exists l, halo_value_on_grid 2 {| pos_grid := Some [(0, 0, 0); (1, 1, 1)]; mass_Msun := None |} None [3; -2] = Listed l /\
  total (map snd l) <> total [3; -2].
Proof.
  pose proof (C79_values 2 {| pos_grid := Some [(0, 0, 0); (1, 1, 1)]; mass_Msun := None |} None [3; -2] ltac:(lia)) as [_ H]. cbn [pos_grid] in H.
  destruct (H eq_refl) as (l & A & _ & _ & _ & B). exists l. split; [exact A|]. intro E. pose proof (proj1 B E (1, 1, 1)%Z (proj2 (cells_in 2 1 1 1) ltac:(lia))) as F.
  assert (X : value_on_grid 2 (combine [(0, 0, 0); (1, 1, 1)] [3; -2]) (1, 1, 1)%Z = -2).
  { assert (I1 : index 2 [0; 1] 1 = 1%Z). { unfold index, high, low, least, largest. rewrite Rmax_right, Rmin_left by lra. destruct (Req_EM_T 0 1); [lra|]. destruct (Req_EM_T 1 1); [reflexivity|lra]. }
    assert (I0 : index 2 [0; 1] 0 = 0%Z). { unfold index, high, low, least, largest. rewrite Rmax_right, Rmin_left by lra. destruct (Req_EM_T 0 1); [lra|]. try (destruct (Req_EM_T 0 1); [lra|]). apply Int_part_unique. replace ((0 - 0) / ((1 - 0) / INR 2)) with 0 by (cbn; field). lra. }
    unfold value_on_grid. cbn [combine filter fst map]. unfold cell_of. cbn [map px py pz fst snd]. rewrite I0, I1. cbn. lra. }
  assert (F2 : 0 <= -2) by (rewrite <- X; exact F). lra.
Qed.
