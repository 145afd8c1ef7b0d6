(** C47: source lists and their grids. *)
From Coq Require Import List Arith ZArith Reals Bool Lia Lra.
From Verif Require Import RLib StatsProps SizeDistModel SizeDistProps SourceModel.
Import ListNotations.
Local Open Scope nat_scope.

(** The cell a position names: itself inside the mesh, one mesh further for the negative
    positions down to [-mesh]. *)
Definition in_cell (mesh : Z) (r : row) (c : cell) : Prop :=
  let at_ i a := (i = a \/ i = a - mesh)%Z /\ (0 <= a < mesh)%Z in
  at_ (rx r) (fst (fst c)) /\ at_ (ry r) (snd (fst c)) /\ at_ (rz r) (snd c).

Lemma norm_ok : forall mesh i a, norm mesh i = Some a <-> (i = a \/ i = a - mesh)%Z /\ (0 <= a < mesh)%Z.
Proof.
  intros mesh i a. unfold norm. destruct (Z.leb_spec 0 i); destruct (Z.ltb_spec i mesh); cbn [andb];
    destruct (Z.leb_spec (- mesh) i); destruct (Z.ltb_spec i 0); cbn [andb];
    (split; [intro E; try discriminate; injection E as E; lia|intros [[D|D] B]; try (f_equal; lia); lia]).
Qed.
Lemma cell_of_ok : forall mesh r c, cell_of mesh r = Some c <-> in_cell mesh r c.
Proof.
  intros mesh r [[a b] c]. unfold in_cell. cbn [fst snd]. rewrite <- !norm_ok. unfold cell_of.
  destruct (norm mesh (rx r)), (norm mesh (ry r)), (norm mesh (rz r)); split;
    try (intro E; injection E as E1 E2 E3; subst; auto); try discriminate; intros (E1 & E2 & E3); try discriminate.
  injection E1 as E1; injection E2 as E2; injection E3 as E3; subst. reflexivity.
Qed.
Lemma cell_eqb_ok : forall a b, cell_eqb a b = true <-> a = b.
Proof.
  intros [[a1 a2] a3] [[b1 b2] b3]. cbn. rewrite !andb_true_iff, !Z.eqb_eq. split.
  - intros [[D1 D2] D3]; subst; reflexivity.
  - intro E. injection E. auto.
Qed.

Lemma grid_loop_app : forall mesh a b f, grid_loop mesh (a ++ b) f = match grid_loop mesh a f with Some g => grid_loop mesh b g | None => None end.
Proof.
  induction a as [|r a IH]; intros b f; [reflexivity|]. cbn [app grid_loop]. destruct (cell_of mesh r); [apply IH|reflexivity].
Qed.

(** Gridding succeeds iff every position is inside the mesh (negative ones wrap). Each
    cell then holds the mass of the LAST listed source in it, and zero without a source. *)
Theorem C47_grid : forall mesh rs,
  (grid_sources mesh rs <> None <-> forall r, In r rs -> exists c, in_cell mesh r c) /\
  (forall f, grid_sources mesh rs = Some f -> forall d,
     (f d = Some 0%R /\ forall r, In r rs -> ~ in_cell mesh r d) \/
     (exists a r b, rs = a ++ r :: b /\ in_cell mesh r d /\ (forall q, In q b -> ~ in_cell mesh q d) /\ f d = rmass r)).
Proof.
  intros mesh rs. unfold grid_sources. split.
  - generalize zeros. induction rs as [|r rs IH]; intro f; cbn [grid_loop].
    + split; [intros _ r []|discriminate].
    + destruct (cell_of mesh r) as [c|] eqn:E.
      * rewrite IH. split.
        -- intros H q [D|D]; [subst q; exists c; apply cell_of_ok; exact E|apply H; exact D].
        -- intros H q D. apply H. right. exact D.
      * split; [congruence|]. intro H. destruct (H r (or_introl eq_refl)) as [c Hc]. apply cell_of_ok in Hc. congruence.
  - induction rs as [|r rs IH] using rev_ind; intros f E d.
    + cbn in E. injection E as E. subst f. left. split; [reflexivity|]. intros r [].
    + rewrite grid_loop_app in E. destruct (grid_loop mesh rs zeros) as [g|] eqn:G; [|discriminate].
      cbn [grid_loop] in E. destruct (cell_of mesh r) as [c|] eqn:C; [|discriminate]. injection E as E. subst f.
      unfold put. destruct (cell_eqb d c) eqn:D.
      * apply cell_eqb_ok in D. subst d. right. exists rs, r, []. split; [reflexivity|]. split; [apply cell_of_ok; exact C|].
        split; [intros q []|reflexivity].
      * assert (N : ~ in_cell mesh r d).
        { intro I. apply cell_of_ok in I. rewrite C in I. injection I as I. subst d.
          rewrite (proj2 (cell_eqb_ok c c) eq_refl) in D. discriminate. }
        destruct (IH g eq_refl d) as [[Z1 Z2]|(a & q & b & E1 & E2 & E3 & E4)].
        -- left. split; [exact Z1|]. intros q I. apply in_app_iff in I. destruct I as [I|[I|[]]]; [apply Z2; exact I|subst q; exact N].
        -- right. exists a, q, (b ++ [r]). split; [rewrite E1, <- app_assoc; reflexivity|]. split; [exact E2|]. split; [|exact E4].
           intros p I. apply in_app_iff in I. destruct I as [I|[I|[]]]; [apply E3; exact I|subst p; exact N].
Qed.
Print Assumptions C47_grid.

Local Open Scope R_scope.
Definition value (m : option R) : R := match m with Some x => x | None => 0 end.
Definition mesh_cells (n : nat) : list cell :=
  flat_map (fun i => flat_map (fun j => map (fun k => (Z.of_nat i, Z.of_nat j, Z.of_nat k)) (seq 0 n)) (seq 0 n)) (seq 0 n).
Lemma mesh_cells_in : forall n a b c, In (a, b, c) (mesh_cells n) <-> (0 <= a < Z.of_nat n /\ 0 <= b < Z.of_nat n /\ 0 <= c < Z.of_nat n)%Z.
Proof.
  intros n a b c. unfold mesh_cells. rewrite in_flat_map. split.
  - intros (i & Hi & H). apply in_flat_map in H. destruct H as (j & Hj & H). apply in_map_iff in H. destruct H as (k & E & Hk).
    apply in_seq in Hi. apply in_seq in Hj. apply in_seq in Hk. injection E as E1 E2 E3. lia.
  - intros (A & B & C). exists (Z.to_nat a). split; [apply in_seq; lia|]. apply in_flat_map. exists (Z.to_nat b).
    split; [apply in_seq; lia|]. apply in_map_iff. exists (Z.to_nat c). split; [|apply in_seq; lia]. rewrite !Z2Nat.id by lia. reflexivity.
Qed.
Lemma mesh_cells_nodup : forall n, NoDup (mesh_cells n).
Proof.
  assert (G : forall {A B} (f : A -> list B) l, NoDup l -> (forall x, In x l -> NoDup (f x)) ->
    (forall x y b, In x l -> In y l -> In b (f x) -> In b (f y) -> x = y) -> NoDup (flat_map f l)).
  { intros A B f l N. induction N as [|x l NI N IH]; intros F D; [constructor|]. cbn [flat_map].
    apply FinFun.Injective_map_NoDup with (f := fun b : B => b) in N || idtac.
    assert (NA : forall (u v : list B), NoDup u -> NoDup v -> (forall b, In b u -> ~ In b v) -> NoDup (u ++ v)).
    { clear. induction u as [|y u IHu]; intros v Nu Nv Dj; [exact Nv|]. inversion Nu; subst. cbn [app]. constructor.
      - intro I. apply in_app_iff in I. destruct I as [I|I]; [contradiction|]. apply (Dj y); [left; reflexivity|exact I].
      - apply IHu; auto. intros b I. apply Dj. right. exact I. }
    apply NA.
    - apply F. left. reflexivity.
    - apply IH; [intros y I; apply F; right; exact I|]. intros y z b Iy Iz. apply D; right; assumption.
    - intros b Ib I. apply in_flat_map in I. destruct I as (y & Iy & Iby). assert (x = y) by (apply (D x y b); [left; reflexivity|right; exact Iy|exact Ib|exact Iby]).
      subst y. contradiction. }
  intro n. unfold mesh_cells. apply G; [apply seq_NoDup| |].
  - intros i _. apply G; [apply seq_NoDup| |].
    + intros j _. apply FinFun.Injective_map_NoDup; [|apply seq_NoDup]. intros k k' E. injection E. lia.
    + intros j j' b _ _ I I'. apply in_map_iff in I. apply in_map_iff in I'. destruct I as (k & E & _). destruct I' as (k' & E' & _).
      subst b. injection E'. lia.
  - intros i i' b _ _ I I'. apply in_flat_map in I. apply in_flat_map in I'. destruct I as (j & _ & I). destruct I' as (j' & _ & I').
    apply in_map_iff in I. apply in_map_iff in I'. destruct I as (k & E & _). destruct I' as (k' & E' & _). subst b. injection E'. lia.
Qed.
Lemma put_total : forall cs f c v, NoDup cs -> In c cs ->
  rsum (map (fun d => value (put f c v d)) cs) = rsum (map (fun d => value (f d)) cs) - value (f c) + value v.
Proof.
  induction cs as [|d cs IH]; intros f c v N I; [contradiction|]. inversion N; subst. cbn [map]. rewrite !rsum_cons.
  destruct I as [I|I].
  - subst d. unfold put at 1. rewrite (proj2 (cell_eqb_ok c c) eq_refl).
    rewrite (map_ext_in _ (fun d => value (f d)) cs); [ring|]. intros e Ie. unfold put.
    destruct (cell_eqb e c) eqn:E; [|reflexivity]. apply cell_eqb_ok in E. subst e. contradiction.
  - rewrite (IH f c v) by assumption. unfold put at 1. destruct (cell_eqb d c) eqn:E; [|ring].
    apply cell_eqb_ok in E. subst d. contradiction.
Qed.
(** The mesh never holds more than the listed mass, and holds all of it exactly when no
    two sources share a cell. *)
Theorem C47_total_mass : forall n rs f, grid_sources (Z.of_nat n) rs = Some f ->
  (forall r, In r rs -> exists m, rmass r = Some m /\ 0 < m) ->
  let total := rsum (map (fun d => value (f d)) (mesh_cells n)) in
  let listed := rsum (map (fun r => value (rmass r)) rs) in
  total <= listed /\ (total = listed <-> NoDup (map (cell_of (Z.of_nat n)) rs)).
Proof.
  intros n rs. unfold grid_sources. induction rs as [|r rs IH] using rev_ind; intros f E P; cbv zeta.
  - cbn in E. injection E as E. subst f. cbn [map]. rewrite (rsum_zero _ (mesh_cells n)) by reflexivity.
    cbn. split; [lra|]. split; [intros _; constructor|reflexivity].
  - rewrite grid_loop_app in E. destruct (grid_loop (Z.of_nat n) rs zeros) as [g|] eqn:G; [|discriminate].
    cbn [grid_loop] in E. destruct (cell_of (Z.of_nat n) r) as [c|] eqn:C; [|discriminate]. injection E as E. subst f.
    assert (P' : forall q, In q rs -> exists m, rmass q = Some m /\ 0 < m) by (intros q I; apply P; apply in_app_iff; left; exact I).
    destruct (IH g eq_refl P') as [L1 L2].
    assert (Ic : In c (mesh_cells n)).
    { destruct c as [[a b] c]. apply cell_of_ok in C. unfold in_cell in C. cbn [fst snd] in C. apply mesh_cells_in. tauto. }
    rewrite put_total by (auto using mesh_cells_nodup). rewrite map_app, rsum_app. cbn [map]. rewrite rsum_cons. cbn [rsum fold_right].
    destruct (proj2 (C47_grid (Z.of_nat n) rs) g G c) as [[Z1 Z2]|(a & q & b & E1 & E2 & E3 & E4)].
    + rewrite Z1. cbn [value]. split; [lra|]. rewrite map_app. cbn [map]. split.
      * intro T. assert (NoDup (map (cell_of (Z.of_nat n)) rs)) by (apply L2; lra).
        apply NoDup_rev in H. rewrite <- (rev_involutive (map _ rs ++ [_])). apply NoDup_rev. rewrite rev_app_distr. cbn. constructor; [|exact H].
        rewrite <- in_rev. intro I. apply in_map_iff in I. destruct I as (q & Eq & Iq). apply (Z2 q Iq). apply cell_of_ok. congruence.
      * intro T. apply NoDup_remove in T. rewrite app_nil_r in T. destruct T as [T _]. apply L2 in T. lra.
    + rewrite E4. assert (Iq : In q rs) by (rewrite E1; apply in_app_iff; right; left; reflexivity).
      destruct (P' q Iq) as (m & M1 & M2). rewrite M1. cbn [value]. split; [lra|]. split; [intro T; lra|].
      intro T. rewrite map_app in T. cbn [map] in T. apply NoDup_remove in T. destruct T as [_ T]. exfalso. apply T. rewrite app_nil_r.
      apply in_map_iff. exists q. split; [|exact Iq]. rewrite C. apply cell_of_ok. exact E2.
Qed.
Print Assumptions C47_total_mass.
Example C47_total_mass_sat : exists (n : nat) (rs : list row) (f : field), grid_sources (Z.of_nat n) rs = Some f /\ (forall r, In r rs -> exists m, rmass r = Some m /\ 0 < m).
Proof. destruct (grid_sources (Z.of_nat 4) [Row 0 1 2 (Some 5); Row 3 3 3 (Some 2)]) as [f|] eqn:E; [|exfalso; vm_compute in E; discriminate]. exists 4%nat, [Row 0 1 2 (Some 5); Row 3 3 3 (Some 2)], f.
split; [exact E|]. intros r [<-|[<-|[]]]; cbn; eexists; (split; [reflexivity|lra]). Qed.

(** A token t in the file becomes the mass t * U when positive, NaN when negative. *)
Theorem C47_read_mass : forall U t, 0 < U -> (0 < t -> read_mass U t = Some (t * U)) /\ (t < 0 -> read_mass U t = None) /\ read_mass U 0 = Some 0.
Proof.
  intros U t HU. unfold read_mass. split; [|split].
  - intro Ht. assert (0 < t * U) by (apply Rmult_lt_0_compat; assumption). destruct (Rlt_dec 0 (t * U)); [|lra]. rewrite pow10_log10 by assumption. reflexivity.
  - intro Ht. assert (t * U < 0) by (replace 0 with (0 * U) by ring; apply Rmult_lt_compat_r; assumption).
    destruct (Rlt_dec 0 (t * U)); [lra|]. destruct (Req_EM_T (t * U) 0); [lra|reflexivity].
  - destruct (Rlt_dec 0 (0 * U)); [lra|]. destruct (Req_EM_T (0 * U) 0); [reflexivity|lra].
Qed.
Print Assumptions C47_read_mass.
Example C47_read_mass_sat : exists (U : R), 0 < U.
Proof. exists 2. repeat split; first [lra | lia | reflexivity | discriminate | congruence | auto]. Qed.

Definition one_mass (s : source) : Prop := exists m, masses s = [m].
Definition the_mass (s : source) : R := match masses s with m :: _ => m | [] => 0 end.
Lemma write_rows_nth : forall rnd U k ss i s, Forall one_mass ss -> nth_error ss i = Some s ->
  nth_error (write_rows rnd U k ss) (2 * i) = Some [TInt (sx s + 1); TInt (sy s + 1); TInt (sz s + 1); TReal (rnd (log_mass U (the_mass s)))].
Proof.
  intros rnd U k. induction ss as [|q ss IH]; intros i s F E; [destruct i; discriminate|].
  inversion F as [|? ? [m Hm] F']; subst. cbn [write_rows]. unfold mass_to_write. rewrite Hm. destruct i as [|i].
  - cbn in E. injection E as E. subst q. cbn. unfold the_mass. rewrite Hm. reflexivity.
  - cbn [nth_error] in E. replace (2 * S i)%nat with (S (S (2 * i))) by lia. cbn [nth_error]. apply IH; assumption.
Qed.
Lemma collect_map : forall {A B} (f : nat -> option B) (g : A -> B) (l : list A) n,
  (forall i a, nth_error l i = Some a -> f (n + i)%nat = Some (g a)) -> collect (map f (seq n (length l))) = Some (map g l).
Proof.
  intros A B f g. induction l as [|a l IH]; intros n H; [reflexivity|]. cbn [length seq map collect].
  specialize (H 0%nat a eq_refl) as H0. rewrite Nat.add_0_r in H0. rewrite H0.
  rewrite (IH (S n)); [reflexivity|]. intros i b E. replace (S n + i)%nat with (n + S i)%nat by lia. apply H. exact E.
Qed.
(** Positions survive a write and a read; the mass M comes back as what the token
    [log10(M*U)] means to the reader. *)
Theorem C47_write_read : forall rnd U k ss, ss <> [] -> Forall one_mass ss ->
  exists text, write_sources rnd U k ss = Some text /\
    read_sources U Hm text = Some (map (fun s => Row (sx s) (sy s) (sz s) (read_mass U (rnd (log_mass U (the_mass s))))) ss) /\
    read_sources U Lm text = None /\ read_sources U Both text = None.
Proof.
  intros rnd U k ss N F. unfold write_sources. destruct ss as [|s0 ss0]; [contradiction|]. set (ss := s0 :: ss0) in *.
  eexists. split; [reflexivity|]. unfold read_sources. rewrite Nat2Z.id.
  assert (R : forall i s, nth_error ss i = Some s -> nth_error (([TInt (Z.of_nat (length ss)); TReal 0]) :: write_rows rnd U k ss) (2 * i + 1) =
    Some [TInt (sx s + 1); TInt (sy s + 1); TInt (sz s + 1); TReal (rnd (log_mass U (the_mass s)))]).
  { intros i s E. replace (2 * i + 1)%nat with (S (2 * i)) by lia. cbn [nth_error]. apply write_rows_nth; assumption. }
  split; [|split].
  - apply collect_map. intros i s E. cbn [Nat.add]. rewrite (R i s E). cbn [read_row as_int mass_index nth_error as_float].
    do 2 f_equal; lia.
  - specialize (R 0%nat s0 eq_refl). change (length ss) with (S (length ss0)) in *. cbn [seq map]. rewrite R. reflexivity.
  - specialize (R 0%nat s0 eq_refl). change (length ss) with (S (length ss0)) in *. cbn [seq map]. rewrite R. reflexivity.
Qed.
Print Assumptions C47_write_read.
Example C47_write_read_sat : exists (ss : list source), ss <> [] /\ Forall one_mass ss.
Proof. exists [Src 0 1 2 [5]; Src 3 3 3 [2]]. split; [discriminate|]. repeat constructor; eexists; reflexivity. Qed.

(** So a positive mass comes back exactly iff it happens to be [U] times its own
    logarithm; masses below [1/U] and empty sources come back as NaN. *)
Theorem C47_mass_round_trip : forall rnd U m, 0 < U -> (forall x y, x <= y -> rnd x <= rnd y) -> rnd (-1) < 0 ->
  (0 < m -> 0 < rnd (log10 (m * U)) -> (read_mass U (rnd (log_mass U m)) = Some m <-> m = U * rnd (log10 (m * U)))) /\
  (m * U <= 1 / 10 -> read_mass U (rnd (log_mass U m)) = None).
Proof.
  intros rnd U m HU Mon R1. split.
  - intros Hm Hp. unfold log_mass. destruct (Rlt_dec 0 m); [|lra]. rewrite (proj1 (C47_read_mass U _ HU) Hp). split.
    + intro E. injection E as E. lra.
    + intro E. f_equal. rewrite E at 2. ring.
  - intro Hs. apply (proj1 (proj2 (C47_read_mass U _ HU))). unfold log_mass. apply Rle_lt_trans with (rnd (-1)); [apply Mon|exact R1].
    destruct (Rlt_dec 0 m) as [Hm|]; [|lra]. unfold log10. pose proof ln10_pos.
    apply Rmult_le_reg_r with (ln 10); [assumption|]. replace (ln (m * U) / ln 10 * ln 10) with (ln (m * U)) by (field; lra).
    replace (-1 * ln 10) with (ln (/ 10)) by (rewrite ln_Rinv by lra; ring).
    assert (0 < m * U) by (apply Rmult_lt_0_compat; assumption).
    destruct (Req_dec (m * U) (/ 10)) as [D|D]; [rewrite D; lra|]. left. apply ln_increasing; lra.
Qed.
Print Assumptions C47_mass_round_trip.
Example C47_mass_round_trip_sat : exists (rnd : R -> R) (U : R), 0 < U /\ ((forall x y, x <= y -> rnd x <= rnd y)) /\ rnd (-1) < 0.
Proof. exists (fun x => x), 10. repeat split; try lra. auto. Qed.

(** With two mass columns the writer keeps one: the second for low-mass sources, the first otherwise. *)
Theorem C47_written_column : forall rnd U k ss text, Forall (fun s => length (masses s) = 2%nat) ss -> write_sources rnd U k ss = Some text ->
  forall i s a b, nth_error ss i = Some s -> masses s = [a; b] ->
  nth_error text (2 * i + 1) = Some [TInt (sx s + 1); TInt (sy s + 1); TInt (sz s + 1); TReal (rnd (log_mass U (if match k with Lm => true | _ => false end then b else a)))].
Proof.
  intros rnd U k ss text F W i s a b E M. unfold write_sources in W. destruct ss as [|s0 ss0]; [discriminate|]. set (ss := s0 :: ss0) in *. clearbody ss. injection W as W. subst text.
  replace (2 * i + 1)%nat with (S (2 * i)) by lia. cbn [nth_error]. revert i E. induction ss as [|q ss IH]; intros i E; [destruct i; discriminate|].
  inversion F as [|? ? Hq F']; subst. cbn [write_rows]. unfold mass_to_write. destruct (masses q) as [|u [|v [|]]] eqn:Q; try discriminate. destruct i as [|i].
  - cbn in E. injection E as E. subst q. rewrite M in Q. injection Q as -> ->. cbn. destruct k; reflexivity.
  - cbn [nth_error] in E. replace (2 * S i)%nat with (S (S (2 * i))) by lia. cbn [nth_error]. apply IH; assumption.
Qed.
Print Assumptions C47_written_column.
Example C47_written_column_sat : exists (rnd : R -> R) (U : R) (k : kind) (ss : list source) (text : list (list token)), (Forall (fun s => length (masses s) = 2%nat) ss) /\ write_sources rnd U k ss = Some text /\ exists i s a b, nth_error ss i = Some s /\ masses s = [a; b].
Proof. eexists (fun x => x), 10, Both, [Src 0 1 2 [5; 6]], _. split; [repeat constructor|]. split; [reflexivity|]. exists 0%nat. do 3 eexists. split; reflexivity. Qed.

Example C47_sat :
  exists f, grid_sources 4 [Row 0 1 2 (Some 5); Row 3 3 3 (Some 2); Row 0 1 2 (Some 1); Row (-1) 0 0 (Some 7)] = Some f /\
    f (0, 1, 2)%Z = Some 1 /\ f (3, 0, 0)%Z = Some 7 /\ f (1, 1, 1)%Z = Some 0 /\
    grid_sources 4 [Row 4 0 0 (Some 1)] = None /\
    write_sources (fun x => x) 1 Hm [Src 0 1 2 [10]] = Some [[TInt 1; TReal 0]; [TInt 1; TInt 2; TInt 3; TReal (log_mass 1 10)]; []].
Proof. eexists. split; [reflexivity|]. repeat split; reflexivity. Qed.
