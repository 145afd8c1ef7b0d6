(** C37: halo readers. *)
From Coq Require Import List Arith ZArith QArith Bool Lia Lqa.
From Verif Require Import QLib HaloModel.
Import ListNotations.
Local Open Scope nat_scope.

(** Mass column that decides, and the strict window in solar masses. *)
Definition mass_in_window (unit min_mass : Q) (max_mass : option Q) (l : line) : bool :=
  match third_last l with
  | Some g => Qltb (min_mass / unit)%Q g && match max_mass with None => true | Some x => Qltb g (x / unit)%Q end
  | None => false
  end.
Definition wide (l : line) : Prop := 19 <= length l.
(** What a selected line becomes. *)
Definition halo_of (unit : Q) (l : line) : halo :=
  Halo (firstn 3 l) (slice 3 6 l) (slice 6 9 l) (slice 9 12 l) (slice 12 15 l) (nth 16 l 0%Q) (nth 17 l 0%Q)
       (nth (length l - 3) l 0%Q * unit)%Q.

Lemma make_halo_wide unit l g : wide l -> third_last l = Some g -> make_halo unit l g = Some (halo_of unit l).
Proof.
  intros W T. unfold wide in W. unfold third_last in T. destruct (Nat.ltb_spec (length l) 3); [lia|].
  unfold make_halo, halo_of. rewrite !(nth_error_nth' l 0%Q) by lia. rewrite (nth_error_nth' l 0%Q) in T by lia.
  injection T as <-. reflexivity.
Qed.
Lemma third_wide l : wide l -> exists g, third_last l = Some g.
Proof.
  intro W. unfold wide in W. unfold third_last. destruct (Nat.ltb_spec (length l) 3); [lia|].
  eexists. apply (nth_error_nth' l 0%Q). lia.
Qed.
Lemma window_ok unit min_mass max_mass l g : (forall x, max_mass = Some x -> ~ (x == 0)%Q) -> third_last l = Some g ->
  in_window unit min_mass max_mass g = Some (mass_in_window unit min_mass max_mass l).
Proof.
  intros M T. unfold in_window, mass_in_window. rewrite T. destruct (Qltb (min_mass / unit) g); [|reflexivity].
  destruct max_mass as [x|]; [|reflexivity]. destruct (Qeq_bool x 0) eqn:E; [|reflexivity].
  apply Qeq_bool_iff in E. exfalso. apply (M x eq_refl E).
Qed.

Lemma skip_start unit mn mx num start sk : forall ls number halos, (number <= start)%Z ->
  read_lines unit mn mx num start sk number halos ls =
  read_lines unit mn mx num start sk start halos (skipn (Z.to_nat (start - number)) ls).
Proof.
  induction ls as [|l r IH]; intros number halos H.
  - rewrite skipn_nil. reflexivity.
  - destruct (Z.eq_dec number start) as [->|N].
    + rewrite Z.sub_diag. reflexivity.
    + replace (Z.to_nat (start - number)) with (S (Z.to_nat (start - (number + 1)))) by lia. cbn [skipn read_lines].
      destruct (Z.ltb_spec number start); [|lia]. apply IH. lia.
Qed.

(** Loop once the start line is reached, for lines that are not skipped. *)
Lemma read_main unit mn mx num start sk : (forall x, mx = Some x -> ~ (x == 0)%Q) -> forall ls, Forall wide ls ->
  forall number halos, (start <= number)%Z ->
  read_lines unit mn mx num start sk number halos ls =
  let w := mass_in_window unit mn mx in
  if (num <? 0)%Z then Read true (halos ++ map (halo_of unit) (filter w ls))
  else if (Z.of_nat (length halos) <? num)%Z || match ls with [] => true | _ => false end
       then let k := Z.to_nat num - length halos in
            Read (match ls with [] => true | _ => length (filter w (removelast ls)) <? k end)
                 (halos ++ map (halo_of unit) (firstn k (filter w ls)))
       else Read false halos.
Proof.
  intros M ls W. induction W as [|l r Wl W IH]; intros number halos H; cbv zeta.
  - cbn [read_lines filter map]. rewrite app_nil_r. destruct (Z.ltb_spec num 0); [reflexivity|]. rewrite orb_true_r, firstn_nil. cbn [map].
    rewrite app_nil_r. reflexivity.
  - cbn [read_lines]. destruct (Z.ltb_spec number start); [lia|]. clear H0.
    assert (L1 : sk && Nat.eqb (length l) 1 = false).
    { unfold wide in Wl. destruct (Nat.eqb_spec (length l) 1); [lia|]. apply andb_false_r. }
    rewrite L1. destruct (third_wide l Wl) as [g T]. rewrite T, (window_ok unit mn mx l g M T), (make_halo_wide unit l g Wl T).
    set (w := mass_in_window unit mn mx). cbv zeta in IH. fold w in IH.
    destruct (Z.ltb_spec num 0) as [N|N].
    + destruct (Z.leb_spec 0 num); [lia|]. cbn [andb filter]. destruct (w l).
      * rewrite IH by lia. rewrite <- app_assoc. reflexivity.
      * rewrite IH by lia. reflexivity.
    + destruct (Z.leb_spec 0 num); [|lia]. rewrite orb_false_r. cbn [andb].
      destruct (Z.ltb_spec (Z.of_nat (length halos)) num) as [LT|GE]; (destruct (Z.leb_spec num (Z.of_nat (length halos))); try lia); [|reflexivity].
      assert (RL : forall (x : line) u, removelast (l :: x :: u) = l :: removelast (x :: u)) by reflexivity.
      cbn [filter]. destruct (w l) eqn:Ew.
      * rewrite IH by lia. rewrite app_length. cbn [length].
        destruct r as [|x u].
        -- rewrite orb_true_r. cbn [filter removelast length]. rewrite !firstn_nil. cbn [map]. rewrite app_nil_r.
           destruct (Z.to_nat num - length halos) as [|k] eqn:K; [lia|]. cbn [firstn map]. rewrite firstn_nil. reflexivity.
        -- rewrite orb_false_r. rewrite RL. cbn [filter]. rewrite Ew. cbn [length].
           destruct (Z.ltb_spec (Z.of_nat (length halos + 1)) num) as [LT'|GE'].
           ++ replace (Z.to_nat num - length halos) with (S (Z.to_nat num - (length halos + 1))) by lia. cbn [firstn map].
              rewrite <- app_assoc. cbn [app]. f_equal.
           ++ replace (Z.to_nat num - length halos) with 1 by lia.
              change (S (length (filter w (removelast (x :: u)))) <? 1) with false.
              cbn [firstn map]. reflexivity.
      * rewrite IH by lia. destruct r as [|x u].
        -- rewrite orb_true_r. cbn [filter removelast length]. rewrite !firstn_nil. cbn [map].
           destruct (Nat.ltb_spec 0 (Z.to_nat num - length halos)); [reflexivity|lia].
        -- rewrite orb_false_r, RL. cbn [filter]. rewrite Ew. destruct (Z.ltb_spec (Z.of_nat (length halos)) num); [reflexivity|lia].
Qed.

(** Reading a file whose lines have at least 19 columns: the haloes are the first
    [max_number] (all, if negative) of the lines from [startline] on (0 and 1 both mean the
    first line) that are strictly inside the mass window, in file order. The return value is
    True iff the limit was not reached before the last line. *)
Theorem C37_halo_list : forall unit min_mass max_mass max_number startline ls,
  Forall wide ls -> (forall x, max_mass = Some x -> ~ (x == 0)%Q) ->
  let tail := skipn (Z.to_nat (startline - 1)) ls in
  let selected := filter (mass_in_window unit min_mass max_mass) tail in
  HaloList_read unit min_mass max_mass max_number startline ls =
    (if (max_number <? 0)%Z then Read true (map (halo_of unit) selected)
     else Read (match tail with [] => true | _ => length (filter (mass_in_window unit min_mass max_mass) (removelast tail)) <? Z.to_nat max_number end)
               (map (halo_of unit) (firstn (Z.to_nat max_number) selected))).
Proof.
  intros unit mn mx num start ls W M tail selected. unfold HaloList_read.
  assert (WT : Forall wide tail).
  { unfold tail. rewrite Forall_forall in *. intros l Hl. apply W. rewrite <- (firstn_skipn (Z.to_nat (start - 1)) ls). apply in_or_app. right. exact Hl. }
  assert (E : read_lines unit mn mx num start false 1 [] ls = read_lines unit mn mx num start false (Z.max 1 start) [] tail).
  { destruct (Z.le_gt_cases 1 start) as [L|L].
    - rewrite (skip_start unit mn mx num start false ls 1 [] L). rewrite Z.max_r by lia. reflexivity.
    - rewrite Z.max_l by lia. unfold tail. replace (Z.to_nat (start - 1)) with 0 by lia. reflexivity. }
  rewrite E, (read_main unit mn mx num start false M tail WT (Z.max 1 start) [] ltac:(lia)). cbv zeta. fold selected.
  destruct (Z.ltb_spec num 0) as [N|N]; [reflexivity|]. cbn [length app]. rewrite Nat.sub_0_r.
  destruct tail as [|l r] eqn:ET.
  - rewrite orb_true_r. reflexivity.
  - rewrite orb_false_r. destruct (Z.ltb_spec (Z.of_nat 0) num) as [P|P]; [reflexivity|].
    replace (Z.to_nat num) with 0 by lia. cbn [firstn map]. destruct (length _); reflexivity.
Qed.
Print Assumptions C37_halo_list.
Example C37_halo_list_sat : exists (max_mass : option Q) (ls : list line), Forall wide ls /\ (forall x, max_mass = Some x -> ~ (x == 0)%Q).
Proof. exists (Some (5#1)%Q), [repeat 1%Q 19; repeat 2%Q 20]. split; [repeat constructor; cbn; lia|]. intros x E; injection E as <-; discriminate. Qed.

(** The full catalogue reader does the same with single-number lines left out of the count
    of haloes (but not of the line numbers). *)
Theorem C37_full_catalogue : forall unit min_mass max_mass startline ls max_number,
  Forall (fun l => wide l \/ length l = 1) ls -> (forall x, max_mass = Some x -> ~ (x == 0)%Q) -> (max_number < 0)%Z ->
  HaloCubeP3MFull_read unit min_mass max_mass max_number startline ls =
  Read true (map (halo_of unit) (filter (mass_in_window unit min_mass max_mass) (skipn (Z.to_nat (startline - 1)) ls))).
Proof.
  intros unit mn mx start ls num W M N. unfold HaloCubeP3MFull_read.
  assert (G : forall u number halos, (start <= number)%Z -> Forall (fun l => wide l \/ length l = 1) u ->
    read_lines unit mn mx num start true number halos u = Read true (halos ++ map (halo_of unit) (filter (mass_in_window unit mn mx) u))).
  { induction u as [|l r IH]; intros number halos H Wu; [rewrite app_nil_r; reflexivity|]. inversion Wu as [|? ? Wl Wr]; subst.
    cbn [read_lines filter]. destruct (Z.ltb_spec number start); [lia|]. destruct (Z.leb_spec 0 num); [lia|]. cbn [andb].
    destruct (Nat.eqb_spec (length l) 1) as [L|L].
    - rewrite IH by (try lia; assumption). replace (mass_in_window unit mn mx l) with false; [reflexivity|].
      unfold mass_in_window, third_last. rewrite L. reflexivity.
    - destruct Wl as [Wl|Wl]; [|contradiction]. destruct (third_wide l Wl) as [g T].
      rewrite T, (window_ok unit mn mx l g M T), (make_halo_wide unit l g Wl T). destruct (mass_in_window unit mn mx l).
      + rewrite IH by (try lia; assumption). rewrite <- app_assoc. reflexivity.
      + rewrite IH by (try lia; assumption). reflexivity. }
  destruct (Z.le_gt_cases 1 start) as [L|L].
  - rewrite (skip_start unit mn mx num start true ls 1 [] L). rewrite G; [reflexivity|lia|].
    rewrite Forall_forall in *. intros l Hl. apply W. rewrite <- (firstn_skipn (Z.to_nat (start - 1)) ls). apply in_or_app. right. exact Hl.
  - replace (Z.to_nat (start - 1)) with 0 by lia. apply G; [lia|exact W].
Qed.
Print Assumptions C37_full_catalogue.
Example C37_full_catalogue_sat : exists (max_mass : option Q) (ls : list line) (max_number : Z), ((Forall (fun l => wide l \/ length l = 1) ls)) /\ ((forall x, max_mass = Some x -> ~ (x == 0)%Q)) /\ (max_number < 0)%Z.
Proof. exists (Some (5#1)%Q), [repeat 1%Q 19; [2%Q]], (-1)%Z. split; [repeat constructor; unfold wide; cbn; lia|]. split; [intros x E; injection E as <-; discriminate|lia]. Qed.

(** Which column decides: with 19 columns the one stored as the halo's mass, with 22 (the
    three shape columns present) the first shape column. *)
Theorem C37_mass_column : forall unit l,
  (length l = 19 -> third_last l = Some (m (halo_of unit l)) /\ solar_masses (halo_of unit l) = (m (halo_of unit l) * unit)%Q) /\
  (length l = 22 -> third_last l = Some (nth 19 l 0%Q)).
Proof.
  intros unit l. split; intro L; unfold third_last; rewrite L; cbn [Nat.ltb Nat.leb].
  - split; [apply (nth_error_nth' l 0%Q); lia|]. unfold halo_of. cbn [m solar_masses]. rewrite L. reflexivity.
  - apply (nth_error_nth' l 0%Q). lia.
Qed.
Print Assumptions C37_mass_column.

(** An upper mass of 0 is not "nothing": it raises as soon as a halo above the lower
    mass is met, and otherwise is ignored. *)
Theorem C37_zero_upper_mass : forall unit min_mass max_number l r g,
  third_last l = Some g -> (max_number < 0)%Z -> (min_mass / unit < g)%Q ->
  HaloList_read unit min_mass (Some 0%Q) max_number 0 (l :: r) = Raised.
Proof.
  intros unit mn num l r g T N G. unfold HaloList_read. cbn [read_lines]. change (1 <? 0)%Z with false. cbn [andb].
  destruct (Z.leb_spec 0 num); [lia|]. cbn [andb]. rewrite T. unfold in_window. apply Qltb_true in G. rewrite G. reflexivity.
Qed.
Print Assumptions C37_zero_upper_mass.
Example C37_zero_upper_mass_sat : exists (unit : Q) (min_mass : Q) (max_number : Z) (l : line) (g : Q), third_last l = Some g /\ (max_number < 0)%Z /\ (min_mass / unit < g)%Q.
Proof. exists 2%Q, 1%Q, (-1)%Z, [1; 7; 0; 0]%Q, 7%Q. repeat split. Qed.

(** The Rockstar reader: a negative limit reads everything, but any limit >= 0 reads no
    halo at all; it always returns True. *)
Theorem C37_rockstar_limit : forall (H : Type) (make : line -> H) max_number data,
  HaloRockstar_read make max_number data = ((if (max_number <? 0)%Z then map make data else []), true).
Proof.
  intros H make num data. unfold HaloRockstar_read. f_equal.
  destruct (Z.ltb_spec num 0) as [N|N].
  - assert (G : forall ls hs, rockstar_lines make num hs ls = hs ++ map make ls).
    { induction ls as [|l r IH]; intro hs; cbn [rockstar_lines map]; [rewrite app_nil_r; reflexivity|].
      destruct (Z.ltb_spec num (Z.of_nat (length hs))); [|lia]. rewrite IH, <- app_assoc. reflexivity. }
    apply G.
  - destruct data as [|l r]; [reflexivity|]. cbn [rockstar_lines length]. destruct (Z.ltb_spec num (Z.of_nat 0)); [lia|reflexivity].
Qed.
Print Assumptions C37_rockstar_limit.

(** Positions are moved by one box length; they end up inside iff they were at most one
    box length outside. *)
Theorem C37_reposition : forall box x, (0 < box)%Q ->
  (reposition box x == x \/ reposition box x == x + box \/ reposition box x == x - box)%Q /\
  ((0 <= reposition box x <= box)%Q <-> (- box <= x <= 2 * box)%Q).
Proof.
  intros box x B. unfold reposition. destruct (Qltb x 0) eqn:E1.
  - apply Qltb_true in E1. split; [right; left; ring|]. split; intros [U V]; split; lra.
  - apply Qltb_false in E1. destruct (Qltb box x) eqn:E2.
    + apply Qltb_true in E2. split; [right; right; reflexivity|]. split; intros [U V]; split; lra.
    + apply Qltb_false in E2. split; [left; reflexivity|]. split; intros [U V]; split; lra.
Qed.
Print Assumptions C37_reposition.
Example C37_reposition_sat : exists (box : Q), (0 < box)%Q.
Proof. exists 100%Q. repeat split; first [lra | lia | reflexivity | discriminate | congruence | auto]. Qed.

Definition ex_line (k : Z) : line := map inject_Z (map Z.of_nat (seq 0 16) ++ [k; 1; 1]%Z).
Example C37_sat : Forall wide [ex_line 5; ex_line 9; ex_line 7] /\
  HaloList_read 1 4 (Some (8 # 1)) 1 0 [ex_line 5; ex_line 9; ex_line 7] = Read false [halo_of 1 (ex_line 5)] /\
  HaloList_read 1 4 (Some (8 # 1)) (-1) 2 [ex_line 5; ex_line 9; ex_line 7] = Read true [halo_of 1 (ex_line 7)].
Proof. split; [repeat constructor; cbn; lia|]. split; vm_compute; reflexivity. Qed.
