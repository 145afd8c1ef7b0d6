(** C37: the full catalogue reader with any limit. *)
From Coq Require Import List Arith ZArith QArith Bool Lia.
From Verif Require Import QLib HaloModel HaloProps.
Import ListNotations.
Local Open Scope nat_scope.

Lemma read_full unit mn mx num start : (forall x, mx = Some x -> ~ (x == 0)%Q) -> (0 <= num)%Z -> forall ls, Forall (fun l => wide l \/ length l = 1) ls ->
  forall number halos, (start <= number)%Z -> (Z.of_nat (length halos) <= num)%Z ->
  read_lines unit mn mx num start true number halos ls =
  let w := mass_in_window unit mn mx in
  Read (match ls with [] => true | _ => length halos + length (filter w (removelast ls)) <? Z.to_nat num end)
       (halos ++ map (halo_of unit) (firstn (Z.to_nat num - length halos) (filter w ls))).
Proof.
  intros M N ls W. cbv zeta. set (w := mass_in_window unit mn mx). induction W as [|l r Wl W IH]; intros number halos H LE.
  - cbn [read_lines filter]. rewrite firstn_nil. cbn [map]. rewrite app_nil_r. reflexivity.
  - cbn [read_lines]. destruct (Z.ltb_spec number start); [lia|]. destruct (Z.leb_spec 0 num); [|lia]. cbn [andb].
    assert (RL : forall (x : line) u, removelast (l :: x :: u) = l :: removelast (x :: u)) by reflexivity.
    destruct (Z.leb_spec num (Z.of_nat (length halos))) as [GE|LT].
    + replace (Z.to_nat num - length halos) with 0 by lia. cbn [firstn map]. rewrite app_nil_r.
      destruct (Nat.ltb_spec (length halos + length (filter w (removelast (l :: r)))) (Z.to_nat num)); [lia|reflexivity].
    + destruct (Nat.eqb_spec (length l) 1) as [L|L].
      * rewrite IH by lia. assert (Ew : w l = false) by (unfold w, mass_in_window, third_last; rewrite L; reflexivity).
        cbn [filter]. rewrite Ew. destruct r as [|x u].
        -- cbn [removelast filter length]. destruct (Nat.ltb_spec (length halos + 0) (Z.to_nat num)); [reflexivity|lia].
        -- rewrite RL. cbn [filter]. rewrite Ew. reflexivity.
      * destruct Wl as [Wl|Wl]; [|contradiction]. destruct (third_wide l Wl) as [g T].
        rewrite T, (window_ok unit mn mx l g M T), (make_halo_wide unit l g Wl T). fold w. destruct (w l) eqn:Ew.
        -- rewrite IH by (try rewrite app_length; cbn [length]; lia). rewrite app_length. cbn [length filter]. rewrite Ew.
           replace (Z.to_nat num - length halos) with (S (Z.to_nat num - (length halos + 1))) by lia. cbn [firstn map]. rewrite <- app_assoc. cbn [app].
           destruct r as [|x u].
           ++ cbn [removelast filter length]. destruct (Nat.ltb_spec (length halos + 0) (Z.to_nat num)); [reflexivity|lia].
           ++ rewrite RL. cbn [filter]. rewrite Ew. cbn [length].
              replace (length halos + 1 + length (filter w (removelast (x :: u)))) with (length halos + S (length (filter w (removelast (x :: u))))) by lia. reflexivity.
        -- rewrite IH by lia. cbn [filter]. rewrite Ew. destruct r as [|x u].
           ++ cbn [removelast filter length]. destruct (Nat.ltb_spec (length halos + 0) (Z.to_nat num)); [reflexivity|lia].
           ++ rewrite RL. cbn [filter]. rewrite Ew. reflexivity.
Qed.

(** Reading a full catalogue, whose lines have 19 columns or more or else a single number: the haloes are the first [max_number] of the
    lines from [startline] on that lie strictly inside the mass window; lines with one number are counted as lines but never as haloes. True
    is returned iff the limit was not reached before the last line, even if that line is one of a single number. *)
Theorem C37_full_catalogue_limit : forall unit min_mass max_mass startline ls max_number,
  Forall (fun l => wide l \/ length l = 1) ls -> (forall x, max_mass = Some x -> ~ (x == 0)%Q) -> (0 <= max_number)%Z ->
  let tail := skipn (Z.to_nat (startline - 1)) ls in
  let selected := filter (mass_in_window unit min_mass max_mass) in
  HaloCubeP3MFull_read unit min_mass max_mass max_number startline ls =
  Read (match tail with [] => true | _ => length (selected (removelast tail)) <? Z.to_nat max_number end)
       (map (halo_of unit) (firstn (Z.to_nat max_number) (selected tail))).
Proof.
  intros unit mn mx start ls num W M N tail selected. unfold HaloCubeP3MFull_read.
  assert (WT : Forall (fun l => wide l \/ length l = 1) tail).
  { unfold tail. rewrite Forall_forall in *. intros l Hl. apply W. rewrite <- (firstn_skipn (Z.to_nat (start - 1)) ls). apply in_or_app. right. exact Hl. }
  assert (E : read_lines unit mn mx num start true 1 [] ls = read_lines unit mn mx num start true (Z.max 1 start) [] tail).
  { destruct (Z.le_gt_cases 1 start) as [L|L].
    - rewrite (skip_start unit mn mx num start true ls 1 [] L). rewrite Z.max_r by lia. reflexivity.
    - rewrite Z.max_l by lia. unfold tail. replace (Z.to_nat (start - 1)) with 0 by lia. reflexivity. }
  rewrite E, (read_full unit mn mx num start M N tail WT (Z.max 1 start) []) by (cbn; lia). cbn [length app]. rewrite Nat.sub_0_r. reflexivity.
Qed.
Print Assumptions C37_full_catalogue_limit.
Example C37_full_catalogue_limit_sat : exists (max_mass : option Q) (ls : list line) (max_number : Z), ((Forall (fun l => wide l \/ length l = 1) ls)) /\ ((forall x, max_mass = Some x -> ~ (x == 0)%Q)) /\ (0 <= max_number)%Z.
Proof. exists (Some (5#1)%Q), [repeat 1%Q 19; [2%Q]], 3%Z. split; [repeat constructor; cbn; lia|]. split; [intros x E; injection E as <-; discriminate|lia]. Qed.

(** A comment line, a halo and another halo: with a limit of one the reader stops at the second halo and says so; with the second
    left out of the file it has read everything. *)
Example C37_full_limit_sat : let row (g : Q) := repeat 0%Q 16 ++ [g; 0; 0]%Q in
  HaloCubeP3MFull_read 1 0 None 1 0 [[5%Q]; row 2%Q; row 3%Q] = Read false [halo_of 1 (row 2%Q)] /\
  HaloCubeP3MFull_read 1 0 None 1 0 [[5%Q]; row 2%Q] = Read true [halo_of 1 (row 2%Q)] /\
  HaloCubeP3MFull_read 1 0 None 1 0 [row 2%Q; [5%Q]] = Read false [halo_of 1 (row 2%Q)].
Proof. repeat split. Qed.
