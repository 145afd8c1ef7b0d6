(** Properties C18-C20 and C56-C58: light cones. *)
From Coq Require Import List Arith ZArith QArith Qabs Bool Lia Lqa.
From Verif Require Import LcModel LcSpec LcProofs.
Import ListNotations.
Local Open Scope nat_scope.

(** ** C18 *)

(** Non-decreasing output redshifts that never skip a snapshot: every slice uses the
    right two snapshots. *)
Theorem C18_lightcone_slices : forall data slice (interp : data -> data -> Q -> Q -> Q -> nat -> slice) fz files zs out,
  chain (fun x y => (x <= y)%Q /\ no_skip fz x y) zs ->
  lightcone_of interp fz files zs = Some out ->
  length out = length zs /\
  forall k z o, nth_error zs k = Some z -> nth_error out k = Some o -> slice_ok interp fz files z k o.
Proof.
  intros data slice interp fz files zs out C. unfold lightcone_of.
  destruct (Nat.eqb_spec (length fz) (length files)) as [len|]; [|discriminate].
  destruct zs as [|z zs]; cbn [lloop]; [intros H; injection H as <-; split; [reflexivity|intros [|k]; discriminate]|].
  destruct (lstep interp fz files true start z 0) as [[s o]|] eqn:E; [|discriminate].
  destruct (lloop interp fz files true s zs 1) as [out'|] eqn:E'; [|discriminate].
  cbn [option_map]. intros H. injection H as <-.
  apply first_step in E as [S O]; [|assumption].
  destruct (loop_correct interp fz files len true zs z 1 s out' S (or_intror C) E') as [L1 L2].
  split; [cbn; lia|]. intros [|k] z' o' Hz Ho; [now injection Hz as <-; injection Ho as <-|].
  now apply (L2 k).
Qed.
Print Assumptions C18_lightcone_slices.
Example C18_lightcone_slices_sat : exists (data : Type) (slice : Type) (interp : data -> data -> Q -> Q -> Q -> nat -> slice) (fz : list Q) (files : list data) (zs : list Q) (out : list slice), (chain (fun x y => (x <= y)%Q /\ no_skip fz x y) zs) /\ lightcone_of interp fz files zs = Some out.
Proof. eexists Q, Q, (fun _ a _ _ _ _ => a), [8; 7; 6]%Q, [80; 70; 60]%Q, [61#10; 65#10; 71#10]%Q, _. split; [|vm_compute; reflexivity]. intros [|[|[|k]]] x y A B; cbn in A, B; try discriminate; injection A as <-; injection B as <-; (split; [discriminate|]); intros a b [<-|[<-|[<-|[]]]] [<-|[<-|[<-|[]]]] [P Q] [P' Q']; try reflexivity; unfold Qle, Qlt in *; cbn in *; lia. Qed.

(** Whenever the low bracket changes from one slice to the next, the low snapshot of
    the new slice is the one just above the previous redshift; it is the wrong one
    exactly when a snapshot was skipped. Holds for every list of redshifts. *)
Theorem C18_lightcone_low_snapshot : forall data slice (interp : data -> data -> Q -> Q -> Q -> nat -> slice) fz files zs out k z1 z2 o l1 l2,
  lightcone_of interp fz files zs = Some out ->
  nth_error zs k = Some z1 -> nth_error zs (S k) = Some z2 -> nth_error out (S k) = Some o ->
  is_low fz z1 l1 -> is_low fz z2 l2 -> ~ (l1 == l2)%Q ->
  exists used h2 a b, is_high fz z1 used /\ snapshot fz files used a
    /\ is_high fz z2 h2 /\ snapshot fz files h2 b
    /\ (exists l, (l == l2)%Q /\ o = interp b a h2 l z2 (S k))
    /\ ((z1 <= z2)%Q -> ((used == l2)%Q <-> no_skip fz z1 z2)).
Proof.
  intros data slice interp fz files zs out k z1 z2 o l1 l2. unfold lightcone_of.
  destruct (Nat.eqb_spec (length fz) (length files)) as [len|]; [|discriminate].
  destruct zs as [|z zs]; cbn [lloop]; [destruct k; discriminate|].
  destruct (lstep interp fz files true start z 0) as [[s o0]|] eqn:E; [|discriminate].
  destruct (lloop interp fz files true s zs 1) as [out'|] eqn:E'; [|discriminate].
  cbn [option_map]. intros H. injection H as <-. intros H1 H2 H3 L1 L2 N.
  apply first_step in E as [S _]; [|assumption].
  destruct (loop_stale interp fz files len zs z 1 s out' (ex_intro _ true S) E' k z1 z2 o l1 l2 H1 H2 H3 L1 L2 N)
    as (h & h' & a & b & A1 & A2 & A3 & A4 & A5).
  exists h, h', a, b. split; [assumption|]. split; [assumption|]. split; [assumption|]. split; [assumption|].
  split; [assumption|]. intros Hz.
  destruct A1 as (Ih & Lh & Mh). destruct L1 as (I1 & B1 & M1). destruct L2 as (I2 & B2 & M2).
  assert (l1 <= l2)%Q by (apply M2; [assumption|lra]).
  assert (P : (z1 < l2)%Q) by (apply Qnot_le_lt; intros G; specialize (M1 l2 I2 G); lra).
  split.
  - intros Eh x y Ix Iy [X1 X2] [Y1 Y2].
    pose proof (Mh x Ix X1). pose proof (Mh y Iy Y1). pose proof (M2 x Ix X2). pose proof (M2 y Iy Y2). lra.
  - intros NS. apply NS; try assumption; split; try lra. specialize (Mh l2 I2 P). lra.
Qed.
Print Assumptions C18_lightcone_low_snapshot.
Example C18_lightcone_low_snapshot_sat : exists (data : Type) (slice : Type) (interp : data -> data -> Q -> Q -> Q -> nat -> slice) (fz : list Q) (files : list data) (zs : list Q) (out : list slice) (k : nat) (z1 : Q) (z2 : Q) (o : slice) (l1 : Q) (l2 : Q), lightcone_of interp fz files zs = Some out /\ nth_error zs k = Some z1 /\ nth_error zs (S k) = Some z2 /\ nth_error out (S k) = Some o /\ is_low fz z1 l1 /\ is_low fz z2 l2 /\ ~ (l1 == l2)%Q.
Proof. eexists Q, Q, (fun _ a _ _ _ _ => a), [8; 7; 6]%Q, [80; 70; 60]%Q, [61#10; 65#10; 71#10]%Q, _, 1, _, _, _, 6%Q, 7%Q. split; [vm_compute; reflexivity|]. split; [reflexivity|]. split; [reflexivity|]. split; [reflexivity|].
  split; [|split; [|discriminate]]; (split; [cbn; tauto|]; split; [discriminate|]; intros x [<-|[<-|[<-|[]]]] L; unfold Qle in *; cbn in *; lia). Qed.

(** The velocity light cone re-reads its files: no condition on the redshifts. *)
Theorem C18_velocity_slices : forall data slice (interp : data -> data -> Q -> Q -> Q -> nat -> slice) fz files zs out,
  velocity_lightcone_of interp fz files zs = Some out ->
  length out = length zs /\
  forall k z o, nth_error zs k = Some z -> nth_error out k = Some o -> slice_ok interp fz files z k o.
Proof.
  intros data slice interp fz files zs out. unfold velocity_lightcone_of.
  destruct (Nat.eqb_spec (length fz) (length files)) as [len|]; [|discriminate].
  destruct zs as [|z zs]; cbn [lloop]; [intros H; injection H as <-; split; [reflexivity|intros [|k]; discriminate]|].
  destruct (lstep interp fz files false start z 0) as [[s o]|] eqn:E; [|discriminate].
  destruct (lloop interp fz files false s zs 1) as [out'|] eqn:E'; [|discriminate].
  cbn [option_map]. intros H. injection H as <-.
  apply first_step in E as [S O]; [|assumption].
  destruct (loop_correct interp fz files len false zs z 1 s out' S (or_introl eq_refl) E') as [L1 L2].
  split; [cbn; lia|]. intros [|k] z' o' Hz Ho; [now injection Hz as <-; injection Ho as <-|].
  now apply (L2 k).
Qed.
Print Assumptions C18_velocity_slices.
Example C18_velocity_slices_sat : exists (data : Type) (slice : Type) (interp : data -> data -> Q -> Q -> Q -> nat -> slice) (fz : list Q) (files : list data) (zs : list Q) (out : list slice), velocity_lightcone_of interp fz files zs = Some out.
Proof. eexists Q, Q, (fun _ a _ _ _ _ => a), [8; 7; 6]%Q, [80; 70; 60]%Q, [61#10; 65#10; 71#10]%Q, _. vm_compute. reflexivity. Qed.

(** An exception is raised exactly when the numbers of files and redshifts differ, or
    some output redshift lies below all snapshots or not below the last. *)
Theorem C18_lightcone_raises : forall data slice (interp : data -> data -> Q -> Q -> Q -> nat -> slice) fz files zs,
  lightcone_of interp fz files zs = None <->
  length fz <> length files \/
  exists z, In z zs /\ ((forall x, In x fz -> (z < x)%Q) \/ (forall x, In x fz -> (x <= z)%Q)).
Proof.
  intros data slice interp fz files zs. unfold lightcone_of.
  destruct (Nat.eqb_spec (length fz) (length files)) as [len|N].
  - rewrite (loop_defined interp fz files len true zs 0 start (or_introl eq_refl)). tauto.
  - tauto.
Qed.
Print Assumptions C18_lightcone_raises.

(** The full claim (no condition on skipping) is false: a skipped snapshot interval. *)
Definition show (dh dl : nat) (zh zl z : Q) (k : nat) : nat * nat := (dl, dh).
Theorem C18_lightcone_slices_refuted : exists fz (files : list nat) zs out k z o,
  chain (fun x y => (x <= y)%Q) zs /\ lightcone_of show fz files zs = Some out /\
  nth_error zs k = Some z /\ nth_error out k = Some o /\ ~ slice_ok show fz files z k o.
Proof.
  exists [6; 7; 8; 9]%Q, [0; 1; 2; 3], [13 # 2; 17 # 2]%Q, [(0, 1); (1, 3)], 1, (17 # 2)%Q, (1, 3).
  split; [intros [|[|[|k]]] x y H1 H2; try discriminate; injection H1 as <-; injection H2 as <-; unfold Qle; cbn; lia|].
  split; [vm_compute; reflexivity|]. split; [reflexivity|]. split; [reflexivity|].
  intros (l & h & dl & dh & (L1 & L2 & L3) & _ & (i & zi & S1 & S2 & S3 & _) & _ & E).
  injection E as <- <-.
  assert (G : (8 <= l)%Q) by (apply L3; [cbn; auto|unfold Qle; cbn; lia]).
  destruct i as [|[|i]]; cbn in S1, S3.
  - discriminate.
  - injection S1 as <-. rewrite <- S2 in G. unfold Qle in G. cbn in G. lia.
  - destruct i as [|[|i]]; cbn in S3; try discriminate. destruct i; discriminate.
Qed.
Print Assumptions C18_lightcone_slices_refuted.

(** [make_lightcone] with [depth_mhz] and the default [z_high] always raises: the first
    output redshift is the last snapshot, which nothing lies above. *)
Theorem C18_depth_mhz_raises : forall data slice (interp : data -> data -> Q -> Q -> Q -> nat -> slice) fuel fz files z_low a,
  make_lightcone_mhz interp fuel fz files z_low None a = None.
Proof.
  intros data slice interp fuel fz files z_low a. unfold make_lightcone_mhz. cbn [dflt].
  destruct (dflt z_low (list_min fz)) as [lo|]; [|reflexivity].
  destruct (list_max fz) as [hi|] eqn:Eh; [|reflexivity].
  destruct (redshifts_equal_frequency fuel lo hi a) as [out|] eqn:Eo; [|reflexivity].
  destruct (truncate_z fz out) as [zs|] eqn:Et; [|reflexivity].
  assert (Hout : In hi out).
  { unfold redshifts_equal_frequency in Eo. destruct (Qltb lo hi) eqn:C; [|discriminate].
    destruct fuel as [|fuel]; cbn [freq_loop] in Eo; rewrite C in Eo; [discriminate|].
    destruct (freq_loop fuel a lo (freq_next a hi)); [|discriminate]. cbn in Eo. injection Eo as <-.
    apply in_or_app. right. now left. }
  destruct (list_max_spec _ _ Eh) as [Hh1 Hh2].
  assert (Hzs : In hi zs).
  { unfold truncate_z in Et. destruct (list_min fz) as [mn|] eqn:Em; [|discriminate]. rewrite Eh in Et.
    destruct (list_min_spec _ _ Em) as [_ Hm].
    assert (K : In hi (filter (fun z => Qle_bool mn z && Qle_bool z hi) out)).
    { apply filter_In. split; [assumption|]. rewrite andb_true_iff, !Qle_bool_iff. split; [now apply Hm|lra]. }
    destruct (filter _ out) as [|y ys]; [discriminate|]. injection Et as <-. exact K. }
  replace (lightcone_of interp fz files zs) with (@None (list slice)); [reflexivity|].
  symmetry. apply C18_lightcone_raises. right. exists hi. split; [assumption|]. right. exact Hh2.
Qed.
Print Assumptions C18_depth_mhz_raises.

Example C18_sat :
  lightcone_of show [6; 7; 8; 9]%Q [0; 1; 2; 3] [13 # 2; 15 # 2; 8; 17 # 2]%Q = Some [(0, 1); (1, 2); (2, 3); (2, 3)]
  /\ chain (fun x y => (x <= y)%Q /\ no_skip [6; 7; 8; 9]%Q x y) [13 # 2; 15 # 2; 8; 17 # 2]%Q
  /\ lightcone_of show [6; 7; 8; 9]%Q [0; 1; 2; 3] [13 # 2; 17 # 2]%Q = Some [(0, 1); (1, 3)]
  /\ velocity_lightcone_of show [6; 7; 8; 9]%Q [0; 1; 2; 3] [13 # 2; 17 # 2]%Q = Some [(0, 1); (2, 3)]
  /\ lightcone_of show [6; 7]%Q [0; 1] [7]%Q = None.
Proof.
  split; [reflexivity|]. split; [|repeat split].
  intros [|[|[|[|k]]]] x y H1 H2; try discriminate; injection H1 as <-; injection H2 as <-;
    (split; [unfold Qle; cbn; lia|]); intros a b [<-|[<-|[<-|[<-|[]]]]] [<-|[<-|[<-|[<-|[]]]]] [A1 A2] [B1 B2];
    unfold Qle, Qlt, Qeq in *; cbn in *; lia.
Qed.

(** ** C56: output redshifts at equal frequency spacing *)
Theorem C56_equal_frequency : forall nu0 dnu z_low z_high, (0 < nu0)%Q -> (0 < dnu)%Q -> (0 < 1 + z_low)%Q -> (z_low < z_high)%Q ->
  exists fuel0 l, (forall fuel, fuel0 <= fuel -> redshifts_equal_frequency fuel z_low z_high (dnu / nu0) = Some l)
    /\ nth_error l (length l - 1) = Some z_high
    /\ (forall z, In z l -> (z_low < z <= z_high)%Q)
    /\ (forall k z, k < length l -> nth_error l (length l - 1 - k) = Some z ->
          (nu0 / (1 + z) == nu0 / (1 + z_high) + inject_Z (Z.of_nat k) * dnu)%Q)
    /\ (nu0 / (1 + z_low) <= nu0 / (1 + z_high) + inject_Z (Z.of_nat (length l)) * dnu)%Q.
Proof.
  intros nu0 dnu zl zh H0 Hd Hl Hlh.
  assert (Ha : (0 < dnu / nu0)%Q) by (apply Qlt_shift_div_l; lra).
  set (a := (dnu / nu0)%Q) in *.
  assert (Da : (dnu == a * nu0)%Q) by (unfold a; field; intros K; lra).
  destruct (archimedean a (1 / (1 + zl) - 1 / (1 + zh))%Q Ha) as [N HN].
  assert (Hh : (0 < 1 + zh)%Q) by lra.
  destruct (freq_loop_ok a zl Ha Hl N zh Hh) as (l & E & H1 & H2 & H3); [lra|].
  exists N, (rev l).
  assert (Hfuel : forall fuel, N <= fuel -> freq_loop fuel a zl zh = Some l).
  { clear -E. revert zh l E. induction N as [|N IH]; intros z l E fuel L; cbn [freq_loop] in E.
    - destruct (Qltb zl z) eqn:C; [discriminate|]. injection E as <-. destruct fuel; cbn [freq_loop]; now rewrite C.
    - destruct fuel as [|fuel]; [lia|]. cbn [freq_loop]. destruct (Qltb zl z) eqn:C; [|exact E].
      destruct (freq_loop N a zl (freq_next a z)) as [l'|] eqn:E'; [|discriminate].
      rewrite (IH _ _ E' fuel); [exact E|lia]. }
  split; [|rewrite rev_length; split; [|split; [|split]]].
  - intros fuel L. unfold redshifts_equal_frequency. replace (Qltb zl zh) with true by (symmetry; now apply Qltb_lt).
    now rewrite (Hfuel fuel L).
  - destruct (H1 Hlh) as [l' ->]. cbn [rev length]. rewrite nth_error_app2; rewrite rev_length; [|lia].
    replace (S (length l') - 1 - length l') with 0 by lia. reflexivity.
  - intros z Hz. apply in_rev in Hz. apply In_nth_error in Hz as [k Hk]. destruct (H2 k z Hk) as (A & B & C).
    split; [assumption|]. apply Qnot_lt_le. intros G. apply inv_lt in G; [|assumption|assumption]. rewrite C in G.
    assert (0 <= inject_Z (Z.of_nat k) * a)%Q; [|lra]. apply Qmult_le_0_compat; [|lra]. unfold Qle; cbn; lia.
  - intros k z Hk Hz.
    assert (Hz' : nth_error l k = Some z).
    { rewrite <- (rev_involutive l). 
      assert (G : forall (l : list Q) i, i < length l -> nth_error (rev l) (length l - 1 - i) = nth_error l i).
      { clear. induction l as [|x l IH]; intros i Hi; cbn [length] in *; [lia|]. cbn [rev].
        destruct i as [|i].
        - rewrite nth_error_app2; rewrite rev_length; [|lia]. replace (S (length l) - 1 - 0 - length l) with 0 by lia. reflexivity.
        - rewrite nth_error_app1; [|rewrite rev_length; lia]. cbn [nth_error]. rewrite <- (IH i) by lia. f_equal. lia. }
      rewrite rev_involutive. rewrite <- (G l k Hk). exact Hz. }
    destruct (H2 k z Hz') as (A & _ & C).
    setoid_replace (nu0 / (1 + z))%Q with (nu0 * (1 / (1 + z)))%Q by (field; intros K; lra).
    rewrite C, Da. field. intros K. lra.
  - setoid_replace (nu0 / (1 + zl))%Q with (nu0 * (1 / (1 + zl)))%Q by (field; intros K; lra).
    setoid_replace (nu0 / (1 + zh))%Q with (nu0 * (1 / (1 + zh)))%Q by (field; intros K; lra).
    rewrite Da. setoid_replace (nu0 * (1 / (1 + zh)) + inject_Z (Z.of_nat (length l)) * (a * nu0))%Q
      with (nu0 * (1 / (1 + zh) + inject_Z (Z.of_nat (length l)) * a))%Q by (field; intros K; lra).
    apply Qmult_le_l; [assumption|exact H3].
Qed.
Print Assumptions C56_equal_frequency.
Example C56_equal_frequency_sat : exists (nu0 : Q) (dnu : Q) (z_low : Q) (z_high : Q), (0 < nu0)%Q /\ (0 < dnu)%Q /\ (0 < 1 + z_low)%Q /\ (z_low < z_high)%Q.
Proof. exists 1420%Q, 1%Q, 8%Q, 9%Q. repeat split; first [lra | lia | reflexivity | discriminate | congruence | auto]. Qed.

Example C56_sat : exists l, redshifts_equal_frequency 9 8 9 (1 # 300) = Some l /\ length l = 4.
Proof. eexists. split; [vm_compute; reflexivity|reflexivity]. Qed.

(** ** C57: output redshifts at equal comoving distance *)
Theorem C57_equal_distance : forall w nu0 w0 z_low z_high, (0 < nu0)%Q -> (0 < w0)%Q -> (0 < 1 + z_low)%Q -> (z_low < z_high)%Q ->
  (forall z, z_low <= z < z_high -> w0 <= w z < 1 + z)%Q ->
  exists fuel0 l, (forall fuel, fuel0 <= fuel -> redshifts_equal_distance fuel w nu0 z_low z_high = Some l)
    /\ nth_error l 0 = Some z_low
    /\ (forall z, In z l -> (z_low <= z < z_high)%Q)
    /\ chain (fun x y => (x < y)%Q /\ (1 / (1 + y) == 1 / (1 + x) - w x / ((1 + x) * (1 + x)))%Q) l.
Proof.
  intros w nu0 w0 zl zh H0 Hw0 Hl Hlh Hw.
  destruct (archimedean w0 (zh - zl)%Q Hw0) as [N HN].
  destruct (dist_loop_ok w nu0 zh w0 zl H0 Hw0 Hl Hw N zl) as (l & E & H1 & H2 & H3); [lra|lra|].
  exists N, l. split; [|split; [|split]].
  - intros fuel L. unfold redshifts_equal_distance. replace (Qltb zl zh) with true by (symmetry; now apply Qltb_lt).
    clear -E L. generalize dependent zl. revert l fuel L. induction N as [|N IH]; intros l fuel L z E; cbn [dist_loop] in E.
    + destruct (Qltb z zh) eqn:C; [discriminate|]. injection E as <-. destruct fuel; cbn [dist_loop]; now rewrite C.
    + destruct fuel as [|fuel]; [lia|]. cbn [dist_loop]. destruct (Qltb z zh) eqn:C; [|exact E].
      destruct (dist_loop N w nu0 zh (dist_next w nu0 z)) as [l'|] eqn:E'; [|discriminate].
      rewrite (IH l' fuel ltac:(lia) (dist_next w nu0 z) E'). exact E.
  - destruct (H1 Hlh) as [l' ->]. reflexivity.
  - exact H2.
  - intros k x y Hx Hy. destruct (H3 k x y Hx Hy) as [Ey G].
    assert (Bx : (zl <= x < zh)%Q) by (apply H2; now apply nth_error_In in Hx).
    specialize (Hw x Bx). split; [lra|]. rewrite Ey. unfold dist_next.
    assert (P : (0 < 1 + x - w x)%Q) by lra.
    field. split; [intros K; lra|].
    assert (Q1 : ~ (nu0 * (1 + x) - nu0 * w x == 0)%Q).
    { intros K. assert (K' : (nu0 * (1 + x - w x) == 0)%Q) by (rewrite <- K; ring).
      apply Qmult_integral in K' as [K'|K']; lra. }
    repeat split; try (intros K; lra); try assumption.
    intros K. assert (K' : (nu0 * ((1 + x) * (1 + x)) == 0)%Q) by (rewrite <- K; ring).
    apply Qmult_integral in K' as [K'|K']; [lra|]. apply Qmult_integral in K' as [K'|K']; lra.
Qed.
Print Assumptions C57_equal_distance.
Example C57_equal_distance_sat : exists (w : Q -> Q) (nu0 : Q) (w0 : Q) (z_low : Q) (z_high : Q), (0 < nu0)%Q /\ (0 < w0)%Q /\ (0 < 1 + z_low)%Q /\ (z_low < z_high)%Q /\ (forall z, z_low <= z < z_high -> w0 <= w z < 1 + z)%Q.
Proof. exists (fun _ => (1#10)%Q), 1%Q, (1#20)%Q, 8%Q, (83#10)%Q. split; [reflexivity|]. split; [reflexivity|]. split; [reflexivity|]. split; [reflexivity|]. intros z [A B]. split; [discriminate|]. apply Qlt_le_trans with (1 + 8)%Q; [reflexivity|]. apply Qplus_le_compat; [discriminate|exact A]. Qed.

Example C57_sat : exists l, redshifts_equal_distance 9 (fun z => 1 # 10)%Q 1 8 (83 # 10) = Some l /\ length l = 3.
Proof. eexists. split; [vm_compute; reflexivity|reflexivity]. Qed.

(** ** C58: sub-volume *)
Lemma chain_lt l : chain (fun x y => (x < y)%Q) l -> forall i j x y, i < j ->
  nth_error l i = Some x -> nth_error l j = Some y -> (x < y)%Q.
Proof.
  intros C i j. induction j as [|j IH]; intros x y L Hx Hy; [lia|].
  destruct (Nat.eq_dec i j) as [->|N]; [now apply (C j)|].
  destruct (nth_error l j) as [m|] eqn:Em.
  - apply Qlt_trans with m; [apply IH; [lia|assumption|reflexivity]|now apply (C j)].
  - exfalso. apply nth_error_None in Em. assert (K : S j < length l) by (apply nth_error_Some; congruence). lia.
Qed.
Lemma nearest_mono l u v : l <> [] -> chain (fun x y => (x < y)%Q) l -> (u <= v)%Q -> nearest l u <= nearest l v.
Proof.
  intros N C L. destruct (le_lt_dec (nearest l u) (nearest l v)) as [|G]; [assumption|exfalso].
  destruct (nearest_spec l u N) as (x & Ex & _ & X2). destruct (nearest_spec l v N) as (y & Ey & Y1 & _).
  assert (Lt : (y < x)%Q) by (eapply (chain_lt l C); eauto).
  specialize (X2 _ _ G Ey). specialize (Y1 x (nth_error_In _ _ Ex)).
  revert X2 Y1. apply Qabs_case; intros A1; apply Qabs_case; intros A2; apply Qabs_case; intros A3; apply Qabs_case; intros A4; intros; lra.
Qed.
Lemma nearest_lt l u : l <> [] -> nearest l u < length l.
Proof. intros N. destruct (nearest_spec l u N) as (x & Ex & _). apply nth_error_Some. congruence. Qed.

(** Redshifts ascending as light cones have them: the range is the one between the
    slices nearest to the two ends, with an odd number of slices if requested. *)
Theorem C58_subvolume_range : forall redshifts low_z high_z odd verbose a b,
  chain (fun x y => (x < y)%Q) redshifts -> (low_z <= high_z)%Q ->
  subvolume_range redshifts low_z high_z odd verbose = Some (a, b) ->
  a <= b <= length redshifts /\ (odd = true -> Nat.odd (b - a) = true)
  /\ a = nearest redshifts low_z
  /\ (b = nearest redshifts high_z \/ odd = true /\ b = S (nearest redshifts high_z)).
Proof.
  intros l u v odd verbose a b C L. unfold subvolume_range.
  destruct (list_min l) as [lo|] eqn:El; [|discriminate]. destruct (list_max l) as [hi|]; [|discriminate].
  destruct (Qltb u lo); [discriminate|]. destruct (Qltb hi v); [discriminate|].
  assert (N : l <> []) by (intros ->; discriminate).
  pose proof (nearest_mono l u v N C L) as M. pose proof (nearest_lt l v N) as B.
  set (i := nearest l u) in *. set (j := nearest l v) in *. cbv zeta.
  replace (Z.of_nat j - Z.of_nat i)%Z with (Z.of_nat (j - i)) by lia.
  assert (P : forall n, Z.eqb (Z.of_nat n mod 2) 0 = Nat.even n).
  { intros n. destruct (Nat.even n) eqn:E.
    - apply Nat.even_spec in E as [m ->]. apply Z.eqb_eq. rewrite Nat2Z.inj_mul, Z.mul_comm. apply Z_mod_mult.
    - rewrite <- Nat.negb_odd in E. apply negb_false_iff in E. apply Nat.odd_spec in E as [m ->].
      apply Z.eqb_neq. rewrite Nat2Z.inj_add, Nat2Z.inj_mul, Z.add_comm, Z.mul_comm. 
      change (Z.of_nat 2) with 2%Z. change (Z.of_nat 1) with 1%Z. rewrite Z_mod_plus_full. discriminate. }
  rewrite P.
  destruct (Nat.even (j - i)) eqn:E, odd; cbn [andb].
  - destruct (verbose && negb (Nat.ltb (S j) (length l))); [discriminate|]. intros H. injection H as <- <-.
    split; [lia|]. split; [|auto]. intros _. replace (S j - i) with (S (j - i)) by lia. now rewrite Nat.odd_succ.
  - destruct (verbose && negb (Nat.ltb j (length l))); [discriminate|]. intros H. injection H as <- <-.
    split; [lia|]. split; [discriminate|auto].
  - destruct (verbose && negb (Nat.ltb j (length l))); [discriminate|]. intros H. injection H as <- <-.
    split; [lia|]. split; [|auto]. intros _. rewrite <- Nat.negb_even, E. reflexivity.
  - destruct (verbose && negb (Nat.ltb j (length l))); [discriminate|]. intros H. injection H as <- <-.
    split; [lia|]. split; [discriminate|auto].
Qed.
Print Assumptions C58_subvolume_range.
Example C58_subvolume_range_sat : exists (redshifts : list Q) (low_z : Q) (high_z : Q) (odd : bool) (verbose : bool) (a : nat) (b : nat), (chain (fun x y => (x < y)%Q) redshifts) /\ (low_z <= high_z)%Q /\ subvolume_range redshifts low_z high_z odd verbose = Some (a, b).
Proof. eexists [7; 8; 9; 10]%Q, (15#2)%Q, (19#2)%Q, false, false, _, _. split; [|split; [discriminate|vm_compute; reflexivity]]. intros [|[|[|[|k]]]] x y A B; cbn in A, B; try discriminate; injection A as <-; injection B as <-; reflexivity. Qed.

(** Inside the range of redshifts no exception is raised, except with [verbose] (the
    default) when the odd-number rule moves the end past the last slice: then printing
    the end redshift raises. *)
Theorem C58_subvolume_raises : forall redshifts low_z high_z odd verbose,
  redshifts <> [] -> (forall x, In x redshifts -> (low_z < x)%Q) \/ (forall x, In x redshifts -> (x < high_z)%Q) \/
  (subvolume_range redshifts low_z high_z odd verbose = None <->
   verbose = true /\ odd = true /\ S (nearest redshifts high_z) = length redshifts
   /\ ((Z.of_nat (nearest redshifts high_z) - Z.of_nat (nearest redshifts low_z)) mod 2 = 0)%Z).
Proof.
  intros l u v odd verbose N. unfold subvolume_range.
  destruct (list_min l) as [lo|] eqn:El; [|apply list_min_none in El; contradiction].
  destruct (list_max l) as [hi|] eqn:Eh; [|apply list_max_none in Eh; contradiction].
  apply list_min_spec in El as [_ El]. apply list_max_spec in Eh as [_ Eh].
  destruct (Qltb u lo) eqn:C1.
  { left. apply Qltb_lt in C1. intros x Hx. specialize (El x Hx). lra. }
  destruct (Qltb hi v) eqn:C2.
  { right. left. apply Qltb_lt in C2. intros x Hx. specialize (Eh x Hx). lra. }
  right. right. pose proof (nearest_lt l v N) as B. cbv zeta.
  destruct (Z.eqb_spec ((Z.of_nat (nearest l v) - Z.of_nat (nearest l u)) mod 2) 0) as [E|E]; destruct odd; cbn [andb].
  - destruct verbose; cbn [andb].
    + destruct (Nat.ltb_spec (S (nearest l v)) (length l)); cbn [negb]; split; try discriminate; try tauto.
      * intros (_ & _ & K & _). lia.
      * intros _. repeat split; try assumption. lia.
    + split; [discriminate|]. intros (K & _). discriminate.
  - replace (Nat.ltb (nearest l v) (length l)) with true by (symmetry; now apply Nat.ltb_lt).
    rewrite andb_false_r. split; [discriminate|]. intros (_ & K & _). discriminate.
  - replace (Nat.ltb (nearest l v) (length l)) with true by (symmetry; now apply Nat.ltb_lt).
    rewrite andb_false_r. split; [discriminate|]. intros (_ & _ & _ & K). contradiction.
  - replace (Nat.ltb (nearest l v) (length l)) with true by (symmetry; now apply Nat.ltb_lt).
    rewrite andb_false_r. split; [discriminate|]. intros (_ & K & _). discriminate.
Qed.
Print Assumptions C58_subvolume_raises.
Example C58_subvolume_raises_sat : exists (redshifts : list Q), redshifts <> [].
Proof. exists [8; 9]%Q. repeat split; first [lra | lia | reflexivity | discriminate | congruence | auto]. Qed.

Example C58_sat :
  subvolume_range [8; 9; 10; 11; 12]%Q (91 # 10) (108 # 10) true true = Some (1, 4)
  /\ subvolume_range [8; 9; 10; 11; 12]%Q (91 # 10) (108 # 10) false true = Some (1, 3)
  /\ subvolume_range [8; 9; 10; 11; 12]%Q (81 # 10) (119 # 10) true true = None
  /\ subvolume_range [8; 9; 10; 11; 12]%Q (81 # 10) (119 # 10) true false = Some (0, 5).
Proof. repeat split. Qed.
