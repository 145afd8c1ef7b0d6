(** C18: scalar light cones from the arguments to the cells. *)
From Coq Require Import List Arith ZArith QArith Qreals Reals Lqa Lra Lia Bool.
From Verif Require Import LcModel LcSpec LcProofs LcProps LcInterpModel LcInterpProps LcCellModel LcCellProps LcWholeModel.
Import ListNotations.
Local Open Scope nat_scope.

(** * Specification *)
(** The lowest and the highest redshift of the files. *)
Definition lowest (fz : list Q) (lo : Q) : Prop := In lo fz /\ forall x, In x fz -> (lo <= x)%Q.
Definition highest (fz : list Q) (hi : Q) : Prop := In hi fz /\ forall x, In x fz -> (x <= hi)%Q.

Lemma min_of : forall fz lo, lowest fz lo -> exists m, list_min fz = Some m /\ (m == lo)%Q.
Proof.
  intros fz lo [I B]. destruct (list_min fz) as [m|] eqn:E; [|apply list_min_none in E; subst; destruct I]. exists m. split; [reflexivity|].
  apply list_min_spec in E. destruct E as [Im Bm]. apply Qle_antisym; [apply Bm; exact I|apply B; exact Im].
Qed.
Lemma max_of : forall fz hi, highest fz hi -> exists m, list_max fz = Some m /\ (m == hi)%Q.
Proof.
  intros fz hi [I B]. destruct (list_max fz) as [m|] eqn:E; [|apply list_max_none in E; subst; destruct I]. exists m. split; [reflexivity|].
  apply list_max_spec in E. destruct E as [Im Bm]. apply Qle_antisym; [apply B; exact Im|apply Bm; exact I].
Qed.
Lemma filter_all : forall {A} (p : A -> bool) l, (forall x, In x l -> p x = true) -> filter p l = l.
Proof. induction l as [|x l IH]; intro H; [reflexivity|]. cbn. rewrite (H x (or_introl eq_refl)), IH by (intros; apply H; right; assumption). reflexivity. Qed.

(** Whatever is asked for: the redshifts of a light cone that is made are some of those one cell apart, at least one, all of them from the
    lowest redshift of the files on and below their highest, and there is one slice for each. *)
Theorem C18_make_range : forall fuel w nu0 m los fz files z_low z_high lo hi lc zs, lowest fz lo -> highest fz hi ->
  make_lightcone fuel w nu0 m los fz files z_low z_high = Some (lc, zs) ->
  length lc = length zs /\ zs <> [] /\ (forall z, In z zs -> (lo <= z < hi)%Q) /\
  exists a b out, redshifts_equal_distance fuel w nu0 a b = Some out /\ (z_low = Some a \/ z_low = None /\ (a == lo)%Q) /\ (z_high = Some b \/ z_high = None /\ (b == hi)%Q) /\
    forall z, In z zs <-> In z out /\ (lo <= z <= hi)%Q.
Proof.
  intros fuel w nu0 m los fz files z_low z_high lo hi lc zs HL HH E. unfold make_lightcone in E. destruct (output_z fuel w nu0 fz z_low z_high) as [zs'|] eqn:Ez; [|discriminate].
  destruct (scalar_lightcone m los fz files zs') as [lc'|] eqn:El; [|discriminate]. cbn in E. injection E as -> ->.
  destruct (min_of fz lo HL) as (mn & Emn & Qmn). destruct (max_of fz hi HH) as (mx & Emx & Qmx).
  unfold output_z in Ez. rewrite Emn, Emx in Ez. destruct (dflt z_low (Some mn)) as [a|] eqn:Ea; [|discriminate]. destruct (dflt z_high (Some mx)) as [b|] eqn:Eb; [|discriminate].
  destruct (redshifts_equal_distance fuel w nu0 a b) as [out|] eqn:Eo; [|discriminate]. unfold truncate_z in Ez. rewrite Emn, Emx in Ez.
  assert (Fil : filter (fun z => Qle_bool mn z && Qle_bool z mx) out = zs /\ zs <> []) by (destruct (filter _ out) as [|x l]; [discriminate|]; injection Ez as <-; split; [reflexivity|discriminate]).
  destruct Fil as [Fil Ne].
  assert (Mem : forall z, In z zs <-> In z out /\ (lo <= z <= hi)%Q).
  { intro z. rewrite <- Fil, filter_In, andb_true_iff, !Qle_bool_iff, Qmn, Qmx. reflexivity. }
  unfold scalar_lightcone in El. destruct (lightcone_of (interp_of m los) fz files zs) as [out'|] eqn:Elo; [|discriminate].
  destruct (assigned_spec _ _ El) as [LA _]. pose proof Elo as Elo'. unfold lightcone_of in Elo. destruct (Nat.eqb (length fz) (length files)) eqn:Len; [|discriminate].
  destruct (loop_any (interp_of m los) fz files true zs start 0 out' ltac:(discriminate) ltac:(discriminate) Elo) as [LO NO].
  split; [congruence|]. split; [exact Ne|]. split.
  - intros z Iz. split; [apply (Mem z); exact Iz|]. apply In_nth_error in Iz. destruct Iz as [k Hk].
    assert (Hk' : k < length out') by (rewrite LO; apply nth_error_Some; congruence). destruct (nth_error out' k) as [o|] eqn:Ek; [|apply nth_error_None in Ek; lia].
    destruct (NO k z o Hk Ek) as (_ & h & _ & _ & _ & Bh & _). apply bracket_high_some in Bh. destruct Bh as (Ih & Hz & _). eapply Qlt_le_trans; [exact Hz|]. apply HH. exact Ih.
  - exists a, b, out. split; [exact Eo|]. split; [|split; [|exact Mem]].
    + destruct z_low; cbn in Ea; injection Ea as ->; [left; reflexivity|right; split; [reflexivity|exact Qmn]].
    + destruct z_high; cbn in Eb; injection Eb as ->; [left; reflexivity|right; split; [reflexivity|exact Qmx]].
Qed.
Print Assumptions C18_make_range.

(** With the default range a light cone of two or more different redshifts is always made: it starts exactly at the lowest snapshot, whose first
    slice (linear interpolation) is the first slice of the light cone, its redshifts rise by one cell at a time, and it stops before the highest. *)
Theorem C18_make_default : forall w nu0 w0 N m los fz files lo hi, (0 < nu0)%Q -> (0 < w0)%Q -> lowest fz lo -> highest fz hi -> (0 < 1 + lo)%Q -> (lo < hi)%Q ->
  (forall z, lo <= z < hi -> w0 <= w z < 1 + z)%Q -> 0 < N -> los < 3 -> length fz = length files -> (forall d, In d files -> cubic N d) ->
  exists fuel0 lc zs, (forall fuel, fuel0 <= fuel -> make_lightcone fuel w nu0 m los fz files None None = Some (lc, zs)) /\
    length lc = length zs /\ (exists z0, nth_error zs 0 = Some z0 /\ (z0 == lo)%Q) /\ (forall z, In z zs -> (lo <= z < hi)%Q) /\
    chain (fun x y => (x < y)%Q /\ (1 / (1 + y) == 1 / (1 + x) - w x / ((1 + x) * (1 + x)))%Q) zs /\
    (m = Linear -> exists f d, nth_error lc 0 = Some f /\ snapshot fz files lo d /\ forall a b, f a b = cell d los 0 a b).
Proof.
  intros w nu0 w0 N m los fz files lo hi H1 H2 HL HH H3 H4 Hw HN Hlos Len HC.
  destruct (min_of fz lo HL) as (mn & Emn & Qmn). destruct (max_of fz hi HH) as (mx & Emx & Qmx).
  destruct (C57_equal_distance w nu0 w0 mn mx H1 H2) as (fuel0 & l & E & First & In1 & Ch); [rewrite Qmn; exact H3|rewrite Qmn, Qmx; exact H4|intros z Hz; apply Hw; rewrite <- Qmn, <- Qmx; exact Hz|].
  assert (Ne : l <> []) by (intro X; subst l; discriminate).
  assert (Tr : truncate_z fz l = Some l).
  { unfold truncate_z. rewrite Emn, Emx. rewrite filter_all; [destruct l; [congruence|reflexivity]|]. intros z Iz. apply In1 in Iz. apply andb_true_iff. rewrite !Qle_bool_iff. split; [apply Iz|apply Qlt_le_weak; apply Iz]. }
  destruct (proj2 (C19_lightcone_made N m los fz files l HN Hlos HC)) as [lc Elc].
  { split; [exact Len|]. intros z Iz. exists mn, mx. split; [apply list_min_spec in Emn; apply Emn|]. split; [apply list_max_spec in Emx; apply Emx|]. apply In1. exact Iz. }
  destruct (lightcone_any N m los fz files l lc HN Hlos HC Elc) as [LL _].
  exists fuel0, lc, l. split.
  { intros fuel F. unfold make_lightcone, output_z. cbn [dflt]. rewrite Emn, Emx, (E fuel F), Tr, Elc. reflexivity. }
  split; [exact LL|]. split; [exists mn; split; [exact First|exact Qmn]|]. split; [intros z Iz; rewrite <- Qmn, <- Qmx; apply In1; exact Iz|]. split; [exact Ch|].
  intros ->. destruct l as [|z0 l']; [congruence|]. cbn in First. injection First as ->.
  assert (One : exists f, nth_error lc 0 = Some f /\ scalar_lightcone Linear los fz files [mn] = Some [f]).
  { unfold scalar_lightcone, lightcone_of in Elc |- *. rewrite Len, Nat.eqb_refl in Elc |- *. cbn [lloop] in Elc |- *.
    destruct (lstep (interp_of Linear los) fz files true start mn 0) as [[s o]|]; [|discriminate]. destruct (lloop (interp_of Linear los) fz files true s l' 1) as [out|]; [|discriminate].
    cbn [option_map assigned] in Elc |- *. destruct o as [f|]; [|discriminate]. destruct (assigned out) as [r|]; [|discriminate]. cbn in Elc. injection Elc as <-. exists f. split; reflexivity. }
  destruct One as (f & Hf & One).
  destruct (C19_lightcone_cells N Linear los fz files [mn] [f] HN Hlos HC) with (2 := One) as [_ Cells]; [intros [|[|k]] x y A B; discriminate|].
  destruct (Cells 0 mn f eq_refl eq_refl) as (l0 & h & dl & dh & Il & _ & Sl & _ & _ & _ & Same). exists f, dl. split; [exact Hf|].
  assert (Imn : In mn fz) by (apply list_min_spec in Emn; apply Emn).
  split.
  - destruct Sl as (i & zi & A & B & C & D). assert (Q : (l0 == lo)%Q). { rewrite <- Qmn. apply Qle_antisym; [apply Il|]. destruct Il as (I0 & _ & M). apply M; [exact Imn|apply Qle_refl]. }
    exists i, zi. split; [exact A|]. split; [rewrite B; exact Q|]. split; [exact C|]. intros j zj Hj Aj K. apply (D j zj Hj Aj). rewrite Q. exact K.
  - intros a b. rewrite (Same eq_refl Imn a b). rewrite Nat.mod_0_l by lia. reflexivity.
Qed.
Print Assumptions C18_make_default.
Example C18_make_default_sat : exists w fz files, (forall z, 6 <= z < 7 -> (1 # 10) <= w z < 1 + z)%Q /\ lowest fz 6 /\ highest fz 7 /\ length fz = length files /\ (forall d, In d files -> cubic 2 d).
Proof.
  exists (fun _ => 1 # 10)%Q, [7; 6]%Q, [grey 1; grey 0]. split; [intros z Hz; split; Lqa.lra|].
  split; [split; [cbn; auto|intros x [<-|[<-|[]]]; unfold Qle; cbn; lia]|]. split; [split; [cbn; auto|intros x [<-|[<-|[]]]; unfold Qle; cbn; lia]|].
  split; [reflexivity|]. intros d [<-|[<-|[]]]; repeat split.
Qed.
