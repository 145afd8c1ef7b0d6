(** C19: light cones of scalar snapshots, cell by cell. *)
From Coq Require Import List Arith ZArith QArith Qreals Reals Lra Lia Bool.
From Verif Require Import LcModel LcSpec LcProofs LcProps LcInterpModel LcInterpProps LcCellModel.
Import ListNotations.
Local Open Scope nat_scope.

(** * Specification *)
(** A cube with [N] cells on each side. *)
Definition cubic (N : nat) (d : cube) : Prop := n0 d = N /\ n1 d = N /\ n2 d = N.

Lemma assigned_spec : forall {A} (l : list (option A)) r, assigned l = Some r -> length r = length l /\ forall k, nth_error l k = option_map Some (nth_error r k).
Proof.
  induction l as [|[x|] l IH]; intros r E; cbn in E; [injection E as <-; split; [reflexivity|intros [|k]; reflexivity]| |discriminate].
  destruct (assigned l) as [r'|]; [|discriminate]. injection E as <-. destruct (IH r' eq_refl) as [L N]. split; [cbn; congruence|]. intros [|k]; [reflexivity|exact (N k)].
Qed.
Lemma assigned_all : forall {A} (l : list (option A)), (forall o, In o l -> o <> None) -> exists r, assigned l = Some r.
Proof.
  induction l as [|[x|] l IH]; intros H; [exists []; reflexivity| |destruct (H None (or_introl eq_refl) eq_refl)].
  destruct (IH (fun o I => H o (or_intror I))) as [r E]. exists (x :: r). cbn. rewrite E. reflexivity.
Qed.

Section Any.
  Context {data slice : Type}.
  Variable interp : data -> data -> Q -> Q -> Q -> nat -> slice.
  Variable fz : list Q.
  Variable files : list data.
  Definition held (o : option data) : Prop := forall d, o = Some d -> In d files.
  Lemma read_in : forall z, held (read fz files z). Proof. intros z d E. apply nth_error_In in E. exact E. Qed.
  Lemma step_any : forall reuse s z k s' o, held (dlow s) -> held (dhigh s) -> lstep interp fz files reuse s z k = Some (s', o) ->
    held (dlow s') /\ held (dhigh s') /\ exists l h dl dh, bracket_low fz z = Some l /\ bracket_high fz z = Some h /\ In dl files /\ In dh files /\ o = interp dh dl h l z k.
  Proof.
    intros reuse s z k s' o Hl Hh. unfold lstep. destruct (bracket_low fz z) as [l|]; [|discriminate]. destruct (bracket_high fz z) as [h|]; [|discriminate].
    set (dl := if differs (zl s) l then _ else _). set (dh := if differs (zh s) h then _ else _).
    assert (A : held dl). { unfold dl. destruct (differs (zl s) l); [|exact Hl]. destruct (dhigh s) as [d|] eqn:Ed; [destruct reuse; [exact Hh|apply read_in]|apply read_in]. }
    assert (B : held dh). { unfold dh. destruct (differs (zh s) h); [apply read_in|exact Hh]. }
    destruct dl as [a|]; [|discriminate]. destruct dh as [b|]; [|discriminate]. intro E. injection E as <- <-. cbn [dlow dhigh]. split; [exact A|]. split; [exact B|].
    exists l, h, a, b. repeat split; auto.
  Qed.
  Lemma loop_any : forall reuse zs s k0 out, held (dlow s) -> held (dhigh s) -> lloop interp fz files reuse s zs k0 = Some out ->
    length out = length zs /\ forall k z o, nth_error zs k = Some z -> nth_error out k = Some o ->
      exists l h dl dh, bracket_low fz z = Some l /\ bracket_high fz z = Some h /\ In dl files /\ In dh files /\ o = interp dh dl h l z (k0 + k).
  Proof.
    intros reuse. induction zs as [|z zs IH]; intros s k0 out Hl Hh E; cbn [lloop] in E; [injection E as <-; split; [reflexivity|intros [|k]; discriminate]|].
    destruct (lstep interp fz files reuse s z k0) as [[s' o]|] eqn:Es; [|discriminate]. destruct (lloop interp fz files reuse s' zs (S k0)) as [out'|] eqn:El; [|discriminate].
    injection E as <-. destruct (step_any _ _ _ _ _ _ Hl Hh Es) as (Hl' & Hh' & W). destruct (IH s' (S k0) out' Hl' Hh' El) as [L N]. split; [cbn; congruence|].
    intros [|k] z' o' Z O; cbn in Z, O; [injection Z as <-; injection O as <-; rewrite Nat.add_0_r; exact W|]. replace (k0 + S k) with (S k0 + k) by lia. exact (N k z' o' Z O).
  Qed.
End Any.

Lemma brackets_R : forall fz z l h, is_low fz z l -> is_high fz z h -> (Q2R l <= Q2R z < Q2R h)%R.
Proof. intros fz z l h (_ & L & _) (_ & H & _). split; [apply Qle_Rle; exact L|apply Qlt_Rlt; exact H]. Qed.
Lemma side_cubic : forall N d los, cubic N d -> side d los = N. Proof. intros N d [|[|los]] (A & B & C); assumption. Qed.
Lemma slice_cells : forall N m los dh dl zh zl z k, 0 < N -> los < 3 -> cubic N dh -> cubic N dl -> exists f, interp_of m los dh dl zh zl z k = Some f /\
  forall a b, f a b = interp_cell m (Q2R zh) (Q2R zl) (Q2R z) (cell dh los (k mod N) a b) (cell dl los (k mod N) a b).
Proof.
  intros N m los dh dl zh zl z k HN HL Ch Cl. destruct (C19_periodic_index m dh dl (Q2R zh) (Q2R zl) (Q2R z) k los HL) as (f & E & F).
  - rewrite (side_cubic N) by exact Cl. exact HN.
  - rewrite (side_cubic N) by exact Cl. exact (proj1 (proj2 Cl)).
  - rewrite !(side_cubic N) by assumption. reflexivity.
  - exists f. split; [exact E|]. intros a b. rewrite (F a b). rewrite (side_cubic N) by exact Cl. reflexivity.
Qed.
(** What the loop gives, whatever the redshifts: slice k mixes two of the snapshots, around redshifts that bracket its own. *)
Lemma lightcone_any : forall N m los fz files zs lc, 0 < N -> los < 3 -> (forall d, In d files -> cubic N d) -> scalar_lightcone m los fz files zs = Some lc ->
  length lc = length zs /\ forall k z f, nth_error zs k = Some z -> nth_error lc k = Some f ->
  exists l h dl dh, is_low fz z l /\ is_high fz z h /\ In dl files /\ In dh files /\
    forall a b, f a b = interp_cell m (Q2R h) (Q2R l) (Q2R z) (cell dh los (k mod N) a b) (cell dl los (k mod N) a b).
Proof.
  intros N m los fz files zs lc HN HL HC. unfold scalar_lightcone, lightcone_of. destruct (Nat.eqb (length fz) (length files)); [|discriminate].
  destruct (lloop (interp_of m los) fz files true start zs 0) as [out|] eqn:E; [|discriminate]. intro A. destruct (assigned_spec _ _ A) as [LA NA].
  destruct (loop_any (interp_of m los) fz files true zs start 0 out ltac:(discriminate) ltac:(discriminate) E) as [LO NO]. split; [congruence|].
  intros k z f Hz Hf. pose proof (NA k) as Nk. rewrite Hf in Nk. cbn in Nk. destruct (NO k z (Some f) Hz Nk) as (l & h & dl & dh & Bl & Bh & Il & Ih & Eo).
  destruct (slice_cells N m los dh dl h l z k HN HL (HC dh Ih) (HC dl Il)) as (g & Eg & G). change (0 + k) with k in Eo. rewrite Eg in Eo. injection Eo as <-.
  exists l, h, dl, dh. split; [apply bracket_low_some; exact Bl|]. split; [apply bracket_high_some; exact Bh|]. split; [exact Il|]. split; [exact Ih|]. exact G.
Qed.

(** A light cone is made exactly when there is one snapshot for each redshift and every slice lies between two of them. *)
Theorem C19_lightcone_made : forall N m los fz files zs, 0 < N -> los < 3 -> (forall d, In d files -> cubic N d) ->
  ((exists lc, scalar_lightcone m los fz files zs = Some lc) <->
   length fz = length files /\ forall z, In z zs -> exists l h, In l fz /\ In h fz /\ (l <= z < h)%Q).
Proof.
  intros N m los fz files zs HN HL HC.
  assert (R := C18_lightcone_raises cube (option (nat -> nat -> R)) (interp_of m los) fz files zs).
  split.
  - intros [lc E]. assert (LE : length fz = length files).
    { unfold scalar_lightcone, lightcone_of in E. destruct (Nat.eqb_spec (length fz) (length files)); [assumption|discriminate]. }
    split; [exact LE|]. intros z Hz. destruct (lightcone_any N m los fz files zs lc HN HL HC E) as [LL F]. apply In_nth_error in Hz. destruct Hz as [k Hk].
    assert (Hk' : k < length lc) by (rewrite LL; apply nth_error_Some; congruence). destruct (nth_error lc k) as [f|] eqn:Ef; [|apply nth_error_None in Ef; lia].
    destruct (F k z f Hk Ef) as (l & h & _ & _ & (L1 & L2 & _) & (H1 & H2 & _) & _). exists l, h. repeat split; assumption.
  - intros [LE W]. unfold scalar_lightcone. destruct (lightcone_of (interp_of m los) fz files zs) as [out|] eqn:E.
    + apply assigned_all. intros o Io. unfold lightcone_of in E. rewrite LE, Nat.eqb_refl in E.
      destruct (loop_any (interp_of m los) fz files true zs start 0 out ltac:(discriminate) ltac:(discriminate) E) as [LO NO]. apply In_nth_error in Io. destruct Io as [k Hk].
      assert (Hk' : k < length zs) by (rewrite <- LO; apply nth_error_Some; congruence). destruct (nth_error zs k) as [z|] eqn:Ez; [|apply nth_error_None in Ez; lia].
      destruct (NO k z o Ez Hk) as (l & h & dl & dh & _ & _ & Il & Ih & ->). destruct (slice_cells N m los dh dl h l z (0 + k) HN HL (HC dh Ih) (HC dl Il)) as (g & -> & _). discriminate.
    + exfalso. destruct (proj1 R eq_refl) as [X|(z & Iz & X)]; [congruence|]. destruct (W z Iz) as (l & h & Il & Ih & B1 & B2).
      destruct X as [X|X]; [apply (Qlt_not_le z l (X l Il)); exact B1|apply (Qlt_not_le z h B2); exact (X h Ih)].
Qed.
Print Assumptions C19_lightcone_made.

(** Cells: slice k repeats cell k modulo the side of the box along the line of sight, and lies between the two snapshots around its redshift;
    linear interpolation is proportional to the redshift in between, and a slice at the redshift of a snapshot is the slice of that snapshot.
    The output redshifts rise without leaping over a whole interval between snapshots. *)
Theorem C19_lightcone_cells : forall N m los fz files zs lc, 0 < N -> los < 3 -> (forall d, In d files -> cubic N d) ->
  chain (fun x y => (x <= y)%Q /\ no_skip fz x y) zs -> scalar_lightcone m los fz files zs = Some lc ->
  length lc = length zs /\
  forall k z f, nth_error zs k = Some z -> nth_error lc k = Some f ->
  exists l h dl dh, is_low fz z l /\ is_high fz z h /\ snapshot fz files l dl /\ snapshot fz files h dh /\
    (forall a b, let lo := cell dl los (k mod N) a b in let hi := cell dh los (k mod N) a b in (Rmin lo hi <= f a b <= Rmax lo hi)%R) /\
    (m = Linear -> forall a b, let lo := cell dl los (k mod N) a b in let hi := cell dh los (k mod N) a b in
       ((f a b - lo) * (Q2R h - Q2R l) = (hi - lo) * (Q2R z - Q2R l))%R) /\
    (m = Linear -> In z fz -> forall a b, f a b = cell dl los (k mod N) a b).
Proof.
  intros N m los fz files zs lc HN HL HC CH E. destruct (lightcone_any N m los fz files zs lc HN HL HC E) as [LL _]. split; [exact LL|].
  intros k z f Hz Hf. unfold scalar_lightcone in E. destruct (lightcone_of (interp_of m los) fz files zs) as [out|] eqn:Eo; [|discriminate].
  destruct (assigned_spec _ _ E) as [LA NA]. pose proof (NA k) as Nk. rewrite Hf in Nk. cbn in Nk.
  destruct (C18_lightcone_slices cube _ (interp_of m los) fz files zs out CH Eo) as [_ S].
  destruct (S k z (Some f) Hz Nk) as (l & h & dl & dh & Il & Ih & Sl & Sh & Ef).
  assert (In dl files /\ In dh files) as [Fl Fh].
  { split; [destruct Sl as (i & zi & _ & _ & X & _)|destruct Sh as (i & zi & _ & _ & X & _)]; exact (nth_error_In _ _ X). }
  destruct (slice_cells N m los dh dl h l z k HN HL (HC dh Fh) (HC dl Fl)) as (g & Eg & G). rewrite Eg in Ef. injection Ef as ->.
  pose proof (brackets_R fz z l h Il Ih) as [B1 B2].
  exists l, h, dl, dh. split; [exact Il|]. split; [exact Ih|]. split; [exact Sl|]. split; [exact Sh|]. split; [|split].
  - intros a b. cbv zeta. rewrite G. apply C19_between; lra.
  - intros -> a b. cbv zeta. rewrite G. apply (C19_linear (Q2R h) (Q2R l) (Q2R z)). lra.
  - intros -> Iz a b. assert (Q2R z = Q2R l). { apply Rle_antisym; [|exact B1]. apply Qle_Rle. destruct Il as (_ & _ & M). apply M; [exact Iz|apply Qle_refl]. }
    rewrite G, H. apply (C19_linear (Q2R h) (Q2R l) (Q2R z)). lra.
Qed.
Print Assumptions C19_lightcone_cells.

(** Whatever the output redshifts: the cells never leave the range of the snapshots, so ionised fractions stay between 0 and 1, and
    snapshots that are all alike give the periodic repetition of the one box, with every method. *)
Theorem C19_lightcone_range : forall N m los fz files zs lc, 0 < N -> los < 3 -> (forall d, In d files -> cubic N d) ->
  scalar_lightcone m los fz files zs = Some lc ->
  (forall lo hi, (forall d i j k, In d files -> (lo <= val d i j k <= hi)%R) -> forall f a b, In f lc -> (lo <= f a b <= hi)%R) /\
  (forall d0, (forall d i j k, In d files -> val d i j k = val d0 i j k) -> forall k f a b, nth_error lc k = Some f -> f a b = cell d0 los (k mod N) a b).
Proof.
  intros N m los fz files zs lc HN HL HC E. destruct (lightcone_any N m los fz files zs lc HN HL HC E) as [LL F].
  assert (W : forall k f, nth_error lc k = Some f -> exists dl dh, In dl files /\ In dh files /\ forall a b,
    (Rmin (cell dl los (k mod N) a b) (cell dh los (k mod N) a b) <= f a b <= Rmax (cell dl los (k mod N) a b) (cell dh los (k mod N) a b))%R).
  { intros k f Hf. assert (Hk : k < length zs) by (rewrite <- LL; apply nth_error_Some; congruence). destruct (nth_error zs k) as [z|] eqn:Ez; [|apply nth_error_None in Ez; lia].
    destruct (F k z f Ez Hf) as (l & h & dl & dh & Il & Ih & Fl & Fh & G). exists dl, dh. split; [exact Fl|]. split; [exact Fh|]. intros a b. rewrite G.
    pose proof (brackets_R fz z l h Il Ih). apply C19_between; lra. }
  split.
  - intros lo hi B f a b If. apply In_nth_error in If. destruct If as [k Hk]. destruct (W k f Hk) as (dl & dh & Fl & Fh & G). specialize (G a b).
    assert (C : forall d i, In d files -> (lo <= cell d los i a b <= hi)%R) by (intros d i Id; destruct los as [|[|[|los']]]; cbn [cell]; apply B; exact Id).
    pose proof (C dl (k mod N) Fl) as C1. pose proof (C dh (k mod N) Fh) as C2.
    destruct G as [G1 G2]. split; [eapply Rle_trans; [|exact G1]; apply Rmin_glb; lra|eapply Rle_trans; [exact G2|]; apply Rmax_lub; lra].
  - intros d0 B k f a b Hf. destruct (W k f Hf) as (dl & dh & Fl & Fh & G). specialize (G a b).
    assert (C : forall d i, In d files -> cell d los i a b = cell d0 los i a b) by (intros d i Id; destruct los as [|[|[|los']]]; cbn [cell]; apply B; exact Id).
    rewrite (C dl _ Fl), (C dh _ Fh) in G. unfold Rmin, Rmax in G. destruct (Rle_dec (cell d0 los (k mod N) a b) (cell d0 los (k mod N) a b)); lra.
Qed.
Print Assumptions C19_lightcone_range.

Definition grey (x : R) : cube := Cube 2 2 2 (fun i _ _ => (x + INR i)%R).
(** Three snapshots and four slices meet the hypotheses of the three theorems above. *)
Example C19_lightcone_cells_sat : exists fz files zs lc, (forall d, In d files -> cubic 2 d) /\
  chain (fun x y => (x <= y)%Q /\ no_skip fz x y) zs /\ length zs = 4 /\ scalar_lightcone Linear 2 fz files zs = Some lc.
Proof.
  exists [6; 7; 8]%Q, [grey 0; grey 1; grey 2], [6; 13 # 2; 7; 15 # 2]%Q.
  assert (C : forall d, In d [grey 0; grey 1; grey 2] -> cubic 2 d) by (intros d [<-|[<-|[<-|[]]]]; repeat split).
  destruct (proj2 (C19_lightcone_made 2 Linear 2 [6; 7; 8]%Q [grey 0; grey 1; grey 2] [6; 13 # 2; 7; 15 # 2]%Q ltac:(lia) ltac:(lia) C)) as [lc E].
  { split; [reflexivity|]. intros z [<-|[<-|[<-|[<-|[]]]]].
    1,2: exists 6%Q, 7%Q; cbn [In]; repeat split; auto; unfold Qle, Qlt; cbn; lia. all: exists 7%Q, 8%Q; cbn [In]; repeat split; auto; unfold Qle, Qlt; cbn; lia. }
  exists lc. split; [exact C|]. split; [|split; [reflexivity|exact E]].
  intros k x y Hx Hy. destruct k as [|[|[|[|[|k]]]]]; cbn in Hx, Hy; try discriminate; injection Hx as <-; injection Hy as <-.
  all: split; [unfold Qle; cbn; lia|]; intros a b Ia Ib Ha Hb; unfold Qle, Qlt in Ha, Hb; destruct Ia as [<-|[<-|[<-|[]]]]; destruct Ib as [<-|[<-|[<-|[]]]]; cbn in Ha, Hb; first [reflexivity|lia].
Qed.
