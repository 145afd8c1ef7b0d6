(** C73: sizes of angular light cones. *)
From Coq Require Import List Arith ZArith Reals Lra Lia Bool.
From Verif Require Import UnitsModel AngularModel.
Import ListNotations.
Local Open Scope R_scope.

(** * Specification *)
(** The largest integer not above x. *)
Definition floor_of (x : R) (n : Z) : Prop := IZR n <= x < IZR n + 1.
(** Comoving distance belonging to a luminosity distance. *)
Definition distance (ld z : R) : R := ld / (1 + z).
(** Real number of output cells the field of view covers. *)
Definition cells (fov dtheta : R) : R := fov * 60 / dtheta.

(** * Helpers *)
Lemma Int_part_floor : forall x, floor_of x (Int_part x).
Proof. intro x. unfold floor_of. pose proof (base_Int_part x). lra. Qed.
Lemma py_int_floor : forall x, 0 <= x -> floor_of x (py_int x).
Proof. intros x H. unfold py_int. destruct (Rle_dec 0 x); [apply Int_part_floor|contradiction]. Qed.
Lemma floor_unique : forall x n m, floor_of x n -> floor_of x m -> n = m.
Proof. intros x n m [A B] [C D]. assert (n < m + 1)%Z by (apply lt_IZR; rewrite plus_IZR; lra). assert (m < n + 1)%Z by (apply lt_IZR; rewrite plus_IZR; lra). lia. Qed.
Lemma floor_le : forall x y n m, x <= y -> floor_of x n -> floor_of y m -> (n <= m)%Z.
Proof. intros x y n m L [A B] [C D]. assert (n < m + 1)%Z by (apply lt_IZR; rewrite plus_IZR; lra). lia. Qed.
Lemma floor_nonneg : forall x n, 0 <= x -> floor_of x n -> (0 <= n)%Z.
Proof. intros x n H [A B]. assert (0 < n + 1)%Z by (apply lt_IZR; rewrite plus_IZR; lra). lia. Qed.
Lemma angle_value : forall ld x z, ld <> 0 -> 1 + z <> 0 -> angular_size_comoving ld x z = x / distance ld z * (180 / (31415 / 10000)).
Proof. intros ld x z H1 H2. unfold angular_size_comoving, angular_size, c_to_p, distance. field. auto. Qed.
Lemma ratio_value : forall ld z ld0 z0 box fov dtheta, 0 < ld -> 0 < ld0 -> 0 < 1 + z -> 0 < 1 + z0 -> 0 < box -> 0 < dtheta -> fov = angular_size_comoving ld0 box z0 ->
  box / (deg_to_cdist ld fov z / (fov * 60 / dtheta)) = cells fov dtheta * (distance ld0 z0 / distance ld z).
Proof.
  intros ld z ld0 z0 box fov dtheta H1 H2 H3 H4 H5 H6 ->. unfold deg_to_cdist, cells. rewrite !angle_value by lra. unfold distance. field. repeat split; try lra.
Qed.
Lemma fov_pos : forall ld box z, 0 < ld -> 0 < 1 + z -> 0 < box -> 0 < angular_size_comoving ld box z.
Proof. intros ld box z H1 H2 H3. rewrite angle_value by lra. apply Rmult_lt_0_compat; [|lra]. unfold distance. apply Rdiv_lt_0_compat; [assumption|apply Rdiv_lt_0_compat; assumption]. Qed.

Section Slice.
  Variables (ld z ld0 z0 box dtheta : R).
  Hypotheses (Hld : 0 < ld) (Hld0 : 0 < ld0) (Hz : 0 < 1 + z) (Hz0 : 0 < 1 + z0) (Hbox : 0 < box) (Hd : 0 < dtheta).
  (** The slice is not nearer than the near end of the light cone. *)
  Hypothesis Hfar : distance ld0 z0 <= distance ld z.
  Let fov := angular_size_comoving ld0 box z0.
  Let ratio := distance ld0 z0 / distance ld z.
  Lemma dist_pos : forall a b, 0 < a -> 0 < 1 + b -> 0 < distance a b.
  Proof. intros. unfold distance. apply Rdiv_lt_0_compat; assumption. Qed.
  Lemma ratio_bounds : 0 < ratio <= 1.
  Proof.
    pose proof (dist_pos ld z Hld Hz). pose proof (dist_pos ld0 z0 Hld0 Hz0). unfold ratio. split; [apply Rdiv_lt_0_compat; assumption|].
    apply Rmult_le_reg_r with (distance ld z); [assumption|]. unfold Rdiv. rewrite Rmult_assoc, Rinv_l by lra. lra.
  Qed.
  Lemma cells_pos' : 0 < cells fov dtheta.
  Proof. unfold cells. apply Rdiv_lt_0_compat; [|assumption]. pose proof (fov_pos ld0 box z0 Hld0 Hz0 Hbox). unfold fov. lra. Qed.
  Lemma resampled_value : exists n, floor_of (cells fov dtheta * ratio) n /\ (0 <= n)%Z /\ resampled_cells ld z box fov dtheta = if Z.even n then (n - 1)%Z else n.
  Proof.
    pose proof ratio_bounds. pose proof cells_pos'. assert (P : 0 <= cells fov dtheta * ratio) by (apply Rmult_le_pos; lra).
    exists (py_int (cells fov dtheta * ratio)). pose proof (py_int_floor _ P) as F. split; [exact F|]. split; [eapply floor_nonneg; eassumption|].
    unfold resampled_cells. rewrite (ratio_value ld z ld0 z0 box fov dtheta) by (assumption || reflexivity). reflexivity.
  Qed.
  Lemma slice_le : forall N, floor_of (cells fov dtheta) N -> (resampled_cells ld z box fov dtheta <= N)%Z /\ padded_cells fov dtheta (resampled_cells ld z box fov dtheta) = N.
  Proof.
    intros N HN. destruct resampled_value as (n & Fn & Pn & ->). pose proof ratio_bounds. pose proof cells_pos'.
    assert (L : (n <= N)%Z) by (eapply floor_le; [|exact Fn|exact HN]; rewrite <- (Rmult_1_r (cells fov dtheta)) at 2; apply Rmult_le_compat_l; lra).
    assert (Q : ((if Z.even n then n - 1 else n) <= N)%Z) by (destruct (Z.even n); lia). split; [exact Q|].
    unfold padded_cells. fold (cells fov dtheta). rewrite (floor_unique _ _ _ (py_int_floor (cells fov dtheta) ltac:(lra)) HN). destruct (Z.ltb_spec N (if Z.even n then n - 1 else n)%Z); lia.
  Qed.
End Slice.

(** * Theorems *)
(** Physical to angular: a slice at or beyond the near end never becomes wider than the field of view; its
    number of cells is odd; it is converted iff it has at least one cell and covers half of the padded
    field, and then has exactly the side of the field of view. *)
Theorem C73_slice : forall ld z ld0 z0 box dtheta N, 0 < ld -> 0 < ld0 -> 0 < 1 + z -> 0 < 1 + z0 -> 0 < box -> 0 < dtheta -> distance ld0 z0 <= distance ld z ->
  let fov := angular_size_comoving ld0 box z0 in floor_of (cells fov dtheta) N ->
  exists n k, floor_of (cells fov dtheta * (distance ld0 z0 / distance ld z)) n /\ (k = n \/ k = n - 1)%Z /\ Z.odd k = true /\ (k <= N)%Z /\
  physical_slice_to_angular ld z box fov dtheta = if ((k =? 1) || ((1 <=? k) && (N <=? 2 * k)))%Z%bool then Some N else None.
Proof.
  intros ld z ld0 z0 box dtheta N H1 H2 H3 H4 H5 H6 H7 fov HN.
  destruct (resampled_value ld z ld0 z0 box dtheta H1 H2 H3 H4 H5 H6 H7) as (n & Fn & Pn & E). destruct (slice_le ld z ld0 z0 box dtheta H1 H2 H3 H4 H5 H6 H7 N HN) as [L P]. fold fov in E, L, P, Fn.
  set (k := resampled_cells ld z box fov dtheta) in *. exists n, k. split; [exact Fn|]. split; [destruct (Z.even n); [right|left]; exact E|].
  split. { rewrite E. destruct (Z.even n) eqn:Ev; [|rewrite <- Z.negb_even, Ev; reflexivity]. rewrite Z.odd_sub, <- Z.negb_even, Ev. reflexivity. }
  split; [exact L|]. unfold physical_slice_to_angular. fold k. rewrite P. destruct (Z.ltb_spec k 0) as [K|K].
  - destruct (Z.eqb_spec k 1); [lia|]. destruct (Z.leb_spec 1 k); [lia|]. reflexivity.
  - destruct (Z.eqb_spec k 1) as [K1|K1]; [reflexivity|]. cbn [orb]. destruct (Z.leb_spec k N); [|lia]. cbn [andb].
    assert (K0 : (k <> 0)%Z) by (intro Z0; rewrite Z0 in *; clear - E; destruct (Z.even n) eqn:Ev; [assert (n = 1)%Z by lia; subst; discriminate|subst n; discriminate]).
    destruct (Z.leb_spec 1 k); [reflexivity|lia].
Qed.
Print Assumptions C73_slice.
Example C73_slice_sat : exists ld z ld0 z0 box dtheta N, 0 < ld /\ 0 < ld0 /\ 0 < 1 + z /\ 0 < 1 + z0 /\ 0 < box /\ 0 < dtheta /\ distance ld0 z0 <= distance ld z /\ let fov := angular_size_comoving ld0 box z0 in floor_of (cells fov dtheta) N.
Proof. exists 4, 1, 1, 0, 10, 1, (Int_part (cells (angular_size_comoving 1 10 0) 1)). repeat split; try (unfold distance; lra); apply Int_part_floor. Qed.
(** The whole light cone: it is converted iff every slice passes, that is, as long as no slice is about
    twice as far as the near end. *)
Theorem C73_lightcone : forall ld z_low box dtheta zs N, (forall z, In z (z_low :: zs) -> 0 < ld z /\ 0 < 1 + z /\ distance (ld z_low) z_low <= distance (ld z) z) ->
  0 < box -> 0 < dtheta -> let fov := angular_size_comoving (ld z_low) box z_low in floor_of (cells fov dtheta) N ->
  let share := fun z => cells fov dtheta * (distance (ld z_low) z_low / distance (ld z) z) in
  (forall out, observational_side ld z_low box dtheta zs = Some out -> out = N) /\
  ((forall z, In z zs -> 2 <= share z /\ IZR N / 2 <= share z - 2) -> observational_side ld z_low box dtheta zs = Some N) /\
  ((exists z, In z zs /\ 3 <= share z < IZR N / 2) -> observational_side ld z_low box dtheta zs = None).
Proof.
  intros ld z_low box dtheta zs N H Hb Hd fov HN share. destruct (H z_low (or_introl eq_refl)) as [A0 [B0 _]].
  assert (CP : 0 <= cells fov dtheta) by (left; apply (cells_pos' (ld z_low) z_low box dtheta); assumption).
  assert (EN : py_int (fov * 60 / dtheta) = N) by (apply (floor_unique (cells fov dtheta)); [apply py_int_floor; exact CP|exact HN]).
  assert (SL : forall z, In z zs -> exists n k, floor_of (share z) n /\ (k = n \/ k = n - 1)%Z /\ Z.odd k = true /\ (k <= N)%Z /\
    physical_slice_to_angular (ld z) z box fov dtheta = if ((k =? 1) || ((1 <=? k) && (N <=? 2 * k)))%Z%bool then Some N else None).
  { intros z Hz. destruct (H z (or_intror Hz)) as [A [B C]]. apply (C73_slice (ld z) z (ld z_low) z_low box dtheta N); assumption. }
  unfold observational_side. fold fov. rewrite EN. split; [|split].
  - intros out E. destruct (forallb _ zs); [congruence|discriminate].
  - intro G. match goal with |- context [forallb ?f zs] => assert (FB : forallb f zs = true) end; [|rewrite FB; reflexivity].
    apply forallb_forall. intros z Hz. destruct (SL z Hz) as (n & k & Fn & Kn & Ok & L & E). destruct (G z Hz) as [G1 G2]. rewrite E. destruct Fn as [F1 F2].
    assert (K1 : (1 <= k)%Z). { assert (1 < n)%Z by (apply lt_IZR; lra). lia. }
    assert (K2 : (N <= 2 * k)%Z). { apply le_IZR. rewrite mult_IZR. assert (IZR n - 1 <= IZR k) by (destruct Kn as [-> | ->]; rewrite ?minus_IZR; lra). lra. }
    destruct (Z.leb_spec 1 k); [|lia]. destruct (Z.leb_spec N (2 * k)); [|lia]. rewrite orb_true_r, Z.eqb_refl. reflexivity.
  - intros (z & Hz & G1 & G2). destruct (SL z Hz) as (n & k & Fn & Kn & Ok & L & E). destruct Fn as [F1 F2].
    match goal with |- context [forallb ?f zs] => assert (FB : forallb f zs = false) end; [|rewrite FB; reflexivity].
    apply not_true_iff_false. rewrite forallb_forall. intro F. specialize (F z Hz). rewrite E in F.
    assert (K1 : (k <> 1)%Z). { assert (2 < n)%Z by (apply lt_IZR; lra). intro Q. destruct Kn; lia. }
    assert (K2 : (2 * k < N)%Z). { apply lt_IZR. rewrite mult_IZR. assert (IZR k <= IZR n) by (destruct Kn as [-> | ->]; rewrite ?minus_IZR; lra). lra. }
    destruct (Z.eqb_spec k 1); [contradiction|]. destruct (Z.leb_spec N (2 * k)); [lia|]. rewrite andb_false_r in F. discriminate.
Qed.
Print Assumptions C73_lightcone.
Example C73_lightcone_sat : exists ld z_low box dtheta zs N, ((forall z, In z (z_low :: zs) -> 0 < ld z /\ 0 < 1 + z /\ distance (ld z_low) z_low <= distance (ld z) z)) /\ 0 < box /\ 0 < dtheta /\ let fov := angular_size_comoving (ld z_low) box z_low in floor_of (cells fov dtheta) N.
Proof. exists (fun z => (1 + z) ^ 2), 0, 10, 1, [1; 2], (Int_part (cells (angular_size_comoving ((1 + 0) ^ 2) 10 0) 1)). split; [intros z [<- |[<- |[<- |[]]]]; unfold distance; lra|]. repeat split; try lra; apply Int_part_floor. Qed.
(** Mode 'crop' keeps exactly the number of cells asked for, centred up to half a cell. *)
Theorem C73_crop : forall n m, (0 <= m <= n)%Z -> let '(a, b) := crop_range n m in (b - a = m /\ 0 <= a /\ b <= n /\ 0 <= (n - b) - a <= 1)%Z.
Proof. intros n m H. unfold crop_range. Z.div_mod_to_equations. lia. Qed.
Print Assumptions C73_crop.
Example C73_crop_sat : exists n m, (0 <= m <= n)%Z.
Proof. exists 7%Z, 4%Z. lia. Qed.
(** Angular to physical: every slice at or beyond the near end gets exactly the side of the volume, so the
    conversion never fails on the sizes. *)
Theorem C73_back : forall ld z_low dtheta par n_in zs, (forall z, In z (z_low :: zs) -> 0 < ld z /\ 0 < 1 + z /\ distance (ld z_low) z_low <= distance (ld z) z) ->
  0 < dtheta -> (0 < n_in)%Z ->
  let fov_mpc := IZR n_in * dtheta / 60 / angular_size_comoving (ld z_low) 1 z_low in
  exists n, physical_side ld z_low dtheta par n_in zs = Some n /\ floor_of (fov_mpc / Rmax par (fov_mpc / IZR n_in)) n /\ (0 <= n <= n_in)%Z.
Proof.
  intros ld z_low dtheta par n_in zs H Hd Hn fov_mpc. destruct (H z_low (or_introl eq_refl)) as [A0 [B0 _]]. apply IZR_lt in Hn as Hn'.
  pose proof (fov_pos (ld z_low) 1 z_low A0 B0 ltac:(lra)) as AP. assert (FP : 0 < fov_mpc) by (unfold fov_mpc; apply Rdiv_lt_0_compat; [|exact AP]; apply Rdiv_lt_0_compat; [apply Rmult_lt_0_compat; assumption|lra]).
  set (cell := Rmax par (fov_mpc / IZR n_in)). assert (CL : fov_mpc / IZR n_in <= cell) by apply Rmax_r. assert (CP0 : 0 < fov_mpc / IZR n_in) by (apply Rdiv_lt_0_compat; assumption). assert (CP : 0 < cell) by lra.
  assert (QP : 0 <= fov_mpc / cell) by (left; apply Rdiv_lt_0_compat; assumption). pose proof (py_int_floor _ QP) as FN. set (n := py_int (fov_mpc / cell)) in *.
  assert (QN : fov_mpc / cell <= IZR n_in). { apply Rmult_le_reg_r with cell; [exact CP|]. unfold Rdiv at 1. rewrite Rmult_assoc, Rinv_l by lra. apply Rmult_le_compat_l with (r := IZR n_in) in CL; [|lra]. replace (IZR n_in * (fov_mpc / IZR n_in)) with fov_mpc in CL by (field; lra). lra. }
  assert (N0 : (0 <= n)%Z) by (eapply floor_nonneg; eassumption). assert (N1 : (n <= n_in)%Z) by (apply le_IZR; destruct FN; lra).
  exists n. split; [|split; [exact FN|lia]]. unfold physical_side. fold fov_mpc. fold cell. fold n.
  match goal with |- context [forallb ?f zs] => assert (FB : forallb f zs = true) end; [|rewrite FB; reflexivity].
  apply forallb_forall. intros z Hz. destruct (H z (or_intror Hz)) as [A [B C]]. apply orb_true_iff. left. apply Z.eqb_eq. unfold angular_slice_to_physical. fold n.
  destruct (Z.ltb_spec n_in n); [lia|]. set (q := deg_to_cdist (ld z) (IZR n_in * dtheta / 60) z).
  assert (Q : fov_mpc <= q).
  { unfold fov_mpc, q, deg_to_cdist. apply Rmult_le_compat_l; [left; apply Rdiv_lt_0_compat; [apply Rmult_lt_0_compat; assumption|lra]|]. apply Rinv_le_contravar; [apply fov_pos; lra|]. rewrite !angle_value by lra. apply Rmult_le_compat_r; [lra|].
    unfold Rdiv. rewrite !Rmult_1_l. apply Rinv_le_contravar; [apply Rdiv_lt_0_compat; assumption|exact C]. }
  assert (QQ : fov_mpc / cell <= q / cell) by (apply Rmult_le_compat_r; [left; apply Rinv_0_lt_compat; exact CP|exact Q]).
  assert (M : (n <= py_int (q / cell))%Z) by (eapply floor_le; [exact QQ|exact FN|apply py_int_floor; lra]).
  destruct (Z.even (py_int (q / cell))); lia.
Qed.
Print Assumptions C73_back.
Example C73_back_sat : exists ld z_low dtheta n_in zs, ((forall z, In z (z_low :: zs) -> 0 < ld z /\ 0 < 1 + z /\ distance (ld z_low) z_low <= distance (ld z) z)) /\ 0 < dtheta /\ (0 < n_in)%Z.
Proof. exists (fun z => (1 + z) ^ 2), 0, 1, 64%Z, [1; 2]. split; [intros z [<- |[<- |[<- |[]]]]; unfold distance; lra|]. split; [lra|lia]. Qed.
(** Resampling n cells to m reads the first and the last cell; so the spacing is (n-1)/(m-1), which is the
    size ratio n/m of the cells only when nothing is resampled. *)
Theorem C73_resample : forall n m, (1 <= n)%nat -> (2 <= m)%nat ->
  sample_position n m 0 = 0 /\ sample_position n m (m - 1) = INR (n - 1) /\
  ((forall i, sample_position n m (S i) - sample_position n m i = INR n / INR m) <-> n = m).
Proof.
  intros n m Hn Hm. unfold sample_position. assert (P : 0 < INR (m - 1)) by (apply lt_0_INR; lia). assert (Pm : 0 < INR m) by (apply lt_0_INR; lia). split; [cbn [INR]; ring|]. split; [field; lra|]. split.
  - intro H. specialize (H 0%nat). cbn [INR] in H. rewrite !minus_INR in * by lia. change (INR 1) with 1 in *. apply INR_eq.
    assert (E : (INR n - 1) * INR m = INR n * (INR m - 1)). { apply (f_equal (fun x => x * ((INR m - 1) * INR m))) in H. field_simplify in H; [|lra|lra]. lra. } lra.
  - intros -> i. rewrite S_INR. field. lra.
Qed.
Print Assumptions C73_resample.
Example C73_resample_sat : exists n m, (1 <= n)%nat /\ (2 <= m)%nat.
Proof. exists 9%nat, 5%nat. lia. Qed.
Example C73_sat : distance 1 0 <= distance 3 1 /\ floor_of (5 / 2) 2 /\ crop_range 10 5 = (2, 7)%Z /\ (exists n, physical_side (fun z => (1 + z) * (1 + z)) 1 1 1 7 [1; 2] = Some n).
Proof.
  split; [unfold distance; lra|]. split; [unfold floor_of; lra|]. split; [reflexivity|].
  destruct (C73_back (fun z => (1 + z) * (1 + z)) 1 1 1 7 [1; 2]) as (n & E & _); [|lra|lia|exists n; exact E].
  intros z [<-|[<-|[<-|[]]]]; unfold distance; repeat split; lra.
Qed.
