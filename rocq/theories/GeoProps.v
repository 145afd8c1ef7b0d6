(** C106: station layouts and coeval noise cubes. *)
From Coq Require Import String Ascii List Arith ZArith Reals Lra Lia Bool.
From Verif Require Import RLib ConstModel RotModel RotSpec RotProps UnitsModel GeoModel.
Import ListNotations.
Local Open Scope R_scope.

(** * Polar angle *)
Lemma sqrt_factor x t : 0 <= x -> sqrt (x ^ 2 * (1 + t ^ 2)) = x * sqrt (1 + t ^ 2).
Proof. intro H. rewrite sqrt_mult; [|apply pow2_ge_0|pose proof (pow2_ge_0 t); lra]. now rewrite sqrt_pow2. Qed.
Lemma one_t t : 0 < 1 + t ^ 2.
Proof. pose proof (pow2_ge_0 t). lra. Qed.
Lemma atan_polar x y : 0 < x ->
  sqrt (x ^ 2 + y ^ 2) * cos (atan (y / x)) = x /\ sqrt (x ^ 2 + y ^ 2) * sin (atan (y / x)) = y.
Proof.
  intro P. set (t := y / x). assert (E : y = x * t) by (unfold t; field; lra).
  rewrite E. replace (x ^ 2 + (x * t) ^ 2) with (x ^ 2 * (1 + t ^ 2)) by ring.
  rewrite sqrt_factor by lra. rewrite cos_atan, sin_atan.
  replace (1 + t²) with (1 + t ^ 2) by (unfold Rsqr; ring).
  pose proof (sqrt_lt_R0 _ (one_t t)). split; field; lra.
Qed.
Lemma atan_polar_neg x y : x < 0 ->
  sqrt (x ^ 2 + y ^ 2) * cos (atan (y / x)) = - x /\ sqrt (x ^ 2 + y ^ 2) * sin (atan (y / x)) = - y.
Proof.
  intro P. destruct (atan_polar (- x) (- y)) as [A B]; [lra|].
  replace (- y / - x) with (y / x) in * by (field; lra).
  replace ((- x) ^ 2 + (- y) ^ 2) with (x ^ 2 + y ^ 2) in * by ring. now split.
Qed.
Lemma atan_sign t : (0 <= t -> 0 <= atan t) /\ (t < 0 -> atan t < 0).
Proof.
  split; intro H.
  - destruct H as [H| <-]; [|rewrite atan_0; lra]. rewrite <- atan_0. left. now apply atan_increasing.
  - rewrite <- atan_0. now apply atan_increasing.
Qed.
Lemma arctan2_spec x y : ~ (x = 0 /\ y = 0) ->
  - PI < arctan2 y x <= PI /\
  sqrt (x ^ 2 + y ^ 2) * cos (arctan2 y x) = x /\ sqrt (x ^ 2 + y ^ 2) * sin (arctan2 y x) = y.
Proof.
  intro N. pose proof PI_RGT_0 as P. unfold arctan2.
  pose proof (atan_bound (y / x)) as AB.
  destruct (Rlt_dec 0 x) as [H|H]; [split; [lra|now apply atan_polar]|].
  destruct (Rlt_dec x 0) as [G|G].
  - destruct (atan_polar_neg x y G) as [A B].
    assert (I : / x < 0) by now apply Rinv_lt_0_compat.
    destruct (Rle_dec 0 y) as [Y|Y].
    + split.
      * assert (atan (y / x) <= 0).
        { destruct (Req_dec y 0) as [->|NY]; [unfold Rdiv; rewrite Rmult_0_l, atan_0; lra|].
          left. apply (proj2 (atan_sign _)). unfold Rdiv. rewrite <- (Rmult_0_r y). apply Rmult_lt_compat_l; lra. }
        lra.
      * rewrite neg_cos, neg_sin. split; lra.
    + split.
      * assert (0 < atan (y / x)).
        { rewrite <- atan_0. apply atan_increasing. unfold Rdiv. replace (y * / x) with ((- y) * (- / x)) by ring. apply Rmult_lt_0_compat; lra. }
        lra.
      * unfold Rminus. replace (atan (y / x) + - PI) with (- (PI - atan (y / x))) by ring.
        rewrite cos_neg, sin_neg. rewrite Rtrigo_facts.cos_pi_minus, Rtrigo_facts.sin_pi_minus. split; lra.
  - assert (X0 : x = 0) by lra. subst x. replace (0 ^ 2 + y ^ 2) with (y ^ 2) by ring.
    destruct (Rlt_dec 0 y) as [Y|Y].
    + rewrite sqrt_pow2, cos_PI2, sin_PI2 by lra. split; [lra|split; ring].
    + destruct (Rlt_dec y 0) as [Z|Z]; [|exfalso; apply N; split; lra].
      replace (y ^ 2) with ((- y) ^ 2) by ring.
      rewrite sqrt_pow2, cos_neg, sin_neg, cos_PI2, sin_PI2 by lra. split; [lra|split; ring].
Qed.

Lemma angle_unique a b : - PI < a <= PI -> - PI < b <= PI -> cos a = cos b -> sin a = sin b -> a = b.
Proof.
  intros HA HB C S'. pose proof PI_RGT_0 as P.
  assert (D : cos (a - b) = 1) by (rewrite cos_minus, C, S'; pose proof (sin2_cos2 b) as T; unfold Rsqr in T; lra).
  replace (a - b) with (2 * ((a - b) / 2)) in D by field. rewrite cos_2a_sin in D.
  assert (Z : sin ((a - b) / 2) = 0).
  { assert (Q : sin ((a - b) / 2) * sin ((a - b) / 2) = 0) by lra. now destruct (Rmult_integral _ _ Q). }
  destruct (sin_eq_0_0 _ Z) as [k K].
  assert (K1 : -1 < IZR k < 1).
  { split; apply (Rmult_lt_reg_r PI); lra. }
  assert (k = 0%Z) by (destruct K1 as [L U]; apply lt_IZR in L; apply lt_IZR in U; lia).
  subst k. rewrite Rmult_0_l in K. lra.
Qed.

(** * Geographic positions *)
Lemma deg_rad a : deg2rad (rad2deg a) = a.
Proof. unfold deg2rad, rad2deg. field. apply PI_neq0. Qed.
Lemma rad_deg a : rad2deg (deg2rad a) = a.
Proof. unfold deg2rad, rad2deg. field. apply PI_neq0. Qed.
Lemma radius_sq v : radius v * radius v = vx v ^ 2 + vy v ^ 2 + vz v ^ 2.
Proof. unfold radius. apply sqrt_sqrt. pose proof (pow2_ge_0 (vx v)). pose proof (pow2_ge_0 (vy v)). pose proof (pow2_ge_0 (vz v)). lra. Qed.
Lemma radius_norm v : radius v = norm v.
Proof. unfold radius, norm, dot. f_equal. ring. Qed.
Lemma sine_bound v : 0 < radius v -> -1 <= vz v / radius v <= 1.
Proof.
  intro P. pose proof (radius_sq v) as Q. set (s := vz v / radius v).
  assert (E : vz v = s * radius v) by (unfold s; field; lra).
  assert (T : s * s <= 1).
  { apply (Rmult_le_reg_r (radius v * radius v)); [now apply Rmult_lt_0_compat|].
    replace (s * s * (radius v * radius v)) with (vz v ^ 2) by (rewrite E; ring).
    pose proof (pow2_ge_0 (vx v)). pose proof (pow2_ge_0 (vy v)). lra. }
  split.
  - destruct (Rle_lt_dec (-1) s) as [|H]; [assumption|]. assert (1 < (- s) * (- s)) by (rewrite <- (Rmult_1_l 1); apply Rmult_le_0_lt_compat; lra). lra.
  - destruct (Rle_lt_dec s 1) as [|H]; [assumption|]. assert (1 < s * s) by (rewrite <- (Rmult_1_l 1); apply Rmult_le_0_lt_compat; lra). lra.
Qed.
Lemma rad2deg_range a lo hi : lo * PI <= a <= hi * PI -> lo * 180 <= rad2deg a <= hi * 180.
Proof.
  intro H. pose proof PI_RGT_0 as P. unfold rad2deg.
  split; apply (Rmult_le_reg_r PI); try assumption; unfold Rdiv; rewrite !Rmult_assoc, ?Rinv_l by lra; lra.
Qed.

(** C106: what the conversion returns for a point away from the centre of the Earth are a longitude in [-180, 180], a
    latitude in [-90, 90] and a height from which the point is recovered; the height is the distance from the centre less 6371 km. *)
Theorem C106_geographic : forall v, norm v <> 0 ->
  exists lon lat h, geographic v = (lon, Some lat, h) /\
    -180 <= lon <= 180 /\ -90 <= lat <= 90 /\ h = norm v - 6371000 /\
    vx v = (6371000 + h) * cos (lat * PI / 180) * cos (lon * PI / 180) /\
    vy v = (6371000 + h) * cos (lat * PI / 180) * sin (lon * PI / 180) /\
    vz v = (6371000 + h) * sin (lat * PI / 180).
Proof.
  intros v N. rewrite <- radius_norm in *. pose proof PI_RGT_0 as P.
  assert (R0 : 0 < radius v) by (pose proof (sqrt_pos (vx v ^ 2 + vy v ^ 2 + vz v ^ 2)); unfold radius in *; lra).
  pose proof (sine_bound v R0) as SB. pose proof (radius_sq v) as RQ.
  set (s := vz v / radius v) in *.
  assert (ZS : vz v = radius v * s) by (unfold s; field; lra).
  exists (rad2deg (arctan2 (vy v) (vx v))), (rad2deg (asin s)), (radius v - R_earth).
  unfold geographic. destruct (Req_EM_T (radius v) 0) as [Z|_]; [contradiction|]. fold s.
  change (rad2deg (asin s) * PI / 180) with (deg2rad (rad2deg (asin s))).
  change (rad2deg (arctan2 (vy v) (vx v)) * PI / 180) with (deg2rad (rad2deg (arctan2 (vy v) (vx v)))).
  rewrite !deg_rad. replace (6371000 + (radius v - R_earth)) with (radius v) by (unfold R_earth; ring).
  assert (A : - PI <= arctan2 (vy v) (vx v) <= PI).
  { destruct (Req_dec (vx v) 0) as [X|X]; [destruct (Req_dec (vy v) 0) as [Y|Y]|].
    - rewrite X, Y. unfold arctan2. repeat (match goal with |- context [if ?c then _ else _] => destruct c end; try lra).
    - destruct (arctan2_spec (vx v) (vy v)) as [? _]; [tauto|lra].
    - destruct (arctan2_spec (vx v) (vy v)) as [? _]; [tauto|lra]. }
  split; [reflexivity|]. split; [assert (A' : -1 * PI <= arctan2 (vy v) (vx v) <= 1 * PI) by lra; apply rad2deg_range in A'; lra|].
  split. { pose proof (asin_bound s) as B. assert (B' : - (1 / 2) * PI <= asin s <= 1 / 2 * PI) by lra. apply rad2deg_range in B'. lra. }
  split; [reflexivity|].
  rewrite sin_asin, cos_asin by assumption.
  assert (C : radius v * sqrt (1 - s²) = sqrt (vx v ^ 2 + vy v ^ 2)).
  { rewrite <- (sqrt_pow2 (radius v)) at 1 by lra. rewrite <- sqrt_mult; [|apply pow2_ge_0|].
    - f_equal. rewrite ZS in RQ. unfold Rsqr. replace (radius v ^ 2) with (radius v * radius v) by ring. rewrite Rmult_minus_distr_l.
      replace (vx v ^ 2 + vy v ^ 2) with (radius v * radius v - (radius v * s) ^ 2) by lra. ring.
    - unfold Rsqr. destruct SB as [L U].
      assert (0 <= (1 - s) * (1 + s)) by (apply Rmult_le_pos; lra). lra. }
  rewrite C. destruct (Req_dec (vx v) 0) as [X|X]; [destruct (Req_dec (vy v) 0) as [Y|Y]|].
  - rewrite X, Y. replace (0 ^ 2 + 0 ^ 2) with 0 by ring. rewrite sqrt_0. split; [ring|]. split; [ring|exact ZS].
  - destruct (arctan2_spec (vx v) (vy v)) as (_ & E1 & E2); [tauto|]. split; [now symmetry|]. split; [now symmetry|exact ZS].
  - destruct (arctan2_spec (vx v) (vy v)) as (_ & E1 & E2); [tauto|]. split; [now symmetry|]. split; [now symmetry|exact ZS].
Qed.
Print Assumptions C106_geographic.
Example C106_geographic_sat : norm (3, -4, 12) <> 0.
Proof. unfold norm, dot, vx, vy, vz; cbn [fst snd]. apply Rgt_not_eq, sqrt_lt_R0. lra. Qed.

(** C106: converting a position on the sphere to Cartesian coordinates and back returns it, at height 0. *)
Theorem C106_round_trip : forall lon lat, -180 < lon <= 180 -> -90 < lat < 90 ->
  geographic (geographic_to_cartesian lon lat) = (lon, Some lat, 0).
Proof.
  intros lon lat HO HA. pose proof PI_RGT_0 as P. set (v := geographic_to_cartesian lon lat).
  assert (RV : radius v = 6371000) by (rewrite radius_norm; apply C54_geographic_on_sphere).
  assert (RO : - PI < deg2rad lon <= PI).
  { unfold deg2rad. split; [apply (Rmult_lt_reg_r 180)|apply (Rmult_le_reg_r 180)]; try lra; unfold Rdiv; rewrite Rmult_assoc, Rinv_l, Rmult_1_r by lra.
    - replace (- PI * 180) with (-180 * PI) by ring. apply Rmult_lt_compat_r; lra.
    - apply Rle_trans with (180 * PI); [|lra]. apply Rmult_le_compat_r; lra. }
  assert (RA : - (PI / 2) < deg2rad lat < PI / 2).
  { assert (T : 0 < PI / 180) by lra. unfold deg2rad. replace (lat * PI / 180) with (lat * (PI / 180)) by field.
    split; [replace (- (PI / 2)) with (- 90 * (PI / 180)) by field|replace (PI / 2) with (90 * (PI / 180)) by field]; apply Rmult_lt_compat_r; lra. }
  assert (CP : 0 < cos (deg2rad lat)) by (apply cos_gt_0; lra).
  unfold geographic. rewrite RV. destruct (Req_EM_T 6371000 0) as [Z|_]; [lra|].
  assert (L : arctan2 (vy v) (vx v) = deg2rad lon).
  { set (k := R_earth * cos (deg2rad lat)). assert (K : 0 < k) by (unfold k, R_earth; apply Rmult_lt_0_compat; lra).
    assert (VX : vx v = k * cos (deg2rad lon)) by reflexivity. assert (VY : vy v = k * sin (deg2rad lon)) by reflexivity.
    assert (Q : sqrt (vx v ^ 2 + vy v ^ 2) = k).
    { rewrite VX, VY. replace ((k * cos (deg2rad lon)) ^ 2 + (k * sin (deg2rad lon)) ^ 2) with (k ^ 2 * (sin (deg2rad lon) * sin (deg2rad lon) + cos (deg2rad lon) * cos (deg2rad lon))) by ring.
      rewrite sc, Rmult_1_r. apply sqrt_pow2. lra. }
    destruct (arctan2_spec (vx v) (vy v)) as (B & E1 & E2).
    { intros [X Y]. rewrite X, Y in Q. replace (0 ^ 2 + 0 ^ 2) with 0 in Q by ring. rewrite sqrt_0 in Q. lra. }
    rewrite Q in E1, E2. apply angle_unique; try assumption.
    - apply (Rmult_eq_reg_l k); [|lra]. now rewrite E1.
    - apply (Rmult_eq_reg_l k); [|lra]. now rewrite E2. }
  rewrite L. assert (ZV : vz v / 6371000 = sin (deg2rad lat)).
  { change (vz v) with (R_earth * sin (deg2rad lat)). unfold R_earth. field. }
  rewrite ZV, asin_sin by lra. rewrite !rad_deg. unfold R_earth. f_equal. ring.
Qed.
Print Assumptions C106_round_trip.
Example C106_round_trip_sat : -180 < 116 <= 180 /\ -90 < -26 < 90.
Proof. lra. Qed.

(** C106: the documented plain array is refused, so is a quantity in metres; a result comes out exactly for a quantity
    without unit. Every quantity is left with a unit one power of metres higher: what once worked fails the second time. *)
Theorem C106_accepts : forall t l t', cartesian_to_geographic t = (Returned l, t') <->
  exists rows, t = Quantity 0 rows /\ l = map geographic rows /\ t' = Quantity 1 rows.
Proof.
  intros t l t'. split.
  - destruct t as [rows|d rows]; cbn [cartesian_to_geographic]; [discriminate|].
    destruct (Z.eqb_spec (d + 1) 1) as [E|E]; [|discriminate]. intro H. injection H as <- <-. exists rows.
    assert (d = 0%Z) by lia. subst d. now repeat split.
  - intros (rows & -> & -> & ->). reflexivity.
Qed.
Print Assumptions C106_accepts.
Theorem C106_refuses : (forall rows, cartesian_to_geographic (Plain rows) = (Raised "AttributeError", Plain rows)) /\
  (forall d rows, d <> 0%Z -> cartesian_to_geographic (Quantity d rows) = (Raised "UnitConversionError", Quantity (d + 1) rows)) /\
  (forall t, snd (cartesian_to_geographic t) = match t with Plain rows => Plain rows | Quantity d rows => Quantity (d + 1) rows end) /\
  (forall t l t', cartesian_to_geographic t = (Returned l, t') -> fst (cartesian_to_geographic t') = Raised "UnitConversionError").
Proof.
  split; [reflexivity|]. split; [|split].
  - intros d rows N. cbn [cartesian_to_geographic]. destruct (Z.eqb_spec (d + 1) 1) as [E|_]; [lia|reflexivity].
  - intros [rows|d rows]; [reflexivity|]. cbn [cartesian_to_geographic]. now destruct (d + 1 =? 1)%Z.
  - intros t l t' H. apply C106_accepts in H. destruct H as (rows & _ & _ & ->). reflexivity.
Qed.
Print Assumptions C106_refuses.

(** * Layouts *)
(** ASCII letters, the only ones the case changes touch. *)
Lemma upper_lower_char c : upper_char (lower_char c) = upper_char c.
Proof. destruct c as [[] [] [] [] [] [] [] []]; reflexivity. Qed.
Lemma upper_upper_char c : upper_char (upper_char c) = upper_char c.
Proof. destruct c as [[] [] [] [] [] [] [] []]; reflexivity. Qed.
Lemma lower_upper_char c : lower_char (upper_char c) = lower_char c.
Proof. destruct c as [[] [] [] [] [] [] [] []]; reflexivity. Qed.
Lemma smap_smap f g h : (forall c, f (g c) = h c) -> forall s, smap f (smap g s) = smap h s.
Proof. intros E s. induction s as [|c s IH]; [reflexivity|]. cbn [smap]. now rewrite E, IH. Qed.

Local Open Scope string_scope.
(** The table of the documentation. *)
Definition documented : list (string * string) :=
  [("AA4", "input_data/skalow_AA4_layout.txt"); ("AASTAR", "input_data/skalow_AAstar_layout.txt"); ("AA*", "input_data/skalow_AAstar_layout.txt");
   ("AA2", "input_data/skalow_AA2_layout.txt"); ("AA1", "input_data/skalow_AA1_layout.txt"); ("AA0.5", "input_data/skalow_AA0.5_layout.txt")].
(** C106: a documented name, in any mixture of upper and lower case, selects its own file; every other name, a misspelt one
    too, silently selects the SKA1 file. *)
Theorem C106_file : forall s,
  (forall name file, In (name, file) documented -> upper s = name -> layout_file s = file) /\
  ((forall name file, In (name, file) documented -> upper s <> name) -> layout_file s = "input_data/skalow1_layout.txt") /\
  layout_file (lower s) = layout_file s /\ layout_file (upper s) = layout_file s.
Proof.
  intro s. split; [|split; [|split]].
  - intros name file I E. unfold layout_file. rewrite E.
    cbn [documented In] in I. repeat (destruct I as [I|I]; [injection I as <- <-; reflexivity|]). contradiction.
  - intro N. unfold layout_file. cbn [existsb].
    assert (D : forall name file, In (name, file) documented -> String.eqb (upper s) name = false).
    { intros name file I. apply String.eqb_neq. now apply (N name file). }
    rewrite (D "AA4" _ (or_introl eq_refl)), (D "AASTAR" _ (or_intror (or_introl eq_refl))), (D "AA*" _ (or_intror (or_intror (or_introl eq_refl)))).
    rewrite (D "AA2" _ (or_intror (or_intror (or_intror (or_introl eq_refl))))).
    rewrite (D "AA1" _ (or_intror (or_intror (or_intror (or_intror (or_introl eq_refl)))))).
    rewrite (D "AA0.5" _ (or_intror (or_intror (or_intror (or_intror (or_intror (or_introl eq_refl))))))). reflexivity.
  - unfold layout_file. unfold upper, lower. now rewrite (smap_smap _ _ upper_char upper_lower_char).
  - unfold layout_file. unfold upper. now rewrite (smap_smap _ _ upper_char upper_upper_char).
Qed.
Print Assumptions C106_file.
Example C106_file_sat : layout_file "aaStar" = "input_data/skalow_AAstar_layout.txt" /\ layout_file "AA-4" = "input_data/skalow1_layout.txt".
Proof. now split. Qed.

Local Open Scope R_scope.
Lemma nth_map_vec (f : vec -> vec) l i : (i < length l)%nat -> nth i (map f l) (0, 0, 0) = f (nth i l (0, 0, 0)).
Proof. intro H. rewrite (nth_indep _ (0, 0, 0) (f (0, 0, 0))) by now rewrite map_length. apply map_nth. Qed.
(** C106: in the frames 'enu', 'ecef' and 'xyz' (any case) the layout has the antennas of the file in the order of the file,
    with all their separations. Every other frame raises, 'latlon' and 'geodetic', for which there is a branch, too. *)
Theorem C106_layout : forall load lat lon origin sub unit,
  (forall l, get_layout load lat lon origin sub unit = Returned l ->
     In (lower unit) ["enu"; "ecef"; "xyz"]%string /\ length l = length (load (layout_file sub)) /\
     forall i j, (i < length l)%nat -> (j < length l)%nat ->
       dist3 (nth i l (0, 0, 0)) (nth j l (0, 0, 0)) = dist3 (nth i (load (layout_file sub)) (0, 0, 0)) (nth j (load (layout_file sub)) (0, 0, 0))) /\
  (lower unit = "enu"%string -> get_layout load lat lon origin sub unit = Returned (load (layout_file sub))) /\
  (lower unit = "ecef"%string -> get_layout load lat lon origin sub unit = Returned (map (enu_to_ecef lat lon origin) (load (layout_file sub)))) /\
  (lower unit = "xyz"%string -> get_layout load lat lon origin sub unit =
     Returned (map (ecef_to_xyz lon origin) (map (enu_to_ecef lat lon origin) (load (layout_file sub))))) /\
  (get_layout load lat lon origin sub unit = Raised "UnboundLocalError" <-> In unit ["latlon"; "geodetic"]%string) /\
  (get_layout load lat lon origin sub unit = Raised "ValueError" <-> ~ In (lower unit) ["enu"; "ecef"; "xyz"]%string /\ ~ In unit ["latlon"; "geodetic"]%string).
Proof.
  intros load lat lon origin sub unit.
  assert (U : forall s, lower unit = s -> s <> "latlon"%string -> s <> "geodetic"%string -> ~ In unit ["latlon"; "geodetic"]%string).
  { intros s E A B [<-|[<-|[]]]; [apply A|apply B]; rewrite <- E; reflexivity. }
  assert (M : existsb (String.eqb unit) ["latlon"; "geodetic"]%string = true <-> In unit ["latlon"; "geodetic"]%string).
  { rewrite existsb_exists. split; [intros (x & I & E); apply String.eqb_eq in E; now subst x|intro I; exists unit; split; [exact I|apply String.eqb_refl]]. }
  unfold get_layout. set (enu := load (layout_file sub)) in *.
  destruct (String.eqb_spec (lower unit) "enu") as [E1|E1].
  { split; [intros l H; injection H as <-; split; [rewrite E1; left; reflexivity|split; [reflexivity|intros; reflexivity]]|].
    split; [reflexivity|]. split; [congruence|]. split; [congruence|].
    split; (split; [discriminate|]).
    - intro I. exfalso. apply (U "enu"%string); first [exact I|exact E1|discriminate].
    - intros [I _]. exfalso. apply I. rewrite E1. left. reflexivity. }
  destruct (String.eqb_spec (lower unit) "ecef") as [E2|E2].
  { split; [intros l H; injection H as <-; split; [rewrite E2; right; left; reflexivity|split; [apply map_length|]]|].
    - rewrite map_length. intros i j Hi Hj. rewrite !nth_map_vec by assumption. apply C54_enu_to_ecef_isometry.
    - split; [congruence|]. split; [reflexivity|]. split; [congruence|].
      split; (split; [discriminate|]).
      + intro I. exfalso. apply (U "ecef"%string); first [exact I|exact E2|discriminate].
      + intros [I _]. exfalso. apply I. rewrite E2. right. left. reflexivity. }
  destruct (String.eqb_spec (lower unit) "xyz") as [E3|E3].
  { split; [intros l H; injection H as <-; split; [rewrite E3; do 2 right; left; reflexivity|split; [apply map_length|]]|].
    - rewrite map_length. intros i j Hi Hj.
      rewrite !(nth_map_vec (fun e => ecef_to_xyz lon origin (enu_to_ecef lat lon origin e))) by assumption.
      rewrite (proj1 (C54_ecef_to_xyz_isometry _ _ _ _)). apply C54_enu_to_ecef_isometry.
    - split; [congruence|]. split; [congruence|]. split; [intros _; now rewrite map_map|].
      split; (split; [discriminate|]).
      + intro I. exfalso. apply (U "xyz"%string); first [exact I|exact E3|discriminate].
      + intros [I _]. exfalso. apply I. rewrite E3. do 2 right. left. reflexivity. }
  assert (NF : ~ In (lower unit) ["enu"; "ecef"; "xyz"]%string) by (intros [H|[H|[H|[]]]]; now symmetry in H).
  destruct (existsb (String.eqb unit) ["latlon"; "geodetic"]%string) eqn:X.
  - split; [discriminate|]. split; [intro; contradiction|]. split; [intro; contradiction|]. split; [intro; contradiction|]. split.
    + split; [intros _; now apply M|reflexivity].
    + split; [discriminate|]. intros [_ N]. exfalso. apply N, M. reflexivity.
  - split; [discriminate|]. split; [intro; contradiction|]. split; [intro; contradiction|]. split; [intro; contradiction|]. split.
    + split; [discriminate|]. intro I. apply M in I. discriminate.
    + split; [|reflexivity]. intros _. split; [exact NF|]. intro I. apply M in I. discriminate.
Qed.
Print Assumptions C106_layout.
Example C106_layout_sat : let load := fun _ : string => [(0, 0, 0); (30, 40, 0)] in
  (exists l, get_layout load (-26) 116 (1, 2, 3) "AA4" "XYZ" = Returned l /\ dist3 (nth 0 l (0, 0, 0)) (nth 1 l (0, 0, 0)) = 50) /\
  get_layout load (-26) 116 (1, 2, 3) "AA4" "latlon" = Raised "UnboundLocalError" /\ get_layout load (-26) 116 (1, 2, 3) "AA4" "LatLon" = Raised "ValueError".
Proof.
  intro load. split; [|now split].
  destruct (C106_layout load (-26) 116 (1, 2, 3) "AA4" "XYZ") as (D & _ & _ & X & _).
  rewrite X in D by reflexivity. destruct (D _ eq_refl) as (_ & L & S').
  eexists. split; [apply X; reflexivity|]. rewrite S'; [|rewrite L; cbn; lia|rewrite L; cbn; lia].
  unfold dist3, norm, dot, diff, load, vx, vy, vz; cbn [nth fst snd].
  replace ((0 - 30) * (0 - 30) + (0 - 40) * (0 - 40) + (0 - 0) * (0 - 0)) with (50 ^ 2) by ring. apply sqrt_pow2. lra.
Qed.

(** C106: the number of antennas reported is that of the layout returned. A numpy array of positions is used as it is; a
    list of positions, or any other object, is silently replaced by the configuration of September 2016. *)
Theorem C106_subarray : forall load lat lon origin sept s,
  (exists a, subarray_to_antxyz load lat lon origin sept s = Returned (a, length a)) /\
  (forall rows, subarray_to_antxyz load lat lon origin sept (Array rows) = Returned (rows, length rows)) /\
  (forall name a n, subarray_to_antxyz load lat lon origin sept (Name name) = Returned (a, n) ->
     n = length (load (layout_file name)) /\ get_layout load lat lon origin name "xyz" = Returned a) /\
  (forall a n, subarray_to_antxyz load lat lon origin sept Other = Returned (a, n) -> n = length sept /\ Forall (fun p => norm p = 6371000) a).
Proof.
  intros load lat lon origin sept s. split; [|split; [|split]].
  - destruct s; eexists; reflexivity.
  - reflexivity.
  - intros name a n H. cbn [subarray_to_antxyz] in H.
    change (get_layout load lat lon origin name "xyz") with (Returned (map (fun e => ecef_to_xyz lon origin (enu_to_ecef lat lon origin e)) (load (layout_file name)))) in *.
    set (f := fun e => ecef_to_xyz lon origin (enu_to_ecef lat lon origin e)) in *. clearbody f.
    injection H as <- <-. split; [apply map_length|reflexivity].
  - intros a n H. cbn [subarray_to_antxyz] in H. set (f := fun p : R * R => geographic_to_cartesian (fst p) (snd p)) in *.
    assert (F : forall p, norm (f p) = 6371000) by (intro p; apply C54_geographic_on_sphere). clearbody f.
    injection H as <- <-. split; [apply map_length|]. apply Forall_forall. intros x I. apply in_map_iff in I. destruct I as (p & <- & _). apply F.
Qed.
Print Assumptions C106_subarray.

(** * Smoothing of the uv map *)
(** The largest entry, independently of how it is found. *)
Definition is_max (m : R) (l : list R) : Prop := In m l /\ forall x, In x l -> x <= m.
Lemma fold_max l : forall x, is_max (fold_left Rmax l x) (x :: l).
Proof.
  induction l as [|y l IH]; intro x; [split; [left; reflexivity|]; intros z [<-|[]]; apply Rle_refl|].
  cbn [fold_left]. destruct (IH (Rmax x y)) as [I U]. split.
  - destruct I as [E|I]; [|right; right; exact I]. rewrite <- E. unfold Rmax. destruct (Rle_dec x y); [right; left; reflexivity|left; reflexivity].
  - intros z [<-|[<-|H]].
    + apply Rle_trans with (Rmax x y); [apply Rmax_l|apply U; left; reflexivity].
    + apply Rle_trans with (Rmax x y); [apply Rmax_r|apply U; left; reflexivity].
    + apply U. right. exact H.
Qed.
Lemma maximum_is_max l : l <> [] -> is_max (maximum l) l.
Proof. destruct l as [|x l]; [congruence|]. intros _. apply fold_max. Qed.
Lemma is_max_unique m m' l : is_max m l -> is_max m' l -> m = m'.
Proof. intros [I U] [I' U']. apply Rle_antisym; [now apply U'|now apply U]. Qed.

(** C106: 'gaussian' (any case) keeps the largest value of the map and makes the rest proportional to the square root of the
    filtered map; 'binned' needs a box size; a method that is not supported ends in a NameError rather than an unsmoothed map. *)
Theorem C106_suppress : forall filter binned boxsize method uv,
  (lower method = "gaussian"%string -> uv <> [] -> (forall m, is_max m uv -> 0 < m) -> length (filter uv) = length uv -> (exists x, In x (filter uv) /\ 0 < x) ->
   exists out c, suppress filter binned boxsize method uv = Returned out /\ 0 < c /\ out = map (fun x => sqrt x * c) (filter uv) /\
     (forall m, is_max m uv <-> is_max m out)) /\
  (lower method = "binned"%string \/ lower method = "bin"%string ->
   suppress filter binned boxsize method uv = match boxsize with None => Raised "AssertionError" | Some _ => Returned (binned uv) end) /\
  (suppress filter binned boxsize method uv = Raised "UnboundLocalError" <-> ~ In (lower method) ["gaussian"; "binned"; "bin"]%string).
Proof.
  intros filter binned boxsize method uv. split; [|split].
  - intros E N PM LEN [x0 [I0 P0]]. unfold suppress. rewrite E. cbn [String.eqb]. change (String.eqb "gaussian" "gaussian") with true. cbn match.
    set (s := map sqrt (filter uv)).
    assert (SN : s <> []) by (unfold s; destruct (filter uv); [destruct I0|discriminate]).
    pose proof (maximum_is_max s SN) as MS. pose proof (maximum_is_max uv N) as MU. pose proof (PM _ MU) as PU.
    assert (PS : 0 < maximum s).
    { apply Rlt_le_trans with (sqrt x0); [now apply sqrt_lt_R0|]. apply (proj2 MS). unfold s. now apply in_map. }
    set (c := maximum uv / maximum s). assert (PC : 0 < c) by (apply Rdiv_lt_0_compat; assumption).
    exists (map (fun v => v * c) s), c. split; [reflexivity|]. split; [exact PC|]. split; [unfold s; now rewrite map_map|].
    assert (MO : is_max (maximum uv) (map (fun v => v * c) s)).
    { split.
      - apply in_map_iff. exists (maximum s). split; [unfold c; field; lra|apply MS].
      - intros y I. apply in_map_iff in I. destruct I as (v & <- & I). replace (maximum uv) with (maximum s * c) by (unfold c; field; lra).
        apply Rmult_le_compat_r; [lra|now apply (proj2 MS)]. }
    intro m. split; intro H.
    + now rewrite (is_max_unique _ _ _ H MU).
    + now rewrite (is_max_unique _ _ _ H MO).
  - intros [E|E]; unfold suppress; rewrite E; reflexivity.
  - unfold suppress. destruct (String.eqb_spec (lower method) "gaussian") as [E|E].
    + split; [discriminate|]. intro H. exfalso. apply H. left. now symmetry.
    + cbn [existsb]. destruct (String.eqb_spec (lower method) "binned") as [F|F]; [|destruct (String.eqb_spec (lower method) "bin") as [G|G]]; cbn [orb].
      * split; [destruct boxsize; discriminate|]. intro H. exfalso. apply H. right. left. now symmetry.
      * split; [destruct boxsize; discriminate|]. intro H. exfalso. apply H. right. right. left. now symmetry.
      * split; [|reflexivity]. intros _ [H|[H|[H|[]]]]; symmetry in H; contradiction.
Qed.
Print Assumptions C106_suppress.
Example C106_suppress_sat : exists out, suppress (map (fun x => x + 1)) (fun l => l) None "Gaussian" [0; 8; 3] = Returned out /\ is_max 8 out.
Proof.
  assert (MU : is_max 8 [0; 8; 3]) by (split; [right; left; reflexivity|intros x [<-|[<-|[<-|[]]]]; lra]).
  destruct (proj1 (C106_suppress (map (fun x => x + 1)) (fun l => l) None "Gaussian" [0; 8; 3])) as (out & c & E & _ & _ & M).
  - reflexivity.
  - discriminate.
  - intros m H. rewrite (is_max_unique _ _ _ H MU). lra.
  - reflexivity.
  - exists 9. split; [right; left; lra|lra].
  - exists out. split; [exact E|now apply M].
Qed.

(** * Coeval noise cubes *)
(** C106: the cube has [ncells] slices. All are made for the layout, the same uv map (the given one, or one made once), the
    number of antennas of the layout and one channel width, and are divided by one factor. *)
Theorem C106_cube : forall v z_to_cdist cdist_to_z slice uv_of antxyz ncells z depth_mhz boxsize uv_map N_ant k,
  let cube := noise_cube_coeval v z_to_cdist cdist_to_z slice uv_of antxyz ncells z depth_mhz boxsize uv_map N_ant in
  let box := match boxsize with Some b => b | None => LB v end in
  length cube = ncells /\
  ((k < ncells)%nat -> exists depth uv, nth k cube [] = jansky_2_kelvin v (z_to_cdist z) (Z.of_nat ncells) (slice k antxyz uv (length antxyz) depth) z (Some box) None /\
     uv = match uv_map with Some m => m | None => fst (uv_of antxyz) end /\
     (forall d, depth_mhz = Some d -> depth = d) /\
     (depth_mhz = None -> INR ncells * depth = z_to_nu (cdist_to_z (z_to_cdist z - box / 2)) - z_to_nu (cdist_to_z (z_to_cdist z + box / 2)))).
Proof.
  intros v zc cz slice uv_of antxyz ncells z depth_mhz boxsize uv_map N_ant k cube box. unfold cube, noise_cube_coeval, noise_map. fold box.
  set (depth := match depth_mhz with Some d => d | None => _ end).
  assert (ED : (forall d, depth_mhz = Some d -> depth = d) /\ ((0 < ncells)%nat -> depth_mhz = None -> INR ncells * depth = z_to_nu (cz (zc z - box / 2)) - z_to_nu (cz (zc z + box / 2)))).
  { split; [intros d H; unfold depth; now rewrite H|]. intros P H. unfold depth. rewrite H. field. apply not_0_INR. lia. }
  clearbody depth.
  destruct uv_map as [m|]; [|destruct (uv_of antxyz) as [uv n]].
  - split; [now rewrite map_length, seq_length|]. intro H.
    exists depth, m. split; [|split; [reflexivity|split; [apply ED|intro; apply ED; [lia|assumption]]]].
    match goal with |- nth k (map ?f _) _ = _ => set (g := f) end.
    rewrite (nth_indep _ [] (g 0%nat)) by now rewrite map_length, seq_length. rewrite map_nth, seq_nth by assumption. reflexivity.
  - split; [now rewrite map_length, seq_length|]. intro H.
    exists depth, uv. split; [|split; [reflexivity|split; [apply ED|intro; apply ED; [lia|assumption]]]].
    match goal with |- nth k (map ?f _) _ = _ => set (g := f) end.
    rewrite (nth_indep _ [] (g 0%nat)) by now rewrite map_length, seq_length. rewrite map_nth, seq_nth by assumption. reflexivity.
Qed.
Print Assumptions C106_cube.
(** C106: the number of antennas passed by the caller has no effect, on a cube or on a map. *)
Theorem C106_antennas_ignored : forall v z_to_cdist cdist_to_z slice uv_of antxyz ncells z depth_mhz boxsize uv_map n n',
  noise_cube_coeval v z_to_cdist cdist_to_z slice uv_of antxyz ncells z depth_mhz boxsize uv_map n = noise_cube_coeval v z_to_cdist cdist_to_z slice uv_of antxyz ncells z depth_mhz boxsize uv_map n' /\
  forall (one : list vec -> list R -> nat -> R -> list R) depth m, noise_map one uv_of antxyz depth (Some m) n = one antxyz m (length antxyz) depth.
Proof. intros. split; reflexivity. Qed.
Print Assumptions C106_antennas_ignored.
Example C106_cube_sat : forall v, let cube := noise_cube_coeval v (fun z => 1000 * z) (fun d => d / 1000) (fun k _ uv n d => map (fun x => INR k + x * INR n * d) uv)
  (fun _ => ([1; 2], 7%nat)) [(0, 0, 0); (1, 0, 0)] 2 9 None (Some 100) None (Some 512%nat) in
  length cube = 2%nat /\ exists depth, nth 1 cube [] = jansky_2_kelvin v 9000 2 [1 + 1 * 2 * depth; 1 + 2 * 2 * depth] 9 (Some 100) None.
Proof.
  intros v cube. destruct (C106_cube v (fun z => 1000 * z) (fun d => d / 1000) (fun k _ uv n d => map (fun x => INR k + x * INR n * d) uv)
  (fun _ => ([1; 2], 7%nat)) [(0, 0, 0); (1, 0, 0)] 2 9 None (Some 100) None (Some 512%nat) 1) as [L H]. split; [exact L|].
  destruct (H ltac:(lia)) as (depth & uv & E & U & _). exists depth. unfold cube. rewrite E, U. cbn [fst map length INR Z.of_nat].
  replace (1000 * 9) with 9000 by ring. replace (1 + 1) with 2 by ring. reflexivity.
Qed.
