(** Property C07 (Earth rotation) and the related coordinate changes. *)
From Coq Require Import Reals List Lra Lia Psatz.
From Verif Require Import RotModel RotSpec.
Import ListNotations.
Local Open Scope R_scope.

Lemma sc a : sin a * sin a + cos a * cos a = 1.
Proof. exact (sin2_cos2 a). Qed.

Lemma rotate_dot HA delta a b : dot (rotate HA delta a) (rotate HA delta b) = dot a b.
Proof.
  destruct a as [[a1 a2] a3], b as [[b1 b2] b3]. unfold dot, rotate, vx, vy, vz; cbn [fst snd].
  pose proof (sc HA) as H. pose proof (sc delta) as D.
  set (s := sin HA) in *. set (c := cos HA) in *. set (sd := sin delta) in *. set (cd := cos delta) in *.
  assert (Ec : c * c = 1 - s * s) by lra. assert (Ed : cd * cd = 1 - sd * sd) by lra.
  transitivity (a1*b1*(s*s + (sd*sd + cd*cd)*(c*c)) + a2*b2*(c*c + (sd*sd+cd*cd)*(s*s))
    + a3*b3*(cd*cd+sd*sd) + (a1*b2+a2*b1)*(s*c - (sd*sd+cd*cd)*(s*c))); [ring|].
  rewrite Ec, Ed. ring.
Qed.

(** C07: inner products of rotated baselines are unchanged, for every slice,
    integration time, total time and declination. *)
Theorem C07_rotation_preserves_dot :
  forall Nbase k int_time total dec i j a b,
    nth_error Nbase i = Some a -> nth_error Nbase j = Some b ->
    exists a' b',
      nth_error (earth_rotation Nbase k int_time total dec) i = Some a' /\
      nth_error (earth_rotation Nbase k int_time total dec) j = Some b' /\
      dot a' b' = dot a b /\ norm a' = norm a.
Proof.
  intros Nbase k it tot dec i j a b Ha Hb. unfold earth_rotation. rewrite !nth_error_map, Ha, Hb.
  eexists _, _. split; [reflexivity|]. split; [reflexivity|].
  split; [apply rotate_dot|]. unfold norm. now rewrite rotate_dot.
Qed.
Print Assumptions C07_rotation_preserves_dot.
Example C07_rotation_preserves_dot_sat : exists (Nbase : list vec) (i : nat) (j : nat) (a : vec) (b : vec), nth_error Nbase i = Some a /\ nth_error Nbase j = Some b.
Proof. eexists [(1, 2, 3); (4, 5, 6)], 0%nat, 1%nat, _, _. split; reflexivity. Qed.

Example C07_rotation_sat :
  exists a b, nth_error [(3, 4, 0); (1, 2, 2)] 0 = Some a /\ nth_error [(3, 4, 0); (1, 2, 2)] 1 = Some b
   /\ dot a b = 11 /\ norm a = 5.
Proof.
  eexists _, _. split; [reflexivity|]. split; [reflexivity|].
  unfold dot, norm, dot, vx, vy, vz; cbn [fst snd]. split; [ring|].
  replace (3 * 3 + 4 * 4 + 0 * 0) with (5 * 5) by ring. apply sqrt_square. lra.
Qed.

(** C07: same for the numba implementation. *)
Theorem C07_rotation_numba_preserves_dot :
  forall Nbase k int_time dec i j a b,
    nth_error Nbase i = Some a -> nth_error Nbase j = Some b ->
    exists a' b',
      nth_error (earth_rotation_numba Nbase k int_time dec) i = Some a' /\
      nth_error (earth_rotation_numba Nbase k int_time dec) j = Some b' /\
      dot a' b' = dot a b /\ norm a' = norm a.
Proof.
  intros Nbase k it dec i j a b Ha Hb. unfold earth_rotation_numba. rewrite !nth_error_map, Ha, Hb.
  eexists _, _. split; [reflexivity|]. split; [reflexivity|].
  split; [apply rotate_dot|]. unfold norm. now rewrite rotate_dot.
Qed.
Print Assumptions C07_rotation_numba_preserves_dot.

(** C07: the map is orientation preserving (a proper rotation): volumes keep
    their sign. *)
Theorem C07_rotation_proper :
  forall HA delta a b c,
    det3 (rotate HA delta a) (rotate HA delta b) (rotate HA delta c) = det3 a b c.
Proof.
  intros HA delta [[a1 a2] a3] [[b1 b2] b3] [[c1 c2] c3].
  unfold det3, rotate, vx, vy, vz; cbn [fst snd].
  pose proof (sc HA) as H. pose proof (sc delta) as D.
  set (s := sin HA) in *. set (c := cos HA) in *. set (sd := sin delta) in *. set (cd := cos delta) in *.
  transitivity ((s*s+c*c)*(sd*sd+cd*cd)*
     (a1 * (b2 * c3 - b3 * c2) - b1 * (a2 * c3 - a3 * c2) + c1 * (a2 * b3 - a3 * b2))); [ring|].
  rewrite H, D. ring.
Qed.
Print Assumptions C07_rotation_proper.

(** C07: over the day the (u,v) point of a baseline (X,Y,Z) stays on the ellipse
    centred at (0, cos(dec) Z) with semi-axes sqrt(X^2+Y^2) and |sin(dec)| times that. *)
Theorem C07_uv_track_ellipse :
  forall HA delta b,
    let r := rotate HA delta b in
    sin delta ^ 2 * vx r ^ 2 + (vy r - cos delta * vz b) ^ 2
    = sin delta ^ 2 * (vx b ^ 2 + vy b ^ 2).
Proof.
  intros HA delta [[x y] z]. unfold rotate, vx, vy, vz; cbn [fst snd].
  pose proof (sc HA) as H.
  set (s := sin HA) in *. set (c := cos HA) in *. set (sd := sin delta) in *. set (cd := cos delta) in *.
  transitivity (sd^2 * ((x^2+y^2) * (s*s+c*c))); [ring|]. rewrite H. ring.
Qed.
Print Assumptions C07_uv_track_ellipse.

(** The hour angle of slice [k] is the time from transit, in units of the sidereal turn
    of 24 h: the track is symmetric about the middle of the observation. *)
Theorem C07_rotation_hour_angle :
  forall Nbase k int_time total dec,
    earth_rotation Nbase k int_time total dec
    = map (rotate (2 * PI * ((k * int_time / 3600 - total / 2) / 24)) (deg2rad dec)) Nbase
    /\ forall k', (k + k') * int_time = total * 3600 ->
         hour_angle k' int_time total = - hour_angle k int_time total.
Proof.
  intros Nbase k it tot dec. split.
  - unfold earth_rotation. apply map_ext. intros b. f_equal. unfold hour_angle, deg2rad. field.
  - intros k' H. unfold hour_angle, deg2rad.
    replace (k' * it) with (tot * 3600 - k * it) by lra. field.
Qed.
Print Assumptions C07_rotation_hour_angle.

Example C07_rotation_hour_angle_sat : (0 + 2160) * 10 = 6 * 3600.
Proof. lra. Qed.

(** C07: 24 hours of slices bring a baseline back: slices k and k' whose times
    differ by a whole number of days give the same rotated baselines. *)
Lemma rotate_period HA delta b (n : nat) : rotate (HA + 2 * INR n * PI) delta b = rotate HA delta b.
Proof. unfold rotate. now rewrite sin_period, cos_period. Qed.

Theorem C07_rotation_daily_period :
  forall Nbase k k' int_time total dec (days : nat),
    (k' - k) * int_time = INR days * 86400 ->
    earth_rotation Nbase k' int_time total dec = earth_rotation Nbase k int_time total dec.
Proof.
  intros Nbase k k' it tot dec days H. unfold earth_rotation. apply map_ext. intros b.
  rewrite <- (rotate_period (hour_angle k it tot) _ b days). f_equal.
  unfold hour_angle, deg2rad.
  replace (k' * it) with (k * it + INR days * 86400) by lra. field.
Qed.
Print Assumptions C07_rotation_daily_period.

Example C07_rotation_daily_period_sat : (8740 - 100) * 10 = INR 1 * 86400.
Proof. simpl. lra. Qed.

(** The compiled version turns the other way: with [a] the angle the Earth has turned since step 1 (360 degrees in 24 h), its result is the
    rotation by minus [a], a quarter turn back from the axes; it equals the ordinary one of a slice whenever the hour angle of that slice and [a] add up to 270 degrees. *)
Theorem C07_rotation_numba :
  forall Nbase k int_time dec,
    let a := 2 * PI * ((k - 1) * int_time / 86400) in let d := dec * PI / 180 in
    earth_rotation_numba Nbase k int_time dec
    = map (fun b => (- cos a * vx b - sin a * vy b,
                     sin d * (sin a * vx b - cos a * vy b) + cos d * vz b,
                     - cos d * (sin a * vx b - cos a * vy b) + sin d * vz b)) Nbase
    /\ forall k' total, hour_angle k' int_time total + a = 270 * PI / 180 ->
         earth_rotation_numba Nbase k int_time dec = earth_rotation Nbase k' int_time total dec.
Proof.
  intros Nbase k it dec a d.
  assert (E : hour_angle_numba k it = 3 * (PI / 2) - a) by (unfold hour_angle_numba, a; field).
  assert (Ed : PI / 180 * dec = d) by (unfold d; field).
  split.
  - unfold earth_rotation_numba. apply map_ext. intros b. rewrite E, Ed. unfold rotate.
    assert (C3 : cos (3 * (PI / 2)) = 0) by apply cos_3PI2. assert (S3 : sin (3 * (PI / 2)) = -1) by apply sin_3PI2.
    rewrite sin_minus, cos_minus, C3, S3. f_equal; [f_equal; ring|ring].
  - intros k' tot H. unfold earth_rotation_numba, earth_rotation. apply map_ext. intros b. rewrite E, Ed.
    replace (hour_angle k' it tot) with (3 * (PI / 2) - a) by lra. reflexivity.
Qed.
Print Assumptions C07_rotation_numba.

Example C07_rotation_numba_sat : hour_angle 6480 10 0 + 2 * PI * ((1 - 1) * 10 / 86400) = 270 * PI / 180.
Proof. unfold hour_angle, deg2rad. field. Qed.

(** C07 (finding): with exactly two antennas there is a single baseline, [squeeze]
    also removes the baseline axis and the gridding call that follows raises;
    with any other number the rows are the rotated baselines. *)
Theorem C07_rotation_single_baseline :
  forall Nbase k int_time total dec,
    (rows_of (earth_rotation_effect Nbase k int_time total dec) = None <-> length Nbase = 1%nat)
    /\ (length Nbase <> 1%nat ->
        rows_of (earth_rotation_effect Nbase k int_time total dec)
        = Some (map (rotate (hour_angle k int_time total) (deg2rad dec)) Nbase)).
Proof.
  intros Nbase k it tot dec. unfold earth_rotation_effect, earth_rotation.
  destruct Nbase as [|a [|b l]]; simpl; split; try split; intros H; try discriminate; try lia; reflexivity.
Qed.
Print Assumptions C07_rotation_single_baseline.

(** C53 (finding): the antenna-stamp and gain functions rotate with declination
    -30 whatever declination is requested ... *)
Theorem C53_calibration_declination_ignored :
  forall Nbase k int_time dec,
    calibration_rotation Nbase k int_time dec
    = map (rotate (deg2rad (15 * (k * int_time / 3600 - dec / 2))) (deg2rad (-30))) Nbase.
Proof.
  intros. unfold calibration_rotation, earth_rotation. apply map_ext. intros b. f_equal.
  unfold hour_angle. f_equal. field.
Qed.
Print Assumptions C53_calibration_declination_ignored.

(** ... so a change of declination only shifts the hour angle: the request is
    indistinguishable from one at another time. *)
Theorem C53_calibration_declination_is_time_shift :
  forall Nbase k int_time dec dec', int_time <> 0 ->
    calibration_rotation Nbase k int_time dec'
    = calibration_rotation Nbase (k - 1800 * (dec' - dec) / int_time) int_time dec.
Proof.
  intros. rewrite !C53_calibration_declination_ignored. apply map_ext. intros b. f_equal.
  f_equal. field. assumption.
Qed.
Print Assumptions C53_calibration_declination_is_time_shift.
Example C53_calibration_declination_is_time_shift_sat : exists (int_time : R), int_time <> 0.
Proof. exists 10. repeat split; first [lra | lia | reflexivity | discriminate | congruence | auto]. Qed.
(** Slices of 10 s: asking for declination 20 instead of -30 is the same as asking for a slice 9000 earlier. *)
Example C53_sat : forall Nbase k, calibration_rotation Nbase k 10 20 = calibration_rotation Nbase (k - 9000) 10 (-30).
Proof. intros Nbase k. rewrite (C53_calibration_declination_is_time_shift Nbase k 10 (-30) 20) by lra. f_equal. lra. Qed.

(** C53: it agrees with the rotation [earth_rotation_effect] prescribes for the
    requested pointing only by accident: for declination 0 and a 12 h
    observation at zenith slice 0 the baselines differ. *)
Theorem C53_calibration_rotation_refuted :
  exists Nbase k int_time total dec,
    calibration_rotation Nbase k int_time dec <> earth_rotation Nbase k int_time total dec.
Proof.
  exists [(0, 0, 1)], 0, 10, 12, 0. unfold calibration_rotation, earth_rotation; cbn [map].
  unfold rotate, vx, vy, vz; cbn [fst snd]. intros E.
  assert (E2 : cos (deg2rad (-30)) = cos (deg2rad 0)).
  { injection E as _ E2 _. lra. }
  unfold deg2rad in E2. replace (0 * PI / 180) with 0 in E2 by field. rewrite cos_0 in E2.
  replace (-30 * PI / 180) with (- (PI / 6)) in E2 by field.
  rewrite cos_neg, cos_PI6 in E2.
  assert (S : sqrt 3 = 2) by lra.
  assert (S2 : sqrt 3 * sqrt 3 = 3) by (apply sqrt_sqrt; lra).
  rewrite S in S2. lra.
Qed.
Print Assumptions C53_calibration_rotation_refuted.

(** C54: the layout frame changes are isometries: all antenna separations are kept. *)
Lemma dist3_eq a b a' b' : dot (diff a' b') (diff a' b') = dot (diff a b) (diff a b) ->
  dist3 a' b' = dist3 a b.
Proof. unfold dist3, norm. now intros ->. Qed.

Theorem C54_enu_to_ecef_isometry :
  forall lat lon o e1 e2,
    dist3 (enu_to_ecef lat lon o e1) (enu_to_ecef lat lon o e2) = dist3 e1 e2.
Proof.
  intros lat lon [[o1 o2] o3] [[a1 a2] a3] [[b1 b2] b3]. apply dist3_eq.
  unfold dot, diff, enu_to_ecef, vx, vy, vz; cbn [fst snd].
  pose proof (sc (deg2rad lat)) as H. pose proof (sc (deg2rad lon)) as D.
  set (s := sin (deg2rad lat)) in *. set (c := cos (deg2rad lat)) in *.
  set (sl := sin (deg2rad lon)) in *. set (cl := cos (deg2rad lon)) in *.
  set (x := a1 - b1). set (y := a2 - b2). set (z := a3 - b3).
  transitivity ((sl*sl+cl*cl)*(x*x + y*y*(s*s) + z*z*(c*c) - 2*y*z*s*c) + (y*c+z*s)*(y*c+z*s)).
  { unfold x, y, z. ring. }
  rewrite D. transitivity (x*x + (y*y+z*z)*(s*s+c*c)); [ring|]. rewrite H. unfold x, y, z. ring.
Qed.
Print Assumptions C54_enu_to_ecef_isometry.

(** C54: the origin of the local frame is mapped to the given ECEF origin. *)
Theorem C54_enu_to_ecef_origin :
  forall lat lon o, enu_to_ecef lat lon o (0, 0, 0) = o.
Proof.
  intros lat lon [[o1 o2] o3]. unfold enu_to_ecef, vx, vy, vz; cbn [fst snd].
  f_equal; [f_equal|]; ring.
Qed.
Print Assumptions C54_enu_to_ecef_origin.

Theorem C54_ecef_to_xyz_isometry :
  forall lon o e1 e2,
    dist3 (ecef_to_xyz lon o e1) (ecef_to_xyz lon o e2) = dist3 e1 e2
    /\ ecef_to_xyz lon o o = o.
Proof.
  intros lon [[o1 o2] o3] [[a1 a2] a3] [[b1 b2] b3]. split.
  - apply dist3_eq. unfold dot, diff, ecef_to_xyz, vx, vy, vz; cbn [fst snd].
    pose proof (sc (deg2rad lon)) as D.
    set (sl := sin (deg2rad lon)) in *. set (cl := cos (deg2rad lon)) in *.
    transitivity ((sl*sl+cl*cl)*((a1-b1)*(a1-b1) + (a2-b2)*(a2-b2)) + (a3-b3)*(a3-b3)); [ring|].
    rewrite D. ring.
  - unfold ecef_to_xyz, vx, vy, vz; cbn [fst snd]. f_equal; [f_equal|]; ring.
Qed.
Print Assumptions C54_ecef_to_xyz_isometry.

(** C54: a geographic position lies on the sphere of radius 6371 km, and the chord
    between two positions depends only on the latitudes and the longitude
    difference (rotating the Earth does not change a layout). *)
Theorem C54_geographic_on_sphere :
  forall lon lat, norm (geographic_to_cartesian lon lat) = 6371000.
Proof.
  intros lon lat. unfold norm, dot, geographic_to_cartesian, vx, vy, vz; cbn [fst snd].
  pose proof (sc (deg2rad lat)) as H. pose proof (sc (deg2rad lon)) as D.
  set (s := sin (deg2rad lat)) in *. set (c := cos (deg2rad lat)) in *.
  set (sl := sin (deg2rad lon)) in *. set (cl := cos (deg2rad lon)) in *.
  replace (R_earth * c * cl * (R_earth * c * cl) + R_earth * c * sl * (R_earth * c * sl)
     + R_earth * s * (R_earth * s))
    with (R_earth * R_earth * (c * c * (sl*sl+cl*cl) + s * s)) by ring.
  rewrite D, Rmult_1_r. replace (c * c + s * s) with 1 by lra. rewrite Rmult_1_r.
  apply sqrt_square. unfold R_earth. lra.
Qed.
Print Assumptions C54_geographic_on_sphere.

Theorem C54_geographic_longitude_invariant :
  forall lon1 lat1 lon2 lat2 d,
    dist3 (geographic_to_cartesian (lon1 + d) lat1) (geographic_to_cartesian (lon2 + d) lat2)
    = dist3 (geographic_to_cartesian lon1 lat1) (geographic_to_cartesian lon2 lat2).
Proof.
  intros lon1 lat1 lon2 lat2 d. apply dist3_eq.
  unfold dot, diff, geographic_to_cartesian, vx, vy, vz; cbn [fst snd].
  assert (A : forall l, deg2rad (l + d) = deg2rad l + deg2rad d) by (intros; unfold deg2rad; field).
  rewrite !A, !cos_plus, !sin_plus.
  pose proof (sc (deg2rad d)) as D.
  set (c1 := cos (deg2rad lat1)). set (c2 := cos (deg2rad lat2)).
  set (x1 := cos (deg2rad lon1)). set (x2 := cos (deg2rad lon2)).
  set (y1 := sin (deg2rad lon1)). set (y2 := sin (deg2rad lon2)).
  set (sd := sin (deg2rad d)) in *. set (cd := cos (deg2rad d)) in *.
  set (z1 := R_earth * sin (deg2rad lat1)). set (z2 := R_earth * sin (deg2rad lat2)).
  set (X := R_earth * c1 * x1 - R_earth * c2 * x2).
  set (Y := R_earth * c1 * y1 - R_earth * c2 * y2).
  transitivity ((sd*sd+cd*cd)*(X*X+Y*Y) + (z1-z2)*(z1-z2)).
  { unfold X, Y. ring. }
  rewrite D. ring.
Qed.
Print Assumptions C54_geographic_longitude_invariant.
