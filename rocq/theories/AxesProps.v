(** More of C54: the directions of the layout frames. *)
From Coq Require Import List ZArith QArith Qround Reals Lqa Lra Lia.
From Verif Require Import RotModel RotProps.
Import ListNotations.
Local Open Scope R_scope.

Definition add3 (a b : vec) : vec := (vx a + vx b, vy a + vy b, vz a + vz b).
Definition times3 (s : R) (a : vec) : vec := (s * vx a, s * vy a, s * vz a).
(** The velocity of a moving point. *)
Definition velocity (p : R -> vec) (t : R) (v : vec) : Prop :=
  derivable_pt_lim (fun s => vx (p s)) t (vx v) /\ derivable_pt_lim (fun s => vy (p s)) t (vy v) /\ derivable_pt_lim (fun s => vz (p s)) t (vz v).

Lemma deg_lim x : derivable_pt_lim deg2rad x (PI / 180).
Proof.
  intros eps He. exists (mkposreal 1 Rlt_0_1). intros k Hk _. unfold deg2rad.
  replace (((x + k) * PI / 180 - x * PI / 180) / k - PI / 180) with 0 by (field; exact Hk). rewrite Rabs_R0. exact He.
Qed.
Lemma cos_deg x : derivable_pt_lim (fun l => cos (deg2rad l)) x (- sin (deg2rad x) * (PI / 180)).
Proof. apply (derivable_pt_lim_comp deg2rad cos); [apply deg_lim|apply derivable_pt_lim_cos]. Qed.
Lemma sin_deg x : derivable_pt_lim (fun l => sin (deg2rad l)) x (cos (deg2rad x) * (PI / 180)).
Proof. apply (derivable_pt_lim_comp deg2rad sin); [apply deg_lim|apply derivable_pt_lim_sin]. Qed.
Lemma lim_eq f g x a b : (forall y, f y = g y) -> a = b -> derivable_pt_lim f x a -> derivable_pt_lim g x b.
Proof. intros E -> H eps He. destruct (H eps He) as [d D]. exists d. intros k K1 K2. rewrite <- !E. now apply D. Qed.

(** C54: the three local axes. "Up" leads away from the centre of the Earth, "east" the way a place goes when its longitude
    grows (a degree of longitude is cos(latitude) degrees of arc), "north" the way it goes when its latitude grows. *)
Theorem C54_local_axes : forall lat lon,
  (forall o e n u, enu_to_ecef lat lon o (e, n, u) =
     add3 o (add3 (times3 e (enu_to_ecef lat lon (0, 0, 0) (1, 0, 0))) (add3 (times3 n (enu_to_ecef lat lon (0, 0, 0) (0, 1, 0))) (times3 u (enu_to_ecef lat lon (0, 0, 0) (0, 0, 1)))))) /\
  times3 6371000 (enu_to_ecef lat lon (0, 0, 0) (0, 0, 1)) = geographic_to_cartesian lon lat /\
  velocity (fun l => geographic_to_cartesian l lat) lon (times3 (6371000 * PI / 180 * cos (lat * PI / 180)) (enu_to_ecef lat lon (0, 0, 0) (1, 0, 0))) /\
  velocity (fun l => geographic_to_cartesian lon l) lat (times3 (6371000 * PI / 180) (enu_to_ecef lat lon (0, 0, 0) (0, 1, 0))).
Proof.
  intros lat lon. change (lat * PI / 180) with (deg2rad lat). unfold enu_to_ecef, geographic_to_cartesian, R_earth, velocity, add3, times3, vx, vy, vz. cbv zeta. cbn [fst snd].
  assert (T : forall a b c a' b' c' : R, a = a' -> b = b' -> c = c' -> (a, b, c) = (a', b', c')) by (intros; subst; reflexivity).
  split; [|split; [|split; [|split; [|]]]].
  - intros o e n u. destruct o as [[ox oy] oz]. cbn [fst snd]. apply T; ring.
  - apply T; ring.
  - split; [|split].
    + eapply lim_eq; [| |apply (derivable_pt_lim_scal _ (6371000 * cos (deg2rad lat)) lon _ (cos_deg lon))]; [reflexivity|field].
    + eapply lim_eq; [| |apply (derivable_pt_lim_scal _ (6371000 * cos (deg2rad lat)) lon _ (sin_deg lon))]; [reflexivity|field].
    + eapply lim_eq; [| |apply (derivable_pt_lim_const (6371000 * sin (deg2rad lat)))]; [reflexivity|ring].
  - eapply lim_eq; [| |apply (derivable_pt_lim_scal _ (6371000 * cos (deg2rad lon)) lat _ (cos_deg lat))]; [intro; cbv [mult_real_fct]; ring|field].
  - split.
    + eapply lim_eq; [| |apply (derivable_pt_lim_scal _ (6371000 * sin (deg2rad lon)) lat _ (cos_deg lat))]; [intro; cbv [mult_real_fct]; ring|field].
    + eapply lim_eq; [| |apply (derivable_pt_lim_scal _ 6371000 lat _ (sin_deg lat))]; [reflexivity|field].
Qed.
Print Assumptions C54_local_axes.

(** C54: local coordinates taken through both conversions: X lies in the plane of the equator and points away from the
    axis of the Earth, Y points east and Z to the pole. *)
Theorem C54_xyz_axes : forall lat lon o e n u, ecef_to_xyz lon o (enu_to_ecef lat lon o (e, n, u)) =
  add3 o (cos (deg2rad lat) * u - sin (deg2rad lat) * n, e, cos (deg2rad lat) * n + sin (deg2rad lat) * u).
Proof.
  intros lat lon [[ox oy] oz] e n u. unfold ecef_to_xyz, enu_to_ecef, add3, vx, vy, vz. cbv zeta. cbn [fst snd].
  assert (P : sin (deg2rad lon) * sin (deg2rad lon) + cos (deg2rad lon) * cos (deg2rad lon) = 1) by (pose proof (sin2_cos2 (deg2rad lon)) as P; unfold Rsqr in P; exact P).
  set (S1 := sin (deg2rad lon)) in *. set (C1 := cos (deg2rad lon)) in *. set (S2 := sin (deg2rad lat)). set (C2 := cos (deg2rad lat)).
  assert (T : forall a b c a' b' c' : R, a = a' -> b = b' -> c = c' -> (a, b, c) = (a', b', c')) by (intros; subst; reflexivity).
  assert (P' : S1 * S1 = 1 - C1 * C1) by lra.
  apply T; [| |ring]; ring_simplify; replace (S1 ^ 2) with (1 - C1 ^ 2) by lra; ring.
Qed.
Print Assumptions C54_xyz_axes.

(** Refuted: "X points to local east, Y to local north" (the docstring of [ecef_to_xyz]): nowhere on the Earth does a step to the
    east change X, and a step to the north never changes Y. *)
Theorem C54_documented_axes_refuted : forall lat lon o s, 0 < s ->
  vx (ecef_to_xyz lon o (enu_to_ecef lat lon o (s, 0, 0))) = vx o /\ vy (ecef_to_xyz lon o (enu_to_ecef lat lon o (s, 0, 0))) = vy o + s /\
  vy (ecef_to_xyz lon o (enu_to_ecef lat lon o (0, s, 0))) = vy o.
Proof. intros lat lon o s Hs. rewrite !C54_xyz_axes. unfold add3, vx, vy, vz. cbn [fst snd]. repeat split; ring. Qed.
Print Assumptions C54_documented_axes_refuted.
Example C54_documented_axes_refuted_sat : exists (s : R), 0 < s.
Proof. exists 3. lra. Qed.
