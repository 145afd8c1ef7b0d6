(** C110: the Voigt profile by direct integration. *)
From Coq Require Import Reals List Lra Classical.
From Verif Require Import VoigtModel.
Import ListNotations.
Local Open Scope R_scope.

(** * Improper integrals *)
(** [v] is the integral of [f] over all reals, as the limit of the Riemann integrals over [-T, T]. *)
Definition improper (f : R -> R) (v : R) : Prop :=
  forall eps, 0 < eps -> exists M, 0 <= M /\ forall T, M <= T -> exists pr : Riemann_integrable f (- T) T, Rabs (RiemannInt pr - v) < eps.

Lemma improper_unique f v w : improper f v -> improper f w -> v = w.
Proof.
  intros Hv Hw. destruct (Req_dec v w) as [E|N]; [exact E|]. exfalso.
  assert (P : 0 < Rabs (v - w) / 2) by (apply Rdiv_lt_0_compat; [apply Rabs_pos_lt; lra|lra]).
  destruct (Hv _ P) as (M & _ & HM). destruct (Hw _ P) as (M' & _ & HM').
  destruct (HM (Rmax M M') (Rmax_l _ _)) as (p & Hp). destruct (HM' (Rmax M M') (Rmax_r _ _)) as (q & Hq).
  rewrite (RiemannInt_P5 q p) in Hq.
  assert (T := Rabs_triang (v - RiemannInt p) (RiemannInt p - w)).
  replace (v - RiemannInt p + (RiemannInt p - w)) with (v - w) in T by ring. rewrite (Rabs_minus_sym v (RiemannInt p)) in T. lra.
Qed.

Lemma integrable f a b : a <= b -> continuity f -> Riemann_integrable f a b.
Proof. intros H C. apply continuity_implies_RiemannInt; [exact H|]. intros; apply C. Qed.

(** The fundamental theorem for any antiderivative. *)
Lemma ftc f g a b (pr : Riemann_integrable f a b) : a <= b -> continuity f -> (forall y, derivable_pt_lim g y (f y)) -> RiemannInt pr = g b - g a.
Proof.
  intros H C D. assert (C0 : forall x, a <= x <= b -> continuity_pt f x) by (intros; apply C).
  rewrite (RiemannInt_P20 H (FTC_P1 H C0) pr).
  pose proof (RiemannInt_P29 H C0) as A1.
  assert (A2 : antiderivative f g a b).
  { split; [|exact H]. intros x _. exists (exist _ (f x) (D x)). symmetry. apply derive_pt_eq. apply D. }
  destruct (antiderivative_Ucte f _ _ a b A1 A2) as (c & E). rewrite (E b), (E a) by lra. ring.
Qed.
(** Reflection. *)
Lemma reflect f g a (p : Riemann_integrable f (- a) a) (q : Riemann_integrable g (- a) a) : 0 <= a -> continuity f -> (forall y, g y = f (- y)) -> RiemannInt q = RiemannInt p.
Proof.
  intros H C E. assert (H' : - a <= a) by lra.
  assert (C0 : forall x, - a <= x <= a -> continuity_pt f x) by (intros; apply C).
  assert (CG : continuity g).
  { intro x. apply (continuity_pt_locally_ext (comp f (fun y => - y)) g 1); [lra|intros y _; unfold comp; now rewrite E|].
    apply continuity_pt_comp; [apply (continuity_opp (fun y => y)); apply derivable_continuous, derivable_id|apply C]. }
  assert (C1 : forall x, - a <= x <= a -> continuity_pt g x) by (intros; apply CG).
  rewrite (RiemannInt_P20 H' (FTC_P1 H' C0) p), (RiemannInt_P20 H' (FTC_P1 H' C1) q).
  set (G := primitive H' (FTC_P1 H' C0)).
  pose proof (RiemannInt_P29 H' C1) as A1.
  assert (A2 : antiderivative g (fun y => - G (- y)) (- a) a).
  { split; [|exact H']. intros x Hx.
    assert (D : derivable_pt_lim (fun y => - G (- y)) x (g x)).
    { rewrite E. replace (f (- x)) with (- (f (- x) * - 1)) by ring. apply derivable_pt_lim_opp.
      apply (derivable_pt_lim_comp (fun y => - y) G x (- 1) (f (- x))).
      - replace (-1) with (- (1)) by ring. apply derivable_pt_lim_opp. apply derivable_pt_lim_id.
      - apply RiemannInt_P28. lra. }
    exists (exist _ (g x) D). symmetry. apply derive_pt_eq. exact D. }
  destruct (antiderivative_Ucte g _ _ (- a) a A1 A2) as (c & U). rewrite (U a), (U (- a)) by lra. rewrite Ropp_involutive. ring.
Qed.

(** * The integrand *)
Lemma den_pos y x a : a <> 0 -> 0 < (y - x) ^ 2 + a ^ 2.
Proof. intro H. pose proof (pow2_ge_0 (y - x)). assert (0 < a ^ 2) by (assert (Q := Rsqr_pos_lt _ H); unfold Rsqr in Q; simpl; lra). lra. Qed.
Lemma Iy_pos y x a : a <> 0 -> 0 < Iy y x a.
Proof. intro H. apply Rdiv_lt_0_compat; [apply exp_pos|now apply den_pos]. Qed.
Lemma Iy_continuous x a : a <> 0 -> continuity (fun y => Iy y x a).
Proof.
  intro H. unfold Iy. intro y.
  apply (continuity_pt_div (fun y => exp (- y ^ 2)) (fun y => (y - x) ^ 2 + a ^ 2)); [| |apply Rgt_not_eq; now apply den_pos]; apply derivable_continuous_pt; reg.
Qed.
Definition lorentz (x a y : R) : R := / ((y - x) ^ 2 + a ^ 2).
Lemma lorentz_continuous x a : a <> 0 -> continuity (lorentz x a).
Proof. intros H y. apply (continuity_pt_inv (fun y => (y - x) ^ 2 + a ^ 2)); [apply derivable_continuous_pt; reg|apply Rgt_not_eq; now apply den_pos]. Qed.
Lemma lorentz_derivative x a y : a <> 0 -> derivable_pt_lim (fun y => atan ((y - x) / a) / a) y (lorentz x a y).
Proof.
  intro H. replace (lorentz x a y) with (/ (1 + ((y - x) / a) ^ 2) * (/ a) * / a).
  - apply (derivable_pt_lim_ext (fun y => atan ((fun y => (y - x) * / a) y) * / a)); [reflexivity|].
    rewrite Rmult_comm. set (L := / (1 + ((y - x) / a) ^ 2) * / a).
    apply (derivable_pt_lim_ext (mult_real_fct (/ a) (fun y => atan ((y - x) * / a)))); [intro; unfold mult_real_fct; ring|].
    apply derivable_pt_lim_scal.
    apply (derivable_pt_lim_comp (fun y => (y - x) * / a) atan).
    + replace (/ a) with (/ a * (1 - 0)) at 1 by ring. apply (derivable_pt_lim_ext (mult_real_fct (/ a) (fun y => y - x))); [intro; unfold mult_real_fct; ring|].
      apply derivable_pt_lim_scal. apply (derivable_pt_lim_minus (fun y => y) (fun _ => x)); [apply derivable_pt_lim_id|apply derivable_pt_lim_const].
    + exact (derivable_pt_lim_atan ((y - x) * / a)).
  - unfold lorentz. pose proof (den_pos y x a H). assert (E1 : 1 + ((y - x) / a) ^ 2 = ((y - x) ^ 2 + a ^ 2) / a ^ 2) by (field; exact H). rewrite E1.
    set (d := (y - x) ^ 2 + a ^ 2) in *. field. split; [lra|exact H].
Qed.
Lemma lorentz_total x a T (pr : Riemann_integrable (lorentz x a) (- T) T) : 0 < a -> 0 <= T -> RiemannInt pr <= PI / a.
Proof.
  intros H HT. rewrite (ftc _ (fun y => atan ((y - x) / a) / a) _ _ pr); [|lra|apply lorentz_continuous; lra|intro; apply lorentz_derivative; lra].
  pose proof (atan_bound ((T - x) / a)). pose proof (atan_bound ((- T - x) / a)). pose proof (Rinv_0_lt_compat a H). unfold Rdiv.
  rewrite <- Rmult_minus_distr_r. apply Rmult_le_compat_r; lra.
Qed.

(** * Convergence *)
Section Converge.
Context (x a : R) (HA : 0 < a).
Let N : a <> 0 := Rgt_not_eq a 0 HA.
Let f := fun y => Iy y x a.
Let CF : continuity f := Iy_continuous x a N.
Lemma sym_le T : - Rabs T <= Rabs T. Proof. pose proof (Rabs_pos T). lra. Qed.
Definition F (T : R) : R := RiemannInt (integrable f (- Rabs T) (Rabs T) (sym_le T) CF).
Lemma F_eq T (HT : 0 <= T) (pr : Riemann_integrable f (- T) T) : RiemannInt pr = F T.
Proof. unfold F. generalize (integrable f (- Rabs T) (Rabs T) (sym_le T) CF). rewrite (Rabs_right T) by lra. intro q. apply RiemannInt_P5. Qed.
Lemma F_bound T : F T <= PI / a.
Proof.
  unfold F. set (p := integrable _ _ _ _ _). set (q := integrable (lorentz x a) (- Rabs T) (Rabs T) (sym_le T) (lorentz_continuous x a N)).
  apply Rle_trans with (RiemannInt q); [|apply lorentz_total; [exact HA|apply Rabs_pos]].
  apply RiemannInt_P19; [apply sym_le|]. intros y _. unfold f, Iy, lorentz, Rdiv. pose proof (den_pos y x a N) as DP. apply Rinv_0_lt_compat in DP.
  rewrite <- (Rmult_1_l (/ ((y - x) ^ 2 + a ^ 2))) at 2. apply Rmult_le_compat_r; [lra|]. rewrite <- exp_0. pose proof (pow2_ge_0 y) as PY. destruct PY as [PY|PY]; [left; apply exp_increasing; lra|rewrite <- PY, Ropp_0; lra].
Qed.
Lemma pos_int u v (pr : Riemann_integrable f u v) : u <= v -> 0 <= RiemannInt pr.
Proof.
  intro H. assert (E := RiemannInt_P15 (RiemannInt_P14 u v 0)). rewrite Rmult_0_l in E. rewrite <- E. apply RiemannInt_P19; [exact H|].
  intros y _. unfold fct_cte, f. left. now apply Iy_pos.
Qed.
Lemma F_mono S T : 0 <= S -> S <= T -> F S <= F T.
Proof.
  intros HS HT. assert (H1 : - T <= - S) by lra. assert (H2 : - S <= S) by lra. assert (H3 : - T <= S) by lra. assert (H4 : - T <= T) by lra.
  set (p1 := integrable f (- T) (- S) H1 CF). set (p2 := integrable f (- S) S H2 CF). set (p12 := integrable f (- T) S H3 CF).
  set (p3 := integrable f S T HT CF). set (p := integrable f (- T) T H4 CF).
  rewrite <- (F_eq S HS p2). assert (HT0 : 0 <= T) by lra. rewrite <- (F_eq T HT0 p).
  pose proof (RiemannInt_P26 p12 p3 p) as E1. pose proof (RiemannInt_P26 p1 p2 p12) as E2. pose proof (pos_int _ _ p1 H1). pose proof (pos_int _ _ p3 HT). lra.
Qed.
Lemma F_pos : 0 < F 1.
Proof.
  assert (H : - 1 <= 1) by lra. set (p := integrable f (- 1) 1 H CF). assert (H01 : 0 <= 1) by lra. rewrite <- (F_eq 1 H01 p).
  set (c := exp (- 1) / ((Rabs x + 1) ^ 2 + a ^ 2)).
  assert (PD : 0 < (Rabs x + 1) ^ 2 + a ^ 2). { pose proof (pow2_ge_0 (Rabs x + 1)). pose proof (den_pos 0 0 a N) as Q. replace ((0 - 0) ^ 2) with 0 in Q by ring. lra. }
  assert (PC : 0 < c) by (unfold c; apply Rdiv_lt_0_compat; [apply exp_pos|exact PD]).
  apply Rlt_le_trans with (c * (1 - -1)); [lra|]. rewrite <- (RiemannInt_P15 (RiemannInt_P14 (- 1) 1 c)). apply RiemannInt_P19; [exact H|].
  intros y Hy. unfold fct_cte, f, Iy, c, Rdiv. assert (SQ : forall u v, 0 <= v -> - v <= u <= v -> u ^ 2 <= v ^ 2).
  { intros u v V U. assert (0 <= (v - u) * (v + u)) by (apply Rmult_le_pos; lra). replace (u ^ 2) with (v ^ 2 - (v - u) * (v + u)) by ring. lra. }
  apply Rmult_le_compat.
  - left. apply exp_pos.
  - left. now apply Rinv_0_lt_compat.
  - assert (y ^ 2 <= 1) by (replace 1 with (1 ^ 2) by ring; apply SQ; lra). destruct (Req_dec (y ^ 2) 1) as [Z|Z]; [rewrite Z; apply Rle_refl|left; apply exp_increasing; lra].
  - apply Rinv_le_contravar; [now apply den_pos|]. assert ((y - x) ^ 2 <= (Rabs x + 1) ^ 2); [|lra].
    pose proof (Rle_abs x). pose proof (Rle_abs (- x)) as RX. rewrite Rabs_Ropp in RX. apply SQ; lra.
Qed.
Lemma converges : exists v, improper f v /\ 0 < v <= PI / a.
Proof.
  destruct (completeness (fun r => exists T, 0 <= T /\ r = F T)) as (v & UB & LUB).
  - exists (PI / a). intros r (T & _ & ->). apply F_bound.
  - exists (F 1). exists 1. split; [lra|reflexivity].
  - exists v. assert (U : forall T, 0 <= T -> F T <= v) by (intros T HT; apply UB; now exists T).
    split; [|split].
    + intros eps HE. assert (EX : exists S, 0 <= S /\ v - eps < F S).
      { apply NNPP. intro NE. assert (v <= v - eps); [|lra]. apply LUB. intros r (T & HT & ->). destruct (Rle_dec (F T) (v - eps)) as [L|L]; [exact L|]. destruct NE. exists T. split; [exact HT|lra]. }
      destruct EX as (S & HS & LS).
      exists S. split; [exact HS|]. intros T HT. assert (T0 : 0 <= T) by lra. assert (TT : - T <= T) by lra. exists (integrable f (- T) T TT CF). rewrite (F_eq T T0).
      pose proof (F_mono S T HS HT). pose proof (U T T0). apply Rabs_def1; lra.
    + apply Rlt_le_trans with (F 1); [apply F_pos|apply U; lra].
    + apply LUB. intros r (T & _ & ->). apply F_bound.
Qed.
End Converge.

(** * The profile *)
(** An integrator that finds the integral over all reals wherever there is one. *)
Definition exact (quad : (R -> R) -> R) : Prop := forall f v, improper f v -> quad f = v.
Lemma improper_ext f g v : (forall y, g y = f y) -> improper f v -> improper g v.
Proof.
  intros E I eps HE. destruct (I eps HE) as (M & HM & H). exists M. split; [exact HM|]. intros T HT. destruct (H T HT) as (p & Hp).
  assert (TT : - T <= T) by lra.
  assert (q : Riemann_integrable g (- T) T) by (refine (Riemann_integrable_ext g _ p); intros; symmetry; apply E).
  exists q. rewrite (RiemannInt_P18 q p TT); [exact Hp|]. intros; apply E.
Qed.
Lemma improper_reflect f g v : continuity f -> continuity g -> (forall y, g y = f (- y)) -> improper f v -> improper g v.
Proof.
  intros C CG E I eps HE. destruct (I eps HE) as (M & HM & H). exists M. split; [exact HM|]. intros T HT. destruct (H T HT) as (p & Hp).
  assert (TT : - T <= T) by lra. exists (integrable g (- T) T TT CG). assert (T0 : 0 <= T) by lra. rewrite (reflect f g T p _ T0 C E). exact Hp.
Qed.

(** C110: for a positive damping parameter the integral exists, and the profile lies in (0, 1]. *)
Theorem C110_bounds : forall quad x a, exact quad -> 0 < a ->
  (exists v, improper (fun y => exp (- y ^ 2) / ((y - x) ^ 2 + a ^ 2)) v /\ direct_voigt_profile quad [x] a = [a / PI * v]) /\
  Forall (fun p => 0 < p <= 1) (direct_voigt_profile quad [x] a).
Proof.
  intros quad x a Q HA. destruct (converges x a HA) as (v & I & V1 & V2). change (improper (fun y => exp (- y ^ 2) / ((y - x) ^ 2 + a ^ 2)) v) in I.
  assert (E : direct_voigt_profile quad [x] a = [a / PI * v]) by (unfold direct_voigt_profile, out_func; cbn [map]; rewrite (Q _ v); [reflexivity|exact I]).
  split; [exists v; now split|]. rewrite E. constructor; [|constructor]. pose proof PI_RGT_0.
  assert (P : 0 < a / PI) by (apply Rdiv_lt_0_compat; lra). split; [now apply Rmult_lt_0_compat|].
  replace 1 with (a / PI * (PI / a)) by (field; lra). apply Rmult_le_compat_l; lra.
Qed.
Print Assumptions C110_bounds.

(** C110: the profile is the same on both sides of the line, and odd in the damping parameter. *)
Theorem C110_symmetry : forall quad x a, exact quad -> 0 < a ->
  direct_voigt_profile quad [- x] a = direct_voigt_profile quad [x] a /\
  direct_voigt_profile quad [x] (- a) = map Ropp (direct_voigt_profile quad [x] a).
Proof.
  intros quad x a Q HA. destruct (converges x a HA) as (v & I & _). assert (N : a <> 0) by lra.
  assert (E0 : quad (fun y => Iy y x a) = v) by (apply Q; exact I).
  assert (E1 : quad (fun y => Iy y (- x) a) = v).
  { apply Q. apply (improper_reflect (fun y => Iy y x a)); [now apply Iy_continuous|now apply Iy_continuous| |exact I].
    intro y. unfold Iy. f_equal; [f_equal; ring|ring]. }
  assert (E2 : quad (fun y => Iy y x (- a)) = v).
  { apply Q. apply (improper_ext (fun y => Iy y x a)); [|exact I]. intro y. unfold Iy. f_equal. ring. }
  unfold direct_voigt_profile, out_func. cbn [map]. rewrite E0, E1, E2. split; [reflexivity|]. f_equal. unfold Rdiv. ring.
Qed.
Print Assumptions C110_symmetry.

(** C110: each entry depends on its own offset alone. *)
Theorem C110_entries : forall quad x a k xk, nth_error x k = Some xk ->
  length (direct_voigt_profile quad x a) = length x /\ nth_error (direct_voigt_profile quad x a) k = nth_error (direct_voigt_profile quad [xk] a) 0.
Proof. intros quad x a k xk E. split; [apply map_length|]. unfold direct_voigt_profile. rewrite (map_nth_error _ _ _ E). reflexivity. Qed.
Print Assumptions C110_entries.

(** C110: if the Faddeeva function has its integral representation, the two functions give the same profile. *)
Theorem C110_faddeeva : forall quad wofz_re x a, exact quad -> 0 < a ->
  (forall v, improper (fun y => exp (- y ^ 2) / ((x - y) ^ 2 + a ^ 2)) v -> wofz_re x a = a / PI * v) ->
  direct_voigt_profile quad [x] a = [approximation_voigt_faddeeva wofz_re x a].
Proof.
  intros quad w x a Q HA W. destruct (C110_bounds quad x a Q HA) as [(v & I & ->) _]. f_equal. symmetry. apply W.
  revert I. apply improper_ext. intro y. f_equal. ring.
Qed.
Print Assumptions C110_faddeeva.

(** An exact integrator exists. *)
Example C110_sat : exists quad, exact quad.
Proof.
  assert (D : forall f, {v | improper f v} + {forall v, ~ improper f v}).
  { intro f. destruct (ClassicalDedekindReals.sig_not_dec (exists v, improper f v)) as [E|E].
    - left. assert (X : exists v, improper f v) by now apply NNPP.
      destruct (completeness (improper f)) as (m & UB & LUB).
      + destruct X as (v & V). exists v. intros w W. rewrite (improper_unique f w v W V). lra.
      + exact X.
      + exists m. destruct X as (v & V). replace m with v; [exact V|]. apply Rle_antisym; [now apply UB|]. apply LUB. intros w W. rewrite (improper_unique f w v W V). lra.
    - right. intros v V. apply E. now exists v. }
  exists (fun f => match D f with inleft (exist _ v _) => v | inright _ => 0 end). intros f v I.
  destruct (D f) as [[w W]|N]; [now apply (improper_unique f)|destruct (N v I)].
Qed.
