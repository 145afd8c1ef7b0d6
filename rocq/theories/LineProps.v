(** C94: line intensity maps. *)
From Coq Require Import String List Arith ZArith Reals Lra Lia Bool.
From Verif Require Import HaloGridModel HaloGridProps WindowModel LineModel.
Import ListNotations.
Local Open Scope R_scope.

(** * Specification *)
(** Cosmologies and parameters in the range of the recipe. *)
Definition physical (p : hi_par) (c : cosmology) : Prop := 0 < alpha p /\ Y_p p < 1 /\ 0 < v_c0 p /\ -1 <= beta p /\ 0 < Ob c /\ 0 < Om c /\ 0 < hlittle c.
(** Mass below which a halo is suppressed by more than e, at a redshift. *)
Definition cut_mass (p : hi_par) (c : cosmology) (z : R) : R := 10 ^ 11 * (v_c0 p / (96.6 * Rpower (178 * Om c / 54.4) (1 / 6) * Rpower ((1 + z) / 3.3) (1 / 2))) ^ 3.

Lemma pow_pos : forall x y, 0 < Rpower x y. Proof. intros. apply exp_pos. Qed.
Local Ltac pos := first [assumption | lra | apply Rmult_lt_0_compat; pos].
Lemma vc_pos : forall c M z, 0 < v_c c M z. Proof. intros. unfold v_c. pose proof (pow_pos (178 * Om c / 54.4) (1 / 6)). pose proof (pow_pos ((1 + z) / 3.3) (1 / 2)). pose proof (pow_pos (M / 10 ^ 11) (1 / 3)). pos. Qed.
Lemma fHc_pos : forall p c, physical p c -> 0 < fHc p c.
Proof. intros p c (A & Y & V & B & O & M & H). unfold fHc. apply Rdiv_lt_0_compat; [apply Rmult_lt_0_compat; lra|assumption]. Qed.
Lemma cube_root : forall x, 0 < x -> Rpower x (1 / 3) ^ 3 = x.
Proof. intros x H. rewrite <- Rpower_pow by apply pow_pos. rewrite Rpower_mult. replace (1 / 3 * INR 3) with 1 by (cbn; lra). apply Rpower_1, H. Qed.
(** The suppression is exp(- cut mass / mass). *)
Theorem C94_suppression : forall p c z M, physical p c -> 0 < M -> M_hi p c z M = alpha p * fHc p c * M * Rpower (M / hlittle c / 10 ^ 11) (beta p) * exp (- (cut_mass p c z / M)).
Proof.
  intros p c z M _ HM. unfold M_hi. do 3 f_equal. unfold cut_mass, v_c. pose proof (pow_pos (178 * Om c / 54.4) (1 / 6)) as P1. pose proof (pow_pos ((1 + z) / 3.3) (1 / 2)) as P2. set (u := Rpower (178 * Om c / 54.4) (1 / 6)) in *. set (w := Rpower ((1 + z) / 3.3) (1 / 2)) in *. clearbody u w.
  assert (Q : 0 < M / 10 ^ 11) by (apply Rdiv_lt_0_compat; [exact HM|apply pow_lt; lra]). pose proof (cube_root _ Q) as C3. pose proof (pow_pos (M / 10 ^ 11) (1 / 3)) as P3. set (t := Rpower (M / 10 ^ 11) (1 / 3)) in *. clearbody t.
  assert (EM : M = 10 ^ 11 * t ^ 3) by (rewrite C3; field; apply pow_nonzero; lra). rewrite EM. set (k := 96.6). assert (K : k <> 0) by (unfold k; lra). clearbody k. assert (T : (10 : R) ^ 11 <> 0) by (apply pow_nonzero; lra). set (ten := (10 : R) ^ 11) in *. clearbody ten. field. repeat split; lra.
Qed.
Print Assumptions C94_suppression.
Lemma cut_pos : forall p c z, physical p c -> 0 < cut_mass p c z.
Proof. intros p c z (A & Y & V & B & O & M & H). unfold cut_mass. pose proof (pow_pos (178 * Om c / 54.4) (1 / 6)). pose proof (pow_pos ((1 + z) / 3.3) (1 / 2)). apply Rmult_lt_0_compat; [apply pow_lt; lra|]. apply pow_lt, Rdiv_lt_0_compat; [exact V|]. pos. Qed.
(** Every halo has a positive hydrogen mass, below the unsuppressed one, growing with halo mass and redshift. *)
Theorem C94_hydrogen : forall p c z M, physical p c -> 0 < M -> 0 < M_hi p c z M < alpha p * fHc p c * M * Rpower (M / hlittle c / 10 ^ 11) (beta p) /\ (forall M', M < M' -> M_hi p c z M < M_hi p c z M') /\ (forall z', -1 < z -> z < z' -> M_hi p c z M < M_hi p c z' M).
Proof.
  intros p c z M Ph HM. pose proof (fHc_pos p c Ph) as F. pose proof Ph as (A & Y & V & B & O & Om' & H). assert (AF : 0 < alpha p * fHc p c) by (apply Rmult_lt_0_compat; assumption).
  assert (PR : forall M, 0 < M -> 0 < alpha p * fHc p c * M * Rpower (M / hlittle c / 10 ^ 11) (beta p)) by (intros; apply Rmult_lt_0_compat; [apply Rmult_lt_0_compat; assumption|apply pow_pos]).
  split; [|split].
  - rewrite C94_suppression by assumption. specialize (PR M HM). set (a := alpha p * fHc p c * M * Rpower _ _) in *. clearbody a. assert (E : exp (- (cut_mass p c z / M)) < 1). { rewrite <- exp_0. apply exp_increasing. assert (0 < cut_mass p c z / M) by (apply Rdiv_lt_0_compat; [apply cut_pos, Ph|exact HM]). lra. } pose proof (exp_pos (- (cut_mass p c z / M))). split; [apply Rmult_lt_0_compat; assumption|nra].
  - intros M' L. rewrite !C94_suppression by (assumption || lra). assert (E : exp (- (cut_mass p c z / M)) < exp (- (cut_mass p c z / M'))).
    { apply exp_increasing, Ropp_lt_contravar. unfold Rdiv. apply Rmult_lt_compat_l; [apply cut_pos, Ph|]. apply Rinv_lt_contravar; [apply Rmult_lt_0_compat; lra|exact L]. }
    assert (D : forall M, 0 < M -> alpha p * fHc p c * M * Rpower (M / hlittle c / 10 ^ 11) (beta p) = alpha p * fHc p c * (hlittle c * 10 ^ 11) * Rpower (M / hlittle c / 10 ^ 11) (1 + beta p)).
    { intros m Hm. rewrite Rpower_plus, Rpower_1; [field; repeat split; (lra || (apply pow_nonzero; lra))|]. apply Rdiv_lt_0_compat; [apply Rdiv_lt_0_compat; assumption|apply pow_lt; lra]. }
    rewrite (D M HM). rewrite (D M') by lra. pose proof (pow_pos (M / hlittle c / 10 ^ 11) (1 + beta p)) as R0. assert (K : 0 < alpha p * fHc p c * (hlittle c * 10 ^ 11)) by (apply Rmult_lt_0_compat; [assumption|apply Rmult_lt_0_compat; [assumption|apply pow_lt; lra]]).
    assert (R1 : Rpower (M / hlittle c / 10 ^ 11) (1 + beta p) <= Rpower (M' / hlittle c / 10 ^ 11) (1 + beta p)).
    { apply Rle_Rpower_l; [lra|]. assert (T : (0 : R) < 10 ^ 11) by (apply pow_lt; lra). split; [apply Rdiv_lt_0_compat; [apply Rdiv_lt_0_compat; assumption|exact T]|]. unfold Rdiv. apply Rmult_le_compat_r; [left; apply Rinv_0_lt_compat, T|]. apply Rmult_le_compat_r; [left; apply Rinv_0_lt_compat; assumption|lra]. }
    pose proof (exp_pos (- (cut_mass p c z / M))) as E0. set (e1 := exp (- (cut_mass p c z / M))) in *. set (e2 := exp (- (cut_mass p c z / M'))) in *. set (r1 := Rpower (M / hlittle c / 10 ^ 11) (1 + beta p)) in *. set (r2 := Rpower (M' / hlittle c / 10 ^ 11) (1 + beta p)) in *. set (k := alpha p * fHc p c * (hlittle c * 10 ^ 11)) in *. clearbody e1 e2 r1 r2 k.
    apply Rlt_le_trans with (k * r1 * e2); [apply Rmult_lt_compat_l; [apply Rmult_lt_0_compat; assumption|assumption]|]. apply Rmult_le_compat_r; [lra|]. apply Rmult_le_compat_l; lra.
  - intros z' Z L. rewrite !C94_suppression by assumption. apply Rmult_lt_compat_l; [apply PR, HM|]. apply exp_increasing, Ropp_lt_contravar. unfold Rdiv. apply Rmult_lt_compat_r; [apply Rinv_0_lt_compat, HM|]. unfold cut_mass. apply Rmult_lt_compat_l; [apply pow_lt; lra|].
    pose proof (pow_pos (178 * Om c / 54.4) (1 / 6)) as P1. pose proof (pow_pos ((1 + z) / 3.3) (1 / 2)) as P2. assert (P3 : Rpower ((1 + z) / 3.3) (1 / 2) < Rpower ((1 + z') / 3.3) (1 / 2)) by (apply Rlt_Rpower_l; [lra|]; split; [apply Rdiv_lt_0_compat; lra|]; unfold Rdiv; apply Rmult_lt_compat_r; [apply Rinv_0_lt_compat|]; lra).
    set (u := Rpower _ (1 / 6)) in *. set (w := Rpower ((1 + z) / 3.3) _) in *. set (w' := Rpower ((1 + z') / 3.3) _) in *. clearbody u w w'. assert (D1 : 0 < 96.6 * u * w) by pos. assert (D2 : 96.6 * u * w < 96.6 * u * w') by (apply Rmult_lt_compat_l; [apply Rmult_lt_0_compat; lra|exact P3]).
    assert (D3 : v_c0 p / (96.6 * u * w') < v_c0 p / (96.6 * u * w)) by (apply Rmult_lt_compat_l; [exact V|]; apply Rinv_lt_contravar; [apply Rmult_lt_0_compat; lra|exact D2]). assert (D4 : 0 < v_c0 p / (96.6 * u * w')) by (apply Rdiv_lt_0_compat; lra). set (x := v_c0 p / (96.6 * u * w')) in *. set (y := v_c0 p / (96.6 * u * w)) in *. clearbody x y.
    assert (X2 : x * x < y * y) by nra. cbn [pow]. rewrite !Rmult_1_r. apply Rle_lt_trans with (x * (y * y)); [apply Rmult_le_compat_l; lra|]. apply Rmult_lt_compat_r; [nra|exact D3].
Qed.
Print Assumptions C94_hydrogen.

(** * Star formation and ionised carbon *)
Lemma part_increasing : forall c x y, 0 < c -> 0 < x < y -> x / (1 + x / c) < y / (1 + y / c).
Proof. intros c x y C H. replace (x / (1 + x / c)) with (c * x / (c + x)) by (field; lra). replace (y / (1 + y / c)) with (c * y / (c + y)) by (field; lra). apply Rmult_lt_reg_r with ((c + x) * (c + y)); [nra|]. replace (c * x / (c + x) * ((c + x) * (c + y))) with (c * x * (c + y)) by (field; lra). replace (c * y / (c + y) * ((c + x) * (c + y))) with (c * y * (c + x)) by (field; lra). assert (c * c * x < c * c * y) by (apply Rmult_lt_compat_l; [apply Rmult_lt_0_compat|]; lra). lra. Qed.
Lemma quot_increasing : forall c c' x y, 0 < c <= c' -> 0 < x < y -> (1 + x / c) / (1 + x / c') <= (1 + y / c) / (1 + y / c').
Proof.
  intros c c' x y C H. assert (E : forall t, 0 < t -> (1 + t / c) / (1 + t / c') = c' / c * ((c + t) / (c' + t))) by (intros; field; lra). rewrite !E by lra. apply Rmult_le_compat_l; [left; apply Rdiv_lt_0_compat; lra|].
  apply Rmult_le_reg_r with ((c' + x) * (c' + y)); [nra|]. replace ((c + x) / (c' + x) * ((c' + x) * (c' + y))) with ((c + x) * (c' + y)) by (field; lra). replace ((c + y) / (c' + y) * ((c' + x) * (c' + y))) with ((c + y) * (c' + x)) by (field; lra). assert (0 <= (c' - c) * (y - x)) by (apply Rmult_le_pos; lra). lra.
Qed.
Lemma ln_quot : forall a b, 0 < a -> 0 < b -> ln (a / b) = ln a - ln b.
Proof. intros a b A B. unfold Rdiv. rewrite ln_mult, ln_Rinv; [lra|assumption..|apply Rinv_0_lt_compat, B]. Qed.
(** Exponents for which more mass means more stars: the steep decline beyond c3 must not win. *)
Definition growing (p : sfr_par) : Prop := 0 < SFR0 p /\ 0 < c1 p /\ 0 < c2 p <= c3 p /\ b_SFR p <= 0 /\ 0 <= d_SFR p /\ e_SFR p + d_SFR p <= 0 /\ 0 < a_SFR p + b_SFR p + d_SFR p + e_SFR p.
Theorem C94_star_formation : forall p z M, growing p -> 0 <= z -> 0 < M -> 0 < sfr p z M /\ (forall M', M < M' -> sfr p z M < sfr p z M') /\ (forall z', z < z' -> sfr p z M < sfr p z' M).
Proof.
  intros p z M (S0 & C1 & C2 & B & D & ED & S) Z HM. assert (ZZ : 0 < 1 + (z - 7) * 0.075) by lra.
  assert (P : forall a m, 0 < a -> 0 < a * Rpower m (a_SFR p) * Rpower (1 + m / c1 p) (b_SFR p) * Rpower (1 + m / c2 p) (d_SFR p) * Rpower (1 + m / c3 p) (e_SFR p)) by (intros; repeat apply Rmult_lt_0_compat; try apply pow_pos; assumption).
  split; [|split].
  - unfold sfr. apply P, Rmult_lt_0_compat; assumption.
  - intros M' L. unfold sfr. rewrite !Rmult_assoc. apply Rmult_lt_compat_l; [exact S0|]. apply Rmult_lt_compat_l; [exact ZZ|]. rewrite <- !Rmult_assoc. unfold Rpower. rewrite <- !exp_plus. apply exp_increasing.
    assert (F : forall c m, 0 < c -> 0 < m -> 0 < 1 + m / c) by (intros c m Hc Hm; assert (0 < m / c) by (apply Rdiv_lt_0_compat; assumption); lra).
    assert (I1 : ln M < ln M') by (apply ln_increasing; lra). pose proof (part_increasing (c1 p) M M' C1 (conj HM L)) as I2. pose proof (part_increasing (c3 p) M M' ltac:(lra) (conj HM L)) as I3. pose proof (quot_increasing (c2 p) (c3 p) M M' C2 (conj HM L)) as I4.
    apply ln_increasing in I2; [|apply Rdiv_lt_0_compat; [lra|apply F; lra]]. apply ln_increasing in I3; [|apply Rdiv_lt_0_compat; [lra|apply F; lra]]. assert (I4' : ln ((1 + M / c2 p) / (1 + M / c3 p)) <= ln ((1 + M' / c2 p) / (1 + M' / c3 p))) by (destruct I4 as [I4|I4]; [left; apply ln_increasing; [apply Rdiv_lt_0_compat; apply F; lra|exact I4]|rewrite I4; lra]). clear I4.
    rewrite !ln_quot in I2, I3, I4' by (try apply F; lra). set (l := ln M) in *. set (l' := ln M') in *. set (x := ln (1 + M / c1 p)) in *. set (x' := ln (1 + M' / c1 p)) in *. set (y := ln (1 + M / c2 p)) in *. set (y' := ln (1 + M' / c2 p)) in *. set (w := ln (1 + M / c3 p)) in *. set (w' := ln (1 + M' / c3 p)) in *. clearbody l l' x x' y y' w w'.
    (* a = -b - (d+e) + (a+b+d+e) *)
    assert (N1 : 0 <= (- b_SFR p) * ((l' - x') - (l - x))) by (apply Rmult_le_pos; lra). assert (N2 : 0 <= (- (e_SFR p + d_SFR p)) * ((l' - w') - (l - w))) by (apply Rmult_le_pos; lra). assert (N3 : 0 <= d_SFR p * ((y' - w') - (y - w))) by (apply Rmult_le_pos; lra). assert (N4 : 0 < (a_SFR p + b_SFR p + d_SFR p + e_SFR p) * (l' - l)) by (apply Rmult_lt_0_compat; lra). nra.
  - intros z' L. unfold sfr. do 4 (apply Rmult_lt_compat_r; [apply pow_pos|]). apply Rmult_lt_compat_l; [exact S0|lra].
Qed.
Print Assumptions C94_star_formation.
Example C94_star_formation_sat : growing sfr_default.
Proof. unfold growing, sfr_default. cbn. repeat split; lra. Qed.
Theorem C94_default_grows : growing sfr_default.
Proof. unfold growing, sfr_default. cbn [SFR0 c1 c2 c3 b_SFR d_SFR e_SFR a_SFR]. repeat split; lra. Qed.
(** Luminosity is 10^b rate^a: it grows with the rate. *)
Theorem C94_luminosity : forall a b r, 0 < r -> luminosity a b r = Rpower 10 b * Rpower r a /\ (0 < a -> forall r', r < r' -> luminosity a b r < luminosity a b r').
Proof.
  intros a b r H. assert (L10 : 0 < ln 10) by (rewrite <- ln_1; apply ln_increasing; lra). split.
  - unfold luminosity, Rpower. rewrite <- exp_plus. f_equal. field. lra.
  - intros A r' L. unfold luminosity. apply Rpower_lt; [lra|]. apply Rplus_lt_compat_r, Rmult_lt_compat_l; [exact A|]. apply Rmult_lt_compat_r; [apply Rinv_0_lt_compat, L10|]. apply ln_increasing; assumption.
Qed.
Print Assumptions C94_luminosity.
Example C94_luminosity_sat : exists (r : R), 0 < r.
Proof. exists 2. repeat split; first [lra | lia | reflexivity | discriminate | congruence | auto]. Qed.

(** * Maps *)
Lemma total_combine : forall (ps : list point) vs, length ps = length vs -> masses (combine ps vs) = total vs.
Proof. unfold masses. induction ps as [|q ps IH]; intros [|v vs] H; try discriminate; [reflexivity|]. cbn [combine map snd total fold_right]. f_equal. apply IH. cbn [length] in H. lia. Qed.
Lemma gridded_map : forall ps vs box n g, gridded ps vs box n = Map g -> length ps = length vs /\ ps <> [] /\ g = halo_list_to_grid (combine ps vs) box n.
Proof. intros ps vs box n g H. unfold gridded in H. destruct ps; [discriminate|]. destruct (Nat.eqb _ (length vs)) eqn:E; [|discriminate]. apply Nat.eqb_eq in E. injection H as <-. split; [exact E|]. split; [discriminate|reflexivity]. Qed.
(** The cells of a map add up to the signal of all haloes, whatever box is given. *)
Theorem C94_HI_total : forall recipe p c z mass pos box n g, (0 < n)%nat -> M_HI_on_grid recipe p c z mass pos box n = Map g -> total (map g (cells n)) = total (map (M_hi p c z) (content mass)).
Proof.
  intros recipe p c z mass pos box n g Hn H. unfold M_HI_on_grid in H. destruct (known recipe _); [|discriminate]. assert (G : gridded (content pos) (map (M_hi p c z) (content mass)) box n = Map g) by (destruct mass, pos; try discriminate; exact H). apply gridded_map in G. destruct G as (E & _ & ->). rewrite C79_conserved by exact Hn. apply total_combine, E.
Qed.
Print Assumptions C94_HI_total.
Theorem C94_CII_total : forall recipe a b p SFR z mass pos box n g, (0 < n)%nat -> L_CII_on_grid recipe a b p SFR z mass pos box n = Map g ->
  exists f a0 b0, sfr_of p SFR = Some f /\ coefficients recipe = Some (a0, b0) /\ total (map g (cells n)) = total (map (fun M => luminosity (match a with Some v => v | None => a0 end) (match b with Some v => v | None => b0 end) (f M z)) (content mass)).
Proof.
  intros recipe a b p SFR z mass pos box n g Hn H. unfold L_CII_on_grid in H. destruct (coefficients recipe) as [[a0 b0]|]; [|discriminate]. destruct (sfr_of p SFR) as [f|]; [|discriminate]. exists f, a0, b0. split; [reflexivity|]. split; [reflexivity|]. apply gridded_map in H. destruct H as (E & _ & ->). rewrite C79_conserved by exact Hn. apply total_combine, E.
Qed.
Print Assumptions C94_CII_total.
(** Heavier haloes at the same places never dim a cell. *)
Lemma value_mono : forall (ps : list point) (vs vs' : list R) (key : point -> cell) c, length vs = length vs' -> (forall i, nth i vs 0 <= nth i vs' 0) ->
  total (map snd (filter (fun h => cell_eqb (key (fst h)) c) (combine ps vs))) <= total (map snd (filter (fun h => cell_eqb (key (fst h)) c) (combine ps vs'))).
Proof.
  intros ps. induction ps as [|q ps IH]; intros vs vs' key c E H; [cbn; lra|]. destruct vs as [|v vs], vs' as [|v' vs']; try discriminate; [cbn; lra|]. cbn [combine filter fst]. assert (E' : length vs = length vs') by (cbn [length] in E; lia). specialize (IH vs vs' key c E' (fun i => H (S i))). specialize (H 0%nat). cbn [nth] in H.
  destruct (cell_eqb (key q) c); [|exact IH]. cbn [map snd total fold_right]. unfold total in IH. lra.
Qed.
Lemma halo_grid_mono : forall n box (ps : list point) vs vs' c, length ps = length vs -> length vs = length vs' -> (forall i, nth i vs 0 <= nth i vs' 0) -> halo_list_to_grid (combine ps vs) box n c <= halo_list_to_grid (combine ps vs') box n c.
Proof.
  intros n box ps vs vs' c E0 E H. unfold halo_list_to_grid, value_on_grid. assert (P : forall ws, length ps = length ws -> map (fun h : point * R => (pos_to_grid n box (fst h), snd h)) (combine ps ws) = combine (map (pos_to_grid n box) ps) ws). { clear. induction ps as [|q ps IH]; intros [|w ws] E; try discriminate; [reflexivity|]. cbn [combine map fst snd]. rewrite IH by (cbn [length] in E; lia). reflexivity. }
  assert (Q : forall (qs : list point) (ws : list R), length qs = length ws -> map fst (combine qs ws) = qs). { clear. induction qs as [|q qs IH]; intros [|w ws] E; try discriminate; [reflexivity|]. cbn [combine map fst]. rewrite IH by (cbn [length] in E; lia). reflexivity. }
  rewrite !P by congruence. rewrite !Q by (rewrite map_length; congruence). apply (value_mono _ vs vs'); assumption.
Qed.
Theorem C94_HI_brighter : forall recipe p c z ms ms' ps box n g g', physical p c -> (forall m, In m ms -> 0 < m) -> length ms = length ms' -> (forall i, (i < length ms)%nat -> nth i ms 0 <= nth i ms' 0) ->
  M_HI_on_grid recipe p c z (Plain ms) (Plain ps) box n = Map g -> M_HI_on_grid recipe p c z (Plain ms') (Plain ps) box n = Map g' -> forall x, g x <= g' x.
Proof.
  intros recipe p c z ms ms' ps box n g g' Ph Pos E H G G' x. unfold M_HI_on_grid in G, G'. destruct (known recipe _); [|discriminate]. apply gridded_map in G, G'. destruct G as (L & _ & ->), G' as (L' & _ & ->). apply halo_grid_mono; [exact L|rewrite !map_length; exact E|].
  intro i. cbn [content]. destruct (Nat.lt_ge_cases i (length ms)) as [I|I]; [|rewrite (nth_overflow (map _ ms)), (nth_overflow (map _ ms')) by (rewrite map_length; lia); apply Rle_refl]. rewrite (nth_indep _ 0 (M_hi p c z 0)), map_nth by (rewrite map_length; lia). rewrite (nth_indep (map _ ms') 0 (M_hi p c z 0)), map_nth by (rewrite map_length; lia).
  assert (P : 0 < nth i ms 0) by (apply Pos, nth_In, I). destruct (H i I) as [Q|Q]; [left; apply (C94_hydrogen p c z _ Ph P), Q|rewrite Q; lra].
Qed.
Print Assumptions C94_HI_brighter.
(** When the calls return: hydrogen maps need masses and positions both plain or both with units, against the per-argument treatment of the carbon maps. *)
Theorem C94_units_refuted : forall recipe p c z (ms : list R) (ps : list point) box n, In (lower recipe) ["padmanabhan2017"%string] -> ps <> [] -> length ps = length ms ->
  M_HI_on_grid recipe p c z (Quantity ms) (Plain ps) box n = Raises /\ M_HI_on_grid recipe p c z (Plain ms) (Quantity ps) box n = Squared /\
  exists g, M_HI_on_grid recipe p c z (Plain ms) (Plain ps) box n = Map g /\ M_HI_on_grid recipe p c z (Quantity ms) (Quantity ps) box n = Map g.
Proof.
  intros recipe p c z ms ps box n K N E. assert (KK : known recipe ["padmanabhan2017"%string] = true) by (unfold known; apply existsb_exists; exists "padmanabhan2017"%string; split; [left; reflexivity|destruct K as [K|[]]; rewrite <- K; apply String.eqb_refl]).
  unfold M_HI_on_grid. rewrite KK. split; [reflexivity|]. split; [reflexivity|]. unfold gridded. cbn [content]. rewrite map_length. destruct ps as [|q ps]; [contradiction N; reflexivity|]. rewrite E, Nat.eqb_refl. eexists. split; reflexivity.
Qed.
Theorem C94_carbon_calls : forall recipe a b p SFR z mass pos box n, (exists g, L_CII_on_grid recipe a b p SFR z mass pos box n = Map g) <->
  In (lower recipe) ["silva2015m1"; "silva2015m2"; "silva2015m3"; "silva2015m4"]%string /\ (SFR = SfrNone \/ (exists f, SFR = SfrFun f) \/ exists s, SFR = SfrName s /\ In (lower s) ["silva2013"; "silva2015"]%string) /\ content pos <> [] /\ length (content pos) = length (content mass).
Proof.
  intros recipe a b p SFR z mass pos box n. assert (KN : forall s l, known s l = true <-> In (lower s) l) by (intros s l; unfold known; rewrite existsb_exists; split; [intros (x & I & E); apply String.eqb_eq in E; rewrite E; exact I|intro I; exists (lower s); split; [exact I|apply String.eqb_refl]]).
  assert (CO : (exists q, coefficients recipe = Some q) <-> In (lower recipe) ["silva2015m1"; "silva2015m2"; "silva2015m3"; "silva2015m4"]%string).
  { unfold coefficients. destruct (known recipe ["silva2015m1"]%string) eqn:K1; [apply KN in K1; split; [intros _; destruct K1 as [K1|[]]; left; exact K1|intro; eexists; reflexivity]|]. destruct (known recipe ["silva2015m2"]%string) eqn:K2; [apply KN in K2; split; [intros _; destruct K2 as [K2|[]]; right; left; exact K2|intro; eexists; reflexivity]|].
    destruct (known recipe ["silva2015m3"]%string) eqn:K3; [apply KN in K3; split; [intros _; destruct K3 as [K3|[]]; right; right; left; exact K3|intro; eexists; reflexivity]|]. destruct (known recipe ["silva2015m4"]%string) eqn:K4; [apply KN in K4; split; [intros _; destruct K4 as [K4|[]]; do 3 right; left; exact K4|intro; eexists; reflexivity]|].
    split; [intros (q & Q); discriminate|]. intros I. exfalso. assert (NK : forall s, known recipe [s] = false -> lower recipe <> s) by (intros s F E; assert (T : known recipe [s] = true) by (apply KN; left; symmetry; exact E); rewrite T in F; discriminate). apply NK in K1, K2, K3, K4. destruct I as [I|[I|[I|[I|[]]]]]; symmetry in I; contradiction. }
  assert (SO : (exists f, sfr_of p SFR = Some f) <-> (SFR = SfrNone \/ (exists f, SFR = SfrFun f) \/ exists s, SFR = SfrName s /\ In (lower s) ["silva2013"; "silva2015"]%string)).
  { destruct SFR as [|s|f|]; cbn [sfr_of].
    - split; [left; reflexivity|intro; eexists; reflexivity].
    - destruct (known s _) eqn:K; [apply KN in K; split; [intros _; right; right; exists s; split; [reflexivity|exact K]|intro; eexists; reflexivity]|split; [intros (f & F); discriminate|intros [F|[(f & F)|(t & F & I)]]; try discriminate; injection F as <-; apply KN in I; rewrite I in K; discriminate]].
    - split; [intro; right; left; exists f; reflexivity|intro; eexists; reflexivity].
    - split; [intros (f & F); discriminate|intros [F|[(f & F)|(t & F & I)]]; discriminate]. }
  split.
  - intros (g & H). unfold L_CII_on_grid in H. destruct (coefficients recipe) as [[a0 b0]|] eqn:C; [|discriminate]. destruct (sfr_of p SFR) as [f|] eqn:F; [|discriminate]. apply gridded_map in H. destruct H as (E & N & _). rewrite map_length in E. split; [apply CO; eexists; reflexivity|]. split; [apply SO; eexists; reflexivity|]. split; assumption.
  - intros (C & F & N & E). apply CO in C. apply SO in F. destruct C as ([a0 b0] & C), F as (f & F). unfold L_CII_on_grid. rewrite C, F. unfold gridded. rewrite map_length, E, Nat.eqb_refl. destruct (content pos); [contradiction N; reflexivity|]. eexists. reflexivity.
Qed.
Print Assumptions C94_units_refuted.
Print Assumptions C94_carbon_calls.
(** The dictionary the documentation offers always raises. *)
Theorem C94_dictionary_refuted : forall recipe a b p z mass pos box n, L_CII_on_grid recipe a b p SfrDict z mass pos box n = Raises.
Proof. intros. unfold L_CII_on_grid. destruct (coefficients recipe) as [[? ?]|]; reflexivity. Qed.
Print Assumptions C94_dictionary_refuted.

(** * The published numbers *)
(** Each recipe with its slope and intercept; the default rate and the default hydrogen mass written out. *)
Definition table : list (string * (R * R)) := [("Silva2015m1"%string, (8475 / 10000, 72203 / 10000)); ("Silva2015m2"%string, (1, 69647 / 10000)); ("Silva2015m3"%string, (8727 / 10000, 67250 / 10000)); ("Silva2015m4"%string, (9231 / 10000, 65234 / 10000))].
Theorem C94_recipes : (forall name a b z (ms : list R) (ps : list point) box n, In (name, (a, b)) table -> 0 <= z -> (forall m, In m ms -> 0 < m) -> ps <> [] -> length ps = length ms ->
    L_CII_on_grid name None None sfr_default SfrNone z (Plain ms) (Plain ps) box n = Map (halo_list_to_grid (combine ps (map (fun m => Rpower 10 b * Rpower (sfr sfr_default z m) a) ms)) box n)) /\
  (forall z m, sfr sfr_default z m = (225 / 10 ^ 28) * (1 + (z - 7) * (75 / 1000)) * Rpower m (259 / 100) * Rpower (1 + m / (8 * 10 ^ 8)) (- (62 / 100)) * Rpower (1 + m / (7 * 10 ^ 9)) (4 / 10) * Rpower (1 + m / 10 ^ 11) (- (225 / 100))) /\
  (forall c z m, M_hi hi_default c z m = (9 / 10) * ((1 - 249 / 1000) * Ob c / Om c) * m * Rpower (m / hlittle c / 10 ^ 11) (- (58 / 100)) * exp (- (Rpower 10 (156 / 100) / v_c c m z) ^ 3)).
Proof.
  split; [|split].
  - intros name a b z ms ps box n I Z M N L. assert (H : L_CII_on_grid name None None sfr_default SfrNone z (Plain ms) (Plain ps) box n = gridded ps (map (fun Mh => luminosity a b (sfr sfr_default z Mh)) ms) box n).
    { unfold table in I. repeat (destruct I as [I|I]; [assert (name = fst (name, (a, b))) as En by reflexivity; assert (a = fst (snd (name, (a, b)))) as Ea by reflexivity; assert (b = snd (snd (name, (a, b)))) as Eb by reflexivity; rewrite <- I in En, Ea, Eb; cbn [fst snd] in En, Ea, Eb; rewrite En, Ea, Eb; unfold L_CII_on_grid, coefficients; match goal with |- context [known ?n ?l] => idtac end; cbv [known existsb lower lower_char String.eqb Ascii.eqb Bool.eqb map]; cbn; apply f_equal4; try reflexivity; apply map_ext; intro; f_equal; lra|]). destruct I. }
    rewrite H. unfold gridded. rewrite map_length, L, Nat.eqb_refl. destruct ps as [|p ps]; [contradiction N; reflexivity|]. f_equal. f_equal. f_equal. apply map_ext_in. intros m Mi. apply C94_luminosity. apply (C94_star_formation sfr_default z m C94_default_grows Z (M m Mi)).
  - intros z m. unfold sfr, sfr_default. cbn [SFR0 c1 c2 c3 b_SFR d_SFR e_SFR a_SFR]. assert (Q : 225 / 10 ^ 28 = 2.25 / 10 ^ 26). { change 28%nat with (26 + 2)%nat. rewrite pow_add. assert (T : 0 < 10 ^ 26) by (apply pow_lt; lra). set (t := 10 ^ 26) in *. clearbody t. replace 2.25 with (225 / 100) by lra. field. lra. } rewrite Q. replace 0.075 with (75 / 1000) by lra. replace 2.59 with (259 / 100) by lra. replace (- 0.62) with (- (62 / 100)) by lra. replace 0.40 with (4 / 10) by lra. replace (- 2.25) with (- (225 / 100)) by lra. reflexivity.
  - intros c z m. reflexivity.
Qed.
Print Assumptions C94_recipes.

(** * A concrete case *)
Definition planck : cosmology := {| Ob := 49 / 1000; Om := 31 / 100; hlittle := 68 / 100 |}.
Example C94_sat : physical hi_default planck /\ exists g, M_HI_on_grid "Padmanabhan2017" hi_default planck 2 (Plain [10 ^ 11; 10 ^ 12]) (Plain [(1, 1, 1); (2, 3, 4)]) 10 4 = Map g /\ 0 < total (map g (cells 4)).
Proof.
  assert (Ph : physical hi_default planck) by (unfold physical, hi_default, planck; cbn [alpha Y_p v_c0 beta Ob Om hlittle]; repeat split; try lra; apply pow_pos). split; [exact Ph|]. eexists. split; [reflexivity|]. assert (G := C94_HI_total "Padmanabhan2017" hi_default planck 2 (Plain [10 ^ 11; 10 ^ 12]) (Plain [(1, 1, 1); (2, 3, 4)]) 10 4 _ ltac:(lia) eq_refl). rewrite G. cbn [content map total fold_right].
  assert (H1 := proj1 (C94_hydrogen hi_default planck 2 (10 ^ 11) Ph ltac:(apply pow_lt; lra))). assert (H2 := proj1 (C94_hydrogen hi_default planck 2 (10 ^ 12) Ph ltac:(apply pow_lt; lra))). lra.
Qed.
Example C94_HI_brighter_sat : exists (recipe : string) (p : hi_par) (c : cosmology) (z : R) (ms : list R) (ms' : list R) (ps : list point) (box : R) (n : nat) (g : cell -> R) (g' : cell -> R), physical p c /\ ((forall m, In m ms -> 0 < m)) /\ length ms = length ms' /\ ((forall i, (i < length ms)%nat -> nth i ms 0 <= nth i ms' 0)) /\ M_HI_on_grid recipe p c z (Plain ms) (Plain ps) box n = Map g /\ M_HI_on_grid recipe p c z (Plain ms') (Plain ps) box n = Map g'.
Proof. eexists "Padmanabhan2017"%string, hi_default, planck, 2, [10 ^ 11; 10 ^ 12], [10 ^ 11; 10 ^ 13], [(1, 1, 1); (2, 3, 4)], 10, 4%nat, _, _. split; [exact (proj1 C94_sat)|]. split; [intros m [<-|[<-|[]]]; apply pow_lt; lra|]. split; [reflexivity|]. split; [intros [|[|i]] H; cbn [length] in H; try lia; cbn [nth]; lra|]. split; reflexivity. Qed.
