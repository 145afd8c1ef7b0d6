(** C70: calls that cannot succeed. *)
From Coq Require Import String List ZArith Lia Bool.
From Verif Require Import CallModel.
Import ListNotations.
Local Open Scope string_scope.

(** * Specification *)
(** The value a parameter gets, by the rules of the language. *)
Fixpoint lookup {V} (k : string) (kws : list (string * V)) : option V :=
  match kws with [] => None | (n, v) :: r => if String.eqb n k then Some v else lookup k r end.
Definition value_of {V} (args : list V) (kws : list (string * V)) (i : nat) (p : param V) : option V :=
  match nth_error args i with Some v => Some v | None => match lookup (pname p) kws with Some v => Some v | None => pdefault p end end.
Definition never_returns {A} (o : outcome A) : Prop := forall a, o <> Returned a.

(** * Helpers *)
Lemma fill_positional_spec : forall V (ps : list (param V)) args, match fill_positional ps args with
  | Some s => (length args <= length ps)%nat /\ length s = length ps /\ forall i, (i < length ps)%nat -> nth_error s i = Some (nth_error args i)
  | None => (length ps < length args)%nat end.
Proof.
  intros V. induction ps as [|p ps IH]; intros [|a args]; cbn; try (split; [lia|]; split; [reflexivity|]; intros; lia); try lia.
  - specialize (IH []). destruct (fill_positional ps []); cbn in *; [|lia]. destruct IH as [_ [L H]]. split; [lia|]. split; [lia|]. intros [|i] Hi; [reflexivity|]. cbn. rewrite H by lia. destruct i; reflexivity.
  - specialize (IH args). destruct (fill_positional ps args); cbn in *; [|lia]. destruct IH as [A [L H]]. split; [lia|]. split; [lia|]. intros [|i] Hi; [reflexivity|]. cbn. apply H. lia.
Qed.
Lemma fill_keyword_spec : forall V (ps : list (param V)) slots k v, NoDup (map pname ps) -> length slots = length ps ->
  match fill_keyword ps slots k v with
  | Some s => length s = length ps /\ exists i p, nth_error ps i = Some p /\ pname p = k /\ nth_error slots i = Some None /\ nth_error s i = Some (Some v) /\ forall j, j <> i -> nth_error s j = nth_error slots j
  | None => forall i p, nth_error ps i = Some p -> pname p = k -> exists w, nth_error slots i = Some (Some w) end.
Proof.
  intros V. induction ps as [|p ps IH]; intros [|s slots] k v ND L; cbn in L; try discriminate; cbn [fill_keyword].
  - intros i p H. destruct i; discriminate.
  - inversion ND as [|? ? N1 N2]; subst. injection L as L. destruct (String.eqb_spec (pname p) k) as [E|E].
    + destruct s as [w|].
      * intros i q H1 H2. destruct i; [exists w; reflexivity|]. exfalso. apply N1. rewrite E, <- H2. apply in_map. cbn in H1. apply (nth_error_In _ _ H1).
      * split; [cbn; lia|]. exists 0%nat, p. split; [reflexivity|]. split; [exact E|]. split; [reflexivity|]. split; [reflexivity|]. intros [|j] Hj; [contradiction|reflexivity].
    + specialize (IH slots k v N2 L). destruct (fill_keyword ps slots k v) as [r|].
      * destruct IH as [L2 (i & q & A & B & C & D & F)]. split; [cbn; lia|]. exists (S i), q. repeat split; try assumption. intros [|j] Hj; [reflexivity|]. cbn. apply F. lia.
      * intros [|i] q H1 H2; [injection H1 as <-; contradiction|]. apply (IH i q H1 H2).
Qed.
Lemma nth_name_inj : forall V (ps : list (param V)) i j p q, NoDup (map pname ps) -> nth_error ps i = Some p -> nth_error ps j = Some q -> pname p = pname q -> i = j.
Proof.
  intros V ps i j p q ND Hi Hj E. apply (proj1 (NoDup_nth_error (map pname ps)) ND); [rewrite map_length; apply nth_error_Some; congruence|]. rewrite !nth_error_map, Hi, Hj. cbn. congruence.
Qed.
Lemma fill_keywords_spec : forall V (ps : list (param V)) kws slots, NoDup (map pname ps) -> NoDup (map fst kws) -> length slots = length ps ->
  match fill_keywords ps slots kws with
  | Some s => length s = length ps /\ (forall k, In k (map fst kws) -> exists i p, nth_error ps i = Some p /\ pname p = k /\ nth_error slots i = Some None) /\
      forall i p, nth_error ps i = Some p -> nth_error s i = match lookup (pname p) kws with Some v => Some (Some v) | None => nth_error slots i end
  | None => exists k, In k (map fst kws) /\ forall i p, nth_error ps i = Some p -> pname p = k -> exists w, nth_error slots i = Some (Some w) end.
Proof.
  intros V ps. induction kws as [|[k v] kws IH]; intros slots ND NK L; cbn [fill_keywords].
  - split; [exact L|]. split; [intros k []|]. intros i p H. reflexivity.
  - cbn [map fst] in NK. inversion NK as [|? ? K1 K2]; subst. pose proof (fill_keyword_spec V ps slots k v ND L) as FK. destruct (fill_keyword ps slots k v) as [s1|].
    + destruct FK as [L1 (i & p & A & B & C & D & F)]. specialize (IH s1 ND K2 L1). destruct (fill_keywords ps s1 kws) as [s2|].
      * destruct IH as [L2 [I1 I2]]. split; [exact L2|]. split.
        -- intros k' [<-|Hk']; [exists i, p; auto|]. destruct (I1 k' Hk') as (j & q & Q1 & Q2 & Q3). exists j, q. split; [exact Q1|]. split; [exact Q2|]. rewrite <- (F j); [exact Q3|]. intros ->. rewrite D in Q3. discriminate.
        -- intros j q Hq. rewrite (I2 j q Hq). cbn [lookup]. destruct (String.eqb_spec k (pname q)) as [E|E].
           ++ replace (lookup (pname q) kws) with (@None V). { assert (j = i) as -> by (apply (nth_name_inj V ps j i q p ND Hq A); congruence). exact D. }
              rewrite <- E. clear - K1. induction kws as [|[a b] r IH]; [reflexivity|]. cbn in *. destruct (String.eqb_spec a k); [exfalso; apply K1; left; assumption|apply IH; tauto].
           ++ destruct (lookup (pname q) kws); [reflexivity|]. apply F. intros ->. rewrite A in Hq. injection Hq as <-. congruence.
      * destruct IH as (k' & Hk' & IH). exists k'. split; [right; exact Hk'|]. intros j q Hq Eq. destruct (IH j q Hq Eq) as [w Hw]. exists w. rewrite <- (F j); [exact Hw|]. intros ->. rewrite A in Hq. injection Hq as <-. apply K1. congruence.
    + exists k. split; [left; reflexivity|exact FK].
Qed.
Lemma fill_defaults_spec : forall V (ps : list (param V)) s, length s = length ps ->
  match fill_defaults ps s with
  | Some e => length e = length ps /\ forall i p, nth_error ps i = Some p -> nth_error e i = match nth_error s i with Some (Some v) => Some v | _ => pdefault p end
  | None => exists i p, nth_error ps i = Some p /\ nth_error s i = Some None /\ pdefault p = None end.
Proof.
  intros V. induction ps as [|p ps IH]; intros [|x s] L; cbn in L; try discriminate; cbn [fill_defaults].
  - split; [reflexivity|]. intros i q H. destruct i; discriminate.
  - injection L as L. specialize (IH s L). destruct (match x with Some v => Some v | None => pdefault p end) eqn:X.
    + destruct (fill_defaults ps s) as [e|].
      * destruct IH as [L2 H]. split; [cbn; lia|]. intros [|i] q Hq; [injection Hq as <-; cbn; destruct x; congruence|]. cbn. apply H. exact Hq.
      * destruct IH as (i & q & A & B & C). exists (S i), q. auto.
    + exists 0%nat, p. destruct x; [discriminate|]. split; [reflexivity|]. split; [reflexivity|exact X].
Qed.

(** * Theorems *)
(** The binding: a call fits iff there are not too many positional arguments, every keyword names a
    parameter that no positional argument filled, and every other parameter has a default; the parameters
    then get the values the language reference gives them. *)
Theorem C70_bind : forall V (ps : list (param V)) args kws, NoDup (map pname ps) -> NoDup (map fst kws) ->
  ((exists env, bind ps args kws = Some env) <->
   (length args <= length ps)%nat /\
   (forall k, In k (map fst kws) -> exists i p, nth_error ps i = Some p /\ pname p = k /\ (length args <= i)%nat) /\
   (forall i p, nth_error ps i = Some p -> value_of args kws i p <> None)) /\
  (forall env, bind ps args kws = Some env -> length env = length ps /\ forall i p, nth_error ps i = Some p -> nth_error env i = value_of args kws i p).
Proof.
  intros V ps args kws ND NK. unfold bind. pose proof (fill_positional_spec V ps args) as FP. destruct (fill_positional ps args) as [s|].
  2:{ split; [|discriminate]. split; [intros [e H]; discriminate|lia]. }
  destruct FP as [LA [LS HS]]. pose proof (fill_keywords_spec V ps kws s ND NK LS) as FK.
  assert (Slot : forall i p, nth_error ps i = Some p -> nth_error s i = Some (nth_error args i)) by (intros i p H; apply HS; apply nth_error_Some; congruence).
  destruct (fill_keywords ps s kws) as [s2|].
  - destruct FK as [L2 [K1 K2]]. pose proof (fill_defaults_spec V ps s2 L2) as FD.
    assert (KO : forall k, In k (map fst kws) -> exists i p, nth_error ps i = Some p /\ pname p = k /\ (length args <= i)%nat).
    { intros k Hk. destruct (K1 k Hk) as (i & p & A & B & C). exists i, p. split; [exact A|]. split; [exact B|]. rewrite (Slot i p A) in C. injection C as C. apply nth_error_None. exact C. }
    assert (VO : forall i p, nth_error ps i = Some p -> match nth_error s2 i with Some (Some v) => Some v | _ => pdefault p end = value_of args kws i p).
    { intros i p H. rewrite (K2 i p H), (Slot i p H). unfold value_of. destruct (lookup (pname p) kws) as [v|] eqn:LK.
      - assert (Hin : In (pname p) (map fst kws)). { clear - LK. induction kws as [|[a b] r IH]; [discriminate|]. cbn in *. destruct (String.eqb_spec a (pname p)); [left; assumption|right; apply IH; exact LK]. }
        destruct (KO _ Hin) as (j & q & A & B & C). assert (j = i) as -> by (apply (nth_name_inj V ps j i q p ND A H B)). rewrite (proj2 (nth_error_None args i) C). reflexivity.
      - destruct (nth_error args i); reflexivity. }
    destruct (fill_defaults ps s2) as [e|].
    + destruct FD as [LE HE]. split.
      * split; [|intros _; exists e; reflexivity]. intros _. split; [exact LA|]. split; [exact KO|]. intros i p H. rewrite <- (VO i p H), <- (HE i p H). apply nth_error_Some. rewrite LE. apply nth_error_Some. congruence.
      * intros env Q. injection Q as <-. split; [exact LE|]. intros i p H. rewrite (HE i p H). apply VO. exact H.
    + split; [|discriminate]. split; [intros [e H]; discriminate|]. intros [_ [_ H]]. destruct FD as (i & p & A & B & C). exfalso. apply (H i p A). rewrite <- (VO i p A), B. exact C.
  - split; [|discriminate]. split; [intros [e H]; discriminate|]. intros [_ [H _]]. destruct FK as (k & Hk & F). destruct (H k Hk) as (i & p & A & B & C). destruct (F i p A B) as [w W].
    rewrite (Slot i p A), (proj2 (nth_error_None args i) C) in W. discriminate.
Qed.
Print Assumptions C70_bind.
(** The multipole expansion, the old light-cone routine: no arguments make them return. *)
Theorem C70_multipoles_refuted : forall A ndim los spectrum k_comp k get_mu rest, @never_returns A (power_spectrum_multipoles ndim los spectrum k_comp k get_mu rest).
Proof. intros A ndim los spectrum k_comp k get_mu rest a. unfold power_spectrum_multipoles. destruct (_ && _)%bool; [|discriminate]. destruct spectrum; discriminate. Qed.
Print Assumptions C70_multipoles_refuted.
(** The error is that of the assertion exactly for an axis outside 0 to the number of dimensions, then that of the spectrum, else the missing argument. *)
Theorem C70_multipoles_error : forall A ndim los spectrum k_comp k get_mu rest, @power_spectrum_multipoles A ndim los spectrum k_comp k get_mu rest =
  Raised (if (los <? 0)%Z then "AssertionError" else if (Z.of_nat ndim <? los)%Z then "AssertionError" else match spectrum with Some e => e | None => "TypeError" end)%string.
Proof.
  intros A ndim los spectrum k_comp k get_mu rest. unfold power_spectrum_multipoles. destruct (Z.ltb_spec los 0); [destruct (Z.leb_spec 0 los); [lia|reflexivity]|]. destruct (Z.leb_spec 0 los); [|lia]. cbn [andb].
  destruct (Z.ltb_spec (Z.of_nat ndim) los); destruct (Z.leb_spec los (Z.of_nat ndim)); try lia; [reflexivity|]. destruct spectrum; reflexivity.
Qed.
Print Assumptions C70_multipoles_error.
Theorem C70_freq_box_refuted : forall A setup output_z reads data brackets pos interp finish, @never_returns A (freq_box setup output_z reads data brackets pos interp finish).
Proof. intros A setup output_z reads data brackets pos interp finish a. unfold freq_box. destruct setup; [discriminate|]. destruct output_z as [|z zs]; [discriminate|]. cbn [freq_box_loop]. destruct (reads z); discriminate. Qed.
Print Assumptions C70_freq_box_refuted.
(** Smoothing with a uv map works only when the caller passes the map. *)
Theorem C70_uvmap_needed : forall A n z filename t i b d v uv_map get_uv_map,
  @never_returns A (convolve_uvmap_map n z filename t i b d v uv_map get_uv_map) <-> uv_map = None.
Proof.
  intros A n z filename t i b d v uv_map get_uv_map. destruct uv_map as [m|]; cbn [convolve_uvmap_map].
  - split; [intro H; exfalso; apply (H m); reflexivity|discriminate].
  - split; [reflexivity|]. intros _ a. discriminate.
Qed.
Print Assumptions C70_uvmap_needed.
Theorem C70_uvmap_coeval_needed : forall A (uv_map : option A), never_returns (convolve_uvmap_coeval_map uv_map) <-> uv_map = None.
Proof.
  intros A [m|]; cbn; [|split; [reflexivity|intros _ a; discriminate]]. split; [intro H; exfalso; apply (H m); reflexivity|discriminate].
Qed.
Print Assumptions C70_uvmap_coeval_needed.
(** Without the extra keyword the call would fit, so the keyword is the cause. *)
Theorem C70_uvmap_cause : forall n z t i b d v, exists env,
  bind get_uv_map_params [n; z] [("total_int_time", t); ("int_time", i); ("boxsize", b); ("declination", d); ("verbose", v)] = Some env /\
  env = [n; z; PStr "AA4"; t; i; b; d; PBool true; v; PNone].
Proof. intros. eexists. split; reflexivity. Qed.
Print Assumptions C70_uvmap_cause.
Theorem C70_multipoles_cause : forall k_comp k los a, bind get_mu_params [k_comp; k; los; a] [] = Some [k_comp; k; los; a] /\ bind get_mu_params [k_comp; k; los] [("absolute_mus", a)] = Some [k_comp; k; los; a].
Proof. intros. split; reflexivity. Qed.
Print Assumptions C70_multipoles_cause.
Theorem C70_halo3d : forall A n1 n2 n3 (zeros : A), never_returns (halo3d n1 n2 n3 zeros) <-> (n1 > 0 /\ n2 > 0 /\ n3 > 0)%nat.
Proof.
  intros A n1 n2 n3 zeros. unfold halo3d, never_returns. destruct (Nat.eqb_spec (n1 * n2 * n3) 0) as [E|E].
  - split; [intro H; exfalso; apply (H zeros); reflexivity|]. intros [H1 [H2 H3]]. assert (n1 * n2 * n3 <> 0)%nat by (apply Nat.neq_mul_0; split; [apply Nat.neq_mul_0; lia|lia]). contradiction.
  - split; [|intros _ a; discriminate]. intros _. destruct n1, n2, n3; cbn in E; try lia; rewrite ?Nat.mul_0_r in E; cbn in E; lia.
Qed.
Print Assumptions C70_halo3d.
(** The wedge equation is handed out, and fails at every point. *)
Theorem C70_wedge_refuted : forall A (formula : pv -> A), exists f, horizon_wedge_equation formula = Returned f /\ forall kper, never_returns (f kper).
Proof. intros A formula. eexists. split; [reflexivity|]. intros kper a. discriminate. Qed.
Print Assumptions C70_wedge_refuted.
Example C70_sat : NoDup (map pname get_uv_map_params) /\ NoDup (map pname get_mu_params) /\ NoDup (map pname get_interp_slice_params) /\
  bind get_uv_map_params [PInt 4; PInt 7] [("filename", PNone)] = None /\ bind get_mu_params [PNone; PNone; PInt 0] [] = None /\
  bind get_uv_map_params [PInt 4; PInt 7] [("verbose", PBool false)] <> None /\ halo3d 0 3 3 tt = Returned tt.
Proof. repeat split; try reflexivity; try discriminate; repeat constructor; cbn; intuition discriminate. Qed.
