(** C69: Gaussian random fields. *)
From Coq Require Import List Arith ZArith Reals Lra Lia Bool FunctionalExtensionality.
From Verif Require Import RLib KGridModel FourierModel FourierSpec FourierProofs FourierProps DftLib ProbLib GrfModel.
Import ListNotations.
Local Open Scope R_scope.

(** * Specification *)
(** The cell where a three-dimensional grid with even sides expects frequency (0,0,0) is the centre. *)
Definition centre (s : list nat) : list nat := map (fun n => (n / 2)%nat) s.
(** A field drawn from the probability law (L, E). *)
Definition random_field {O} (s : list nat) (box : list R) (ps : R -> R) (g : O -> array * array) (out : O -> array) : Prop :=
  forall o, make_gaussian_random_field s box ps (g o) = Some (out o).
(** The next cell along every axis, periodically. *)
Definition next (s i : list nat) : list nat := wrap_add s i (map (fun _ => 1%nat) s).

(** * Helpers *)
Lemma shift_source_inj : forall n a b, (a < n)%nat -> (b < n)%nat -> shift_source n a = shift_source n b -> a = b.
Proof.
  intros n a b Ha Hb H. unfold shift_source in H. assert (D : (n / 2 <= n)%nat) by (apply Nat.div_le_upper_bound; lia).
  pose proof (Nat.div_mod (a + (n - n / 2)) n ltac:(lia)) as A. pose proof (Nat.div_mod (b + (n - n / 2)) n ltac:(lia)) as B. rewrite H in A.
  assert ((a + (n - n / 2)) / n <= 1)%nat by (apply Nat.lt_succ_r, Nat.div_lt_upper_bound; lia). assert ((b + (n - n / 2)) / n <= 1)%nat by (apply Nat.lt_succ_r, Nat.div_lt_upper_bound; lia).
  set (q := ((a + (n - n / 2)) / n)%nat) in *. set (p := ((b + (n - n / 2)) / n)%nat) in *. set (r := ((b + (n - n / 2)) mod n)%nat) in *.
  assert (q = 0 \/ q = 1)%nat as [Eq|Eq] by lia; assert (p = 0 \/ p = 1)%nat as [Ep|Ep] by lia; rewrite Eq in A; rewrite Ep in B; nia.
Qed.
Lemma shift_sources_inj : forall s a b, valid s a -> valid s b -> shift_sources s a = shift_sources s b -> a = b.
Proof.
  induction s as [|n s IH]; intros a b Ha Hb H; inversion Ha as [|? x ? a' Hx Ha']; inversion Hb as [|? y ? b' Hy Hb']; subst; [reflexivity|].
  cbn in H. injection H as H1 H2. f_equal; [eapply shift_source_inj; eassumption|apply IH; assumption].
Qed.
Lemma eqb_shift : forall s a b, valid s a -> valid s b -> list_eqb (shift_sources s a) (shift_sources s b) = list_eqb a b.
Proof.
  intros s a b Ha Hb. apply eq_true_iff_eq. rewrite !list_eqb_spec. split; intro H; [apply (shift_sources_inj s); assumption|subst; reflexivity].
Qed.
Lemma eqb_symm : forall a b, list_eqb a b = list_eqb b a.
Proof. intros a b. apply eq_true_iff_eq. rewrite !list_eqb_spec. split; auto. Qed.
(** E |F(j)|^2 of a real part. *)
Lemma E_mode : forall {O} s (L : (O -> R) -> Prop) E g, expectation L E -> unit_noise s L E g -> forall (w : list nat -> R) a b, valid s a -> valid s b ->
  E (fun o => ((fst (g o) a * w a + fst (g o) b * w b) / 2) ^ 2 + ((snd (g o) a * w a - snd (g o) b * w b) / 2) ^ 2) = (w a ^ 2 + w b ^ 2) / 2.
Proof.
  intros O s L E g [L0 [LA LS]] HG w a b Ha Hb.
  destruct (HG a a Ha Ha) as [[A1 A2] [[B1 B2] _]]. destruct (HG b b Hb Hb) as [[C1 C2] [[D1 D2] _]]. destruct (HG a b Ha Hb) as [[X1 X2] [[Y1 Y2] _]].
  rewrite (proj2 (list_eqb_spec a a) eq_refl) in A2, B2. rewrite (proj2 (list_eqb_spec b b) eq_refl) in C2, D2.
  replace (fun o => _) with (fun o => ((w a ^ 2 / 4 * (fst (g o) a * fst (g o) a) + w b ^ 2 / 4 * (fst (g o) b * fst (g o) b)) + (w a ^ 2 / 4 * (snd (g o) a * snd (g o) a) + w b ^ 2 / 4 * (snd (g o) b * snd (g o) b)))
    + (w a * w b / 2 * (fst (g o) a * fst (g o) b) + - (w a * w b / 2) * (snd (g o) a * snd (g o) b))) by (apply functional_extensionality; intro o; field).
  destruct (LS (w a ^ 2 / 4) _ A1) as [a1 a2]. destruct (LS (w b ^ 2 / 4) _ C1) as [c1 c2]. destruct (LS (w a ^ 2 / 4) _ B1) as [b1 b2]. destruct (LS (w b ^ 2 / 4) _ D1) as [d1 d2].
  destruct (LS (w a * w b / 2) _ X1) as [x1 x2]. destruct (LS (- (w a * w b / 2)) _ Y1) as [y1 y2].
  destruct (LA _ _ a1 c1) as [p1 p2]. destruct (LA _ _ b1 d1) as [q1 q2]. destruct (LA _ _ x1 y1) as [r1 r2]. destruct (LA _ _ p1 q1) as [s1 s2]. destruct (LA _ _ s1 r1) as [t1 t2].
  rewrite t2, s2, r2, p2, q2, a2, b2, c2, d2, x2, y2, A2, B2, C2, D2, X2, Y2. destruct (list_eqb a b); field.
Qed.
Lemma unit_noise_shift : forall {O} s (L : (O -> R) -> Prop) E g, unit_noise s L E g ->
  unit_noise s L E (fun o => (fun j => fst (g o) (shift_sources s j), fun j => snd (g o) (shift_sources s j))).
Proof.
  intros O s L E g H j k Hj Hk. destruct (H (shift_sources s j) (shift_sources s k) (valid_shift _ _ Hj) (valid_shift _ _ Hk)) as [A [B C]]. rewrite eqb_shift in A, B by assumption.
  cbn [fst snd]. exact (conj A (conj B C)).
Qed.
Lemma rprod_pos : forall l, (forall x, In x l -> 0 < x) -> 0 < rprod l.
Proof. induction l as [|x l IH]; intro H; cbn; [lra|]. apply Rmult_lt_0_compat; [apply H; left; reflexivity|apply IH; intros; apply H; right; assumption]. Qed.
Lemma scale_pos : forall s box i, valid s i -> (forall x, In x box -> 0 < x) -> 0 < ps_scale s box.
Proof.
  intros s box i Hi Hb. unfold ps_scale. pose proof (rprod_pos box Hb). pose proof (cells_pos s i Hi). apply Rdiv_lt_0_compat; [|assumption]. apply pow_lt. apply Rdiv_lt_0_compat; assumption.
Qed.

(** * Theorems *)
Theorem C69_domain : forall s box ps g, make_gaussian_random_field s box ps g = None <-> ~ ((length s = 2 \/ length s = 3)%nat /\ length box = length s).
Proof.
  intros s box ps g. unfold make_gaussian_random_field.
  assert (E : ((Nat.eqb (length s) 2 || Nat.eqb (length s) 3) && Nat.eqb (length box) (length s))%bool = true <-> ((length s = 2 \/ length s = 3)%nat /\ length box = length s)) by (rewrite andb_true_iff, orb_true_iff, !Nat.eqb_eq; tauto).
  destruct (((Nat.eqb (length s) 2 || Nat.eqb (length s) 3) && Nat.eqb (length box) (length s))%bool); split; intro H; try discriminate; try reflexivity.
  - exfalso. apply H, E. reflexivity.
  - intro K. apply E in K. discriminate.
Qed.
Print Assumptions C69_domain.
(** The mean power of a mode is the average of the requested power over the k that the program assigned to
    the mode and to its opposite. *)
Theorem C69_expected_power : forall O (L : (O -> R) -> Prop) E g s box ps out,
  expectation L E -> unit_noise s L E g -> random_field s box ps g out -> (forall k, 0 <= ps k) -> (forall x, In x box -> 0 < x) ->
  forall i, valid s i ->
    E (fun o => power_spectrum_nd s box (out o) i) =
    (ps (k_used s box (shift_sources s (shift_sources s i))) + ps (k_used s box (shift_sources s (shift_sources s (mirror s i))))) / 2.
Proof.
  intros O L E g s box ps out HE HG HF HP HB i Hi. pose proof (valid_shift _ _ Hi) as Hj. set (j := shift_sources s i) in *.
  pose proof (scale_pos s box i Hi HB) as SP. rewrite mirror_opp by exact Hi. fold j. set (j' := wrap_opp s j). assert (Hj' : valid s j') by (apply valid_opp; exact Hj).
  set (w := fun a => sqrt (ps (k_used s box (shift_sources s a)) / ps_scale s box)).
  set (G := fun o => (fun a => fst (g o) (shift_sources s a), fun a => snd (g o) (shift_sources s a))).
  assert (F : forall o, power_spectrum_nd s box (out o) i = ps_scale s box * (((fst (G o) j * w j + fst (G o) j' * w j') / 2) ^ 2 + ((snd (G o) j * w j - snd (G o) j' * w j') / 2) ^ 2)).
  { intro o. specialize (HF o). unfold make_gaussian_random_field in HF. destruct (_ && _)%bool in HF; [|discriminate]. injection HF as HF. rewrite <- HF.
    unfold power_spectrum_nd. fold j. cbv zeta. rewrite cabs_sq.
    destruct (fft_of_real_part s (fun j => fst (G o) j * w j) (fun j => snd (G o) j * w j) j Hj) as [R1 R2].
    unfold G, w in R1, R2. cbn [fst snd] in R1, R2 |- *. rewrite R1, R2. unfold even_part, odd_part. fold j'. unfold w, G. cbn [fst snd]. ring. }
  replace (fun o => power_spectrum_nd s box (out o) i) with (fun o => ps_scale s box * (((fst (G o) j * w j + fst (G o) j' * w j') / 2) ^ 2 + ((snd (G o) j * w j - snd (G o) j' * w j') / 2) ^ 2)) by (apply functional_extensionality; intro o; symmetry; apply F).
  pose proof (E_mode s L E G HE (unit_noise_shift s L E g HG) w j j' Hj Hj') as EM.
  assert (LM : L (fun o => ((fst (G o) j * w j + fst (G o) j' * w j') / 2) ^ 2 + ((snd (G o) j * w j - snd (G o) j' * w j') / 2) ^ 2)).
  { pose proof (unit_noise_shift s L E g HG) as HG'. fold G in HG'. destruct (HG' j j Hj Hj) as [[A1 _] [[B1 _] _]]. destruct (HG' j' j' Hj' Hj') as [[C1 _] [[D1 _] _]]. destruct (HG' j j' Hj Hj') as [[X1 _] [[Y1 _] _]].
    destruct HE as [L0 [LA LS]].
    replace (fun o => _) with (fun o => ((w j ^ 2 / 4 * (fst (G o) j * fst (G o) j) + w j' ^ 2 / 4 * (fst (G o) j' * fst (G o) j')) + (w j ^ 2 / 4 * (snd (G o) j * snd (G o) j) + w j' ^ 2 / 4 * (snd (G o) j' * snd (G o) j')))
      + (w j * w j' / 2 * (fst (G o) j * fst (G o) j') + - (w j * w j' / 2) * (snd (G o) j * snd (G o) j'))) by (apply functional_extensionality; intro o; field).
    repeat (apply LA); apply LS; assumption. }
  destruct HE as [L0 [LA LS]]. etransitivity; [exact (proj2 (LS (ps_scale s box) _ LM))|]. etransitivity; [apply f_equal; exact EM|].
  assert (W : forall a, w a ^ 2 = ps (k_used s box (shift_sources s a)) / ps_scale s box).
  { intro a. unfold w. rewrite <- Rsqr_pow2, Rsqr_sqrt; [reflexivity|]. apply Rmult_le_pos; [apply HP|left; apply Rinv_0_lt_compat; exact SP]. }
  rewrite !W. field. lra.
Qed.
Print Assumptions C69_expected_power.

Lemma shift_twice_even : forall s i, valid s i -> (forall n, In n s -> Nat.even n = true) -> shift_sources s (shift_sources s i) = i.
Proof.
  induction s as [|n s IH]; intros i Hi He; inversion Hi as [|? k ? t Hk Ht]; subst; [reflexivity|]. cbn. f_equal; [|apply IH; [exact Ht|intros; apply He; right; assumption]].
  specialize (He n (or_introl eq_refl)). apply Nat.even_spec in He. destruct He as [m ->]. unfold shift_source. rewrite (Nat.mul_comm 2 m), Nat.div_mul by lia.
  rewrite Nat.add_mod_idemp_l by lia. replace (k + (m * 2 - m) + (m * 2 - m))%nat with (k + 1 * (m * 2))%nat by lia. rewrite Nat.mod_add by lia. apply Nat.mod_small. lia.
Qed.
Lemma shift_twice_odd : forall s i, valid s i -> (forall n, In n s -> Nat.even n = false) -> shift_sources s (shift_sources s i) = next s i.
Proof.
  unfold next. induction s as [|n s IH]; intros i Hi He; inversion Hi as [|? k ? t Hk Ht]; subst; [reflexivity|]. cbn. f_equal; [|apply IH; [exact Ht|intros; apply He; right; assumption]].
  specialize (He n (or_introl eq_refl)). assert (O : Nat.odd n = true) by (unfold Nat.odd; rewrite He; reflexivity). apply Nat.odd_spec in O. destruct O as [m ->]. unfold shift_source.
  assert (D : ((2 * m + 1) / 2 = m)%nat) by (symmetry; apply (Nat.div_unique _ 2 m 1); lia). rewrite D, Nat.add_mod_idemp_l by lia.
  replace (k + (2 * m + 1 - m) + (2 * m + 1 - m))%nat with (k + 1 + 1 * (2 * m + 1))%nat by lia. rewrite Nat.mod_add by lia. reflexivity.
Qed.
Lemma valid_mirror : forall s i, valid s i -> valid s (mirror s i).
Proof. induction s as [|n s IH]; intros i H; inversion H as [|? k ? t Hk Ht]; subst; cbn; constructor; [apply Nat.mod_upper_bound; lia|apply IH; exact Ht]. Qed.
Lemma get_k_mirror : forall n L x, Nat.even n = true -> (x < n)%nat -> get_k_3d n L ((n / 2 + n / 2 + (n - x)) mod n) ^ 2 = get_k_3d n L x ^ 2.
Proof.
  intros n L x E H. apply Nat.even_spec in E. destruct E as [m ->]. unfold get_k_3d, k_component, center_3d. replace ((2 * m) mod 2)%nat with 0%nat by (rewrite Nat.mul_comm; symmetry; apply Nat.mod_mul; lia). cbn [Nat.eqb].
  rewrite (Nat.mul_comm 2 m), Nat.div_mul by lia. destruct (Nat.eq_dec x 0) as [->|Nx].
  - replace (m + m + (m * 2 - 0))%nat with (0 + 2 * (m * 2))%nat by lia. rewrite Nat.mod_add, Nat.mod_small by lia. reflexivity.
  - replace (m + m + (m * 2 - x))%nat with (m * 2 - x + 1 * (m * 2))%nat by lia. rewrite Nat.mod_add, Nat.mod_small by lia. rewrite minus_INR by lia. unfold Rdiv.
    set (N := INR (m * 2)). replace (N - INR x - N * / 2) with (- (INR x - N * / 2)) by lra. ring.
Qed.
(** Three dimensions, even sides: every mode but the mean has exactly the requested mean power; the mean
    has that of a tenth of the smallest |k|. *)
Theorem C69_even_cube : forall O (L : (O -> R) -> Prop) E g n1 n2 n3 L1 L2 L3 ps out,
  let s := [n1; n2; n3] in let box := [L1; L2; L3] in
  expectation L E -> unit_noise s L E g -> random_field s box ps g out -> (forall k, 0 <= ps k) -> 0 < L1 -> 0 < L2 -> 0 < L3 ->
  Nat.even n1 = true -> Nat.even n2 = true -> Nat.even n3 = true ->
  forall x y z, valid s [x; y; z] ->
    let k := get_kmag_3d n1 n2 n3 L1 L2 L3 x y z in
    (k <> 0 -> E (fun o => power_spectrum_nd s box (out o) [x; y; z]) = ps k) /\
    (k = 0 -> E (fun o => power_spectrum_nd s box (out o) [x; y; z]) = ps (least (filter (fun q => negb (is_zero q)) (map (grid_k s box) (indices s))) / 10)).
Proof.
  intros O L E g n1 n2 n3 L1 L2 L3 ps out s box HE HG HF HP P1 P2 P3 E1 E2 E3 x y z V k.
  rewrite (C69_expected_power O L E g s box ps out HE HG HF HP ltac:(intros q [<-|[<-|[<-|[]]]]; assumption) _ V).
  assert (Ev : forall n, In n s -> Nat.even n = true) by (intros n [<-|[<-|[<-|[]]]]; assumption).
  rewrite !shift_twice_even by first [assumption | apply valid_mirror; assumption].
  assert (K : forall i, grid_k s box i = k -> ps (k_used s box i) = ps (if is_zero k then least (filter (fun q => negb (is_zero q)) (map (grid_k s box) (indices s))) / 10 else k)) by (intros i Hi; unfold k_used; rewrite Hi; reflexivity).
  assert (M : grid_k s box (mirror s [x; y; z]) = k).
  { inversion V as [|? ? ? ? Hx V1]; subst. inversion V1 as [|? ? ? ? Hy V2]; subst. inversion V2 as [|? ? ? ? Hz V3]; subst.
    unfold s, box. cbn [mirror grid_k]. unfold get_kmag_3d, kmag, k, get_kmag_3d, kmag. rewrite !get_k_mirror by assumption. reflexivity. }
  rewrite (K [x; y; z] eq_refl), (K _ M). assert (Zk : is_zero k = true <-> k = 0) by (unfold is_zero; destruct (Req_EM_T k 0); split; intro; congruence).
  destruct (is_zero k); split; intro Hk; try (field; fail); exfalso; [apply Hk, Zk; reflexivity|apply Zk in Hk; discriminate].
Qed.
Print Assumptions C69_even_cube.
(** Odd sides: the mode in a cell gets the power asked for in the next cell along all axes, averaged with
    that of the opposite mode; so the field does not have the requested spectrum. *)
Theorem C69_odd : forall O (L : (O -> R) -> Prop) E g s box ps out,
  expectation L E -> unit_noise s L E g -> random_field s box ps g out -> (forall k, 0 <= ps k) -> (forall x, In x box -> 0 < x) ->
  (forall n, In n s -> Nat.even n = false) -> forall i, valid s i ->
  E (fun o => power_spectrum_nd s box (out o) i) = (ps (k_used s box (next s i)) + ps (k_used s box (next s (mirror s i)))) / 2.
Proof.
  intros O L E g s box ps out HE HG HF HP HB Od i Hi. rewrite (C69_expected_power O L E g s box ps out HE HG HF HP HB i Hi), !shift_twice_odd by first [assumption | apply valid_mirror; assumption]. reflexivity.
Qed.
Print Assumptions C69_odd.
Example C69_odd_sat : exists O (L : (O -> R) -> Prop) E g out, let s := [3%nat; 5%nat] in expectation L E /\ unit_noise s L E g /\ random_field s [1; 2] (fun k => k * k) g out /\ (forall k, 0 <= k * k) /\ (forall n, In n s -> Nat.even n = false).
Proof. exists sat_outcome, (fun _ => True), (sat_E [3%nat; 5%nat]), (sat_g [3%nat; 5%nat]). eexists (fun o => _). cbv zeta. destruct (sat_unit_noise [3%nat; 5%nat]) as [HE HG]. split; [exact HE|]. split; [exact HG|]. split; [intro o; reflexivity|]. split; [intro k; nra|]. intros n [<- |[<- |[]]]; reflexivity. Qed.
Theorem C69_odd_refuted : exists O (L : (O -> R) -> Prop) E g ps out i, let s := [3%nat; 3%nat; 3%nat] in let box := [2 * PI; 2 * PI; 2 * PI] in
  expectation L E /\ unit_noise s L E g /\ random_field s box ps g out /\ (forall k, 0 <= ps k) /\ valid s i /\
  grid_k s box i = 1 /\ ps 1 = 1 /\ E (fun o => power_spectrum_nd s box (out o) i) = 5 / 2.
Proof.
  set (s := [3%nat; 3%nat; 3%nat]). set (box := [2 * PI; 2 * PI; 2 * PI]). set (ps := fun k : R => k ^ 2).
  exists sat_outcome, (fun _ => True), (sat_E s), (sat_g s), ps.
  eexists (fun o => _). exists [2%nat; 1%nat; 1%nat]. cbv zeta.
  destruct (sat_unit_noise s) as [HE HG]. pose proof PI_RGT_0 as HPI.
  assert (HF : random_field s box ps (sat_g s) (fun o => match make_gaussian_random_field s box ps (sat_g s o) with Some f => f | None => fun _ => 0 end)) by (intro o; reflexivity).
  assert (HP : forall k, 0 <= ps k) by (intro; apply pow2_ge_0). assert (V : valid s [2%nat; 1%nat; 1%nat]) by (repeat constructor; lia).
  assert (KV : forall x y z, grid_k s box [x; y; z] = sqrt ((INR x - 1) ^ 2 + (INR y - 1) ^ 2 + (INR z - 1) ^ 2)).
  { intros x y z. unfold s, box, grid_k, get_kmag_3d, kmag, get_k_3d, k_component, center_3d. cbn [Nat.modulo Nat.divmod Nat.eqb fst snd Nat.sub]. replace (INR 3) with 3 by (cbn; ring). f_equal. field. lra. }
  split; [exact HE|]. split; [exact HG|]. split; [exact HF|]. split; [exact HP|]. split; [exact V|].
  split; [rewrite KV; cbn [INR]; replace ((1 + 1 - 1) ^ 2 + (1 - 1) ^ 2 + (1 - 1) ^ 2) with 1 by ring; apply sqrt_1|]. split; [unfold ps; ring|].
  etransitivity; [exact (C69_odd _ _ _ _ s box ps _ HE HG HF HP ltac:(intros q [<-|[<-|[<-|[]]]]; lra) ltac:(intros n [<-|[<-|[<-|[]]]]; reflexivity) _ V)|].
  replace (next s (mirror s [2%nat; 1%nat; 1%nat])) with [1%nat; 2%nat; 2%nat] by reflexivity. replace (next s [2%nat; 1%nat; 1%nat]) with [0%nat; 2%nat; 2%nat] by reflexivity.
  assert (U : forall x y z v, grid_k s box [x; y; z] = sqrt v -> 0 < v -> ps (k_used s box [x; y; z]) = v).
  { intros x y z v Hv Pv. unfold k_used. rewrite Hv. unfold is_zero. destruct (Req_EM_T (sqrt v) 0) as [Z|Z]; [pose proof (sqrt_lt_R0 v Pv); lra|]. unfold ps. rewrite <- Rsqr_pow2. apply Rsqr_sqrt. lra. }
  rewrite (U 0%nat 2%nat 2%nat 3), (U 1%nat 2%nat 2%nat 2); [field| | | |]; try lra; rewrite KV; f_equal; cbn [INR]; ring.
Qed.
Print Assumptions C69_odd_refuted.
(** Two dimensions, even sides: k is displaced by half a cell on both axes, so the mean power is an average
    over two different |k|, and no cell has k = 0. *)
Theorem C69_even_square : forall O (L : (O -> R) -> Prop) E g n1 n2 L1 L2 ps out,
  let s := [n1; n2] in let box := [L1; L2] in
  expectation L E -> unit_noise s L E g -> random_field s box ps g out -> (forall k, 0 <= ps k) -> 0 < L1 -> 0 < L2 ->
  Nat.even n1 = true -> Nat.even n2 = true -> forall x y, valid s [x; y] ->
  let kk := fun f1 f2 : R => 2 * PI * sqrt ((f1 / L1) ^ 2 + (f2 / L2) ^ 2) in
  let f1 := INR x - INR n1 / 2 in let f2 := INR y - INR n2 / 2 in
  let opp := fun n f : R => if Req_EM_T f (- (n / 2)) then f else - f in
  E (fun o => power_spectrum_nd s box (out o) [x; y]) = (ps (kk (f1 + / 2) (f2 + / 2)) + ps (kk (opp (INR n1) f1 + / 2) (opp (INR n2) f2 + / 2))) / 2.
Proof.
  intros O L E g n1 n2 L1 L2 ps out s box HE HG HF HP P1 P2 E1 E2 x y V kk f1 f2 opp.
  rewrite (C69_expected_power O L E g s box ps out HE HG HF HP ltac:(intros q [<-|[<-|[]]]; assumption) _ V).
  rewrite !shift_twice_even by (try (apply valid_mirror); try assumption; intros n [<-|[<-|[]]]; assumption).
  inversion V as [|? ? ? ? Hx V1]; subst. inversion V1 as [|? ? ? ? Hy V2]; subst. pose proof PI_RGT_0 as HPI.
  assert (GK : forall n Ln a, (a < n)%nat -> get_k_1d n Ln a = 2 * PI * (INR a - INR n / 2 + / 2) / Ln) by (intros n Ln a Ha; unfold get_k_1d, k_component, center_half; rewrite minus_INR by lia; change (INR 1) with 1; unfold Rdiv; f_equal; lra).
  assert (KK : forall a b, (a < n1)%nat -> (b < n2)%nat -> k_used s box [a; b] = kk (INR a - INR n1 / 2 + / 2) (INR b - INR n2 / 2 + / 2)).
  { intros a b Ha Hb. assert (G : grid_k s box [a; b] = kk (INR a - INR n1 / 2 + / 2) (INR b - INR n2 / 2 + / 2)).
    { unfold s, box, grid_k, kk. rewrite !GK by assumption. set (u := INR a - INR n1 / 2 + / 2). set (v := INR b - INR n2 / 2 + / 2).
      replace ((2 * PI * u / L1) ^ 2 + (2 * PI * v / L2) ^ 2) with ((2 * PI) ^ 2 * ((u / L1) ^ 2 + (v / L2) ^ 2)) by (field; lra).
      rewrite sqrt_mult; [|apply pow2_ge_0|pose proof (pow2_ge_0 (u / L1)); pose proof (pow2_ge_0 (v / L2)); lra]. f_equal. rewrite <- Rsqr_pow2. apply sqrt_Rsqr. lra. }
    unfold k_used. rewrite G. unfold is_zero. destruct (Req_EM_T (kk _ _) 0) as [Z|Z]; [exfalso|reflexivity].
    unfold kk in Z. apply Rmult_integral in Z. destruct Z as [Z|Z]; [lra|]. apply Nat.even_spec in E1. destruct E1 as [m1 M1].
    assert (NZ : INR a - INR n1 / 2 + / 2 <> 0). { rewrite M1, mult_INR. change (INR 2) with 2. intro Q. assert (Q2 : 2 * INR a + 1 = 2 * INR m1) by lra. rewrite !INR_IZR_INZ in Q2. rewrite <- !mult_IZR, <- plus_IZR in Q2. apply eq_IZR in Q2. lia. }
    set (u := INR a - INR n1 / 2 + / 2) in *. set (v := INR b - INR n2 / 2 + / 2) in *. apply sqrt_eq_0 in Z; [|pose proof (pow2_ge_0 (u / L1)); pose proof (pow2_ge_0 (v / L2)); lra].
    assert (0 < (u / L1) ^ 2). { rewrite <- Rsqr_pow2. apply Rsqr_pos_lt. unfold Rdiv. apply Rmult_integral_contrapositive. split; [exact NZ|apply Rinv_neq_0_compat; lra]. } pose proof (pow2_ge_0 (v / L2)). lra. }
  assert (MI : forall n a, Nat.even n = true -> (a < n)%nat -> INR ((n / 2 + n / 2 + (n - a)) mod n) - INR n / 2 = opp (INR n) (INR a - INR n / 2)).
  { intros n a Ev Ha. apply Nat.even_spec in Ev. destruct Ev as [m ->]. rewrite (Nat.mul_comm 2 m), Nat.div_mul by lia. unfold opp. destruct (Req_EM_T _ _) as [Z|Z].
    - assert (a = 0%nat) as -> by (apply INR_eq; cbn; lra). replace (m + m + (m * 2 - 0))%nat with (0 + 2 * (m * 2))%nat by lia. rewrite Nat.mod_add, Nat.mod_small by lia. reflexivity.
    - assert (a <> 0)%nat by (intro Q; apply Z; rewrite Q; cbn [INR]; lra). replace (m + m + (m * 2 - a))%nat with (m * 2 - a + 1 * (m * 2))%nat by lia. rewrite Nat.mod_add, Nat.mod_small by lia. rewrite minus_INR by lia. lra. }
  change (mirror s [x; y]) with [((n1 / 2 + n1 / 2 + (n1 - x)) mod n1)%nat; ((n2 / 2 + n2 / 2 + (n2 - y)) mod n2)%nat].
  rewrite (KK x y Hx Hy), (KK ((n1 / 2 + n1 / 2 + (n1 - x)) mod n1)%nat ((n2 / 2 + n2 / 2 + (n2 - y)) mod n2)%nat) by (apply Nat.mod_upper_bound; lia).
  rewrite (MI n1 x E1 Hx), (MI n2 y E2 Hy). reflexivity.
Qed.
Print Assumptions C69_even_square.
(** Linear in the draws. *)
Theorem C69_linear : forall s box ps g h c og oh oc,
  make_gaussian_random_field s box ps g = Some og -> make_gaussian_random_field s box ps h = Some oh ->
  make_gaussian_random_field s box ps (fun j => c * fst g j + fst h j, fun j => c * snd g j + snd h j) = Some oc ->
  forall a, oc a = c * og a + oh a.
Proof.
  intros s box ps g h c og oh oc. unfold make_gaussian_random_field. destruct (_ && _)%bool; [|discriminate]. intros H1 H2 H3 a. injection H1 as <-. injection H2 as <-. injection H3 as <-.
  unfold ifft_re, Rdiv. cbn [fst snd]. rewrite <- Rmult_assoc, <- Rmult_plus_distr_r. f_equal. rewrite <- rsum_scale, <- rsum_plus. apply rsum_ext. intros. ring.
Qed.
Print Assumptions C69_linear.
Example C69_linear_sat : exists s box ps g h c og oh oc, make_gaussian_random_field s box ps g = Some og /\ make_gaussian_random_field s box ps h = Some oh /\ make_gaussian_random_field s box ps (fun j => c * fst g j + fst h j, fun j => c * snd g j + snd h j) = Some oc.
Proof. exists [3%nat; 4%nat], [1; 2], (fun k => k * k), (fun _ => 1, fun _ => 2), (fun _ => 1, fun _ => 0), 3. do 3 eexists. repeat split; reflexivity. Qed.
Example C69_sat : exists O (L : (O -> R) -> Prop) E g out, let s := [2%nat; 4%nat; 2%nat] in
  expectation L E /\ unit_noise s L E g /\ random_field s [1; 2; 1] (fun k => k) g out /\ valid s [1%nat; 3%nat; 0%nat].
Proof.
  exists sat_outcome, (fun _ => True), (sat_E [2%nat; 4%nat; 2%nat]), (sat_g [2%nat; 4%nat; 2%nat]). eexists (fun o => _). cbv zeta.
  destruct (sat_unit_noise [2%nat; 4%nat; 2%nat]) as [HE HG]. split; [exact HE|]. split; [exact HG|]. split; [intro o; reflexivity|]. repeat constructor; lia.
Qed.
