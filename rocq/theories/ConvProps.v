From Coq Require Import List Arith ZArith Reals Lra Lia Bool.
From Verif Require Import RLib KGridModel FourierModel FourierSpec FourierProofs ConvModel ConvSpec ConvProofs.
Import ListNotations.
Local Open Scope R_scope.

Definition positive (s : list nat) := Forall (fun n => (0 < n)%nat) s.
Definition fits (s1 s2 : list nat) := Forall2 (fun n k => (k <= n)%nat) s1 s2.
Definition half_up (s2 : list nat) : list Z := map (fun k => ((Z.of_nat k + 1) / 2)%Z) s2.
Definition half_down (s2 : list nat) : list Z := map (fun k => (Z.of_nat k / 2)%Z) s2.

Lemma roll_periodic : forall s2 f i z, length f = length s2 -> length i = length s2 ->
  roll f (map (fun n => (- Z.of_nat n / 2)%Z) s2) z i = z (periodic f (displaced i (half_up s2) (map (fun _ => 0%nat) s2))).
Proof.
  intros s2 f i z L1 L2. unfold roll. f_equal. revert f i L1 L2. induction s2 as [|k s2 IH]; intros [|n f] [|a i] L1 L2; try discriminate; [reflexivity|].
  unfold half_up. cbn [map combine zmap2 displaced periodic fst snd]. f_equal; [|apply IH; cbn in *; lia].
  f_equal. f_equal. assert ((- Z.of_nat k / 2 = - ((Z.of_nat k + 1) / 2))%Z) as ->; [|lia].
  clear. Z.div_mod_to_equations. lia.
Qed.
Lemma periodic_displaced : forall f i c b, positive f -> length i = length f -> length c = length f -> length b = length f ->
  periodic f (displaced (periodic f (displaced i c (map (fun _ => 0%nat) c))) (map (fun _ => 0%Z) f) b) = periodic f (displaced i c b).
Proof.
  induction f as [|n f IH]; intros [|a i] [|y c] [|z b] P L1 L2 L3; try discriminate; [reflexivity|]. inversion P; subst.
  cbn [map displaced periodic]. f_equal; [|apply IH; cbn in *; try lia; assumption].
  f_equal. rewrite Z2Nat.id by (apply Z.mod_pos_bound; lia). rewrite Z.add_0_r, Zminus_mod_idemp_l. f_equal. lia.
Qed.
Lemma max_fits : forall s1 s2, fits s1 s2 -> map2 Nat.max s1 s2 = s1.
Proof. induction 1; cbn; [reflexivity|]. rewrite IHForall2. f_equal. lia. Qed.
Lemma fits_length : forall s1 s2, fits s1 s2 -> length s1 = length s2.
Proof. induction 1; cbn; lia. Qed.
Lemma map2_length : forall g a b, length a = length b -> length (map2 g a b) = length a.
Proof. induction a; intros [|y b] L; try discriminate; [reflexivity|]. cbn in *. rewrite IHa; lia. Qed.
Lemma map2_zeros : forall (s t : list nat), length s = length t -> map (fun _ => 0%nat) s = map (fun _ => 0%nat) t.
Proof. induction s; intros [|y t] L; try discriminate; [reflexivity|]. cbn in *. f_equal. apply IHs. lia. Qed.
Lemma inside_of_nat : forall s p, length p = length s -> inside s p = inside_z s (map Z.of_nat p).
Proof.
  induction s as [|n s IH]; intros [|k p] L; try discriminate; [reflexivity|]. unfold inside_z in *. cbn [inside map combine forallb fst snd].
  rewrite IH by (cbn in L; lia). f_equal. destruct (Nat.ltb_spec k n); destruct (Z.leb_spec 0 (Z.of_nat k)); destruct (Z.ltb_spec (Z.of_nat k) (Z.of_nat n)); try reflexivity; lia.
Qed.
Lemma to_of : forall p, map Z.to_nat (map Z.of_nat p) = p.
Proof. induction p; cbn; [reflexivity|]. rewrite Nat2Z.id, IHp. reflexivity. Qed.
Lemma zero_pad_outside : forall s x p, length p = length s -> zero_pad s x p = zero_outside s x (map Z.of_nat p).
Proof. intros s x p L. unfold zero_pad, zero_outside. rewrite to_of, inside_of_nat by exact L. reflexivity. Qed.
Lemma max_pos : forall s1 s2, length s1 = length s2 -> positive s2 -> positive (map2 Nat.max s1 s2).
Proof. induction s1; intros [|k s2] L P; try discriminate; [constructor|]. inversion P; subst. cbn. constructor; [lia|]. apply IHs1; [cbn in L; lia|assumption]. Qed.
Lemma max_ge : forall s1 s2, length s1 = length s2 -> Forall2 (fun a b => (b <= a)%nat) (map2 Nat.max s1 s2) s2.
Proof. induction s1; intros [|k s2] L; try discriminate; [constructor|]. cbn. constructor; [lia|]. apply IHs1. cbn in L; lia. Qed.
Lemma periodic_length : forall f p, length p = length f -> length (periodic f p) = length f.
Proof. induction f; intros [|k p] L; try discriminate; [reflexivity|]. cbn in *. rewrite IHf; lia. Qed.

(** * Circular boundary, any sizes *)
Theorem C40_circular_any : forall s1 s2 x y m, length s1 = length s2 -> positive s2 -> m <> Valid ->
  let f := map2 Nat.max s1 s2 in
  exists out, fftconvolve s1 s2 x y m Circular = Some (f, out) /\
  forall i, valid f i ->
  out i = convolution s2 (fun p => zero_outside s1 x (map Z.of_nat (periodic f p))) y (half_up s2) i.
Proof.
  intros s1 s2 x y m L P M f. unfold fftconvolve.
  exists (roll f (map (fun n => (- Z.of_nat n / 2)%Z) s2) (ifft_of_product f (zero_pad s1 x) (zero_pad s2 y))).
  split; [destruct m; try reflexivity; contradiction|]. intros i Hi.
  assert (Lf : length f = length s2) by (unfold f; rewrite map2_length; lia). pose proof (valid_length _ _ Hi) as Li.
  assert (Pf : positive f) by (apply max_pos; assumption).
  rewrite roll_periodic by lia. rewrite conv_circ.
  2:{ apply periodic_valid; [|exact Pf]. rewrite displaced_length; unfold half_up; rewrite ?map_length; lia. }
  rewrite zero_pad_sum by (apply max_ge; exact L). unfold convolution. apply rsum_ext. intros b Hb. apply indices_valid in Hb. pose proof (valid_length _ _ Hb).
  f_equal. replace (map (fun _ : nat => 0%nat) s2) with (map (fun _ : Z => 0%nat) (half_up s2)) by (unfold half_up; rewrite map_map; reflexivity).
  rewrite periodic_displaced by (try exact Pf; unfold half_up; rewrite ?map_length; lia).
  apply zero_pad_outside. rewrite periodic_length; [lia|]. rewrite displaced_length; unfold half_up; rewrite ?map_length; lia.
Qed.
Print Assumptions C40_circular_any.
Example C40_circular_any_sat : exists (s1 : list nat) (s2 : list nat) (m : mode), length s1 = length s2 /\ positive s2 /\ m <> Valid.
Proof. exists [4; 5]%nat, [3; 2]%nat, Same. repeat split; try discriminate; repeat constructor; lia. Qed.

Lemma inside_z_valid : forall s p, valid s p -> inside_z s (map Z.of_nat p) = true.
Proof. intros s p V. rewrite <- inside_of_nat by (apply valid_length; exact V). apply inside_ok. exact V. Qed.

(** * Circular boundary, kernel not larger than the image: the periodic convolution whose
    kernel centre is ceil(size/2). *)
Theorem C40_circular : forall s1 s2 x y m, fits s1 s2 -> positive s2 -> m <> Valid ->
  exists out, fftconvolve s1 s2 x y m Circular = Some (s1, out) /\
  forall i, valid s1 i -> out i = convolution s2 (fun p => x (periodic s1 p)) y (half_up s2) i.
Proof.
  intros s1 s2 x y m F P M. pose proof (fits_length _ _ F) as L. destruct (C40_circular_any s1 s2 x y m L P M) as [out [E O]].
  rewrite (max_fits s1 s2 F) in E, O. exists out. split; [exact E|]. intros i Hi. rewrite (O i Hi). unfold convolution. apply rsum_ext. intros b Hb.
  apply indices_valid in Hb. pose proof (valid_length _ _ Hi). pose proof (valid_length _ _ Hb). f_equal. unfold zero_outside. rewrite to_of, inside_z_valid; [reflexivity|].
  apply periodic_valid; [|apply (valid_pos _ _ Hi)]. rewrite displaced_length; unfold half_up; rewrite ?map_length; lia.
Qed.
Print Assumptions C40_circular.

(** * Zero boundary *)
Lemma crop_valid : forall s1 s2 st size i, length s1 = length s2 ->
  Forall2 (fun q r => (snd q + fst r <= fst q + snd r - 1 /\ 0 < snd r)%nat) (combine s1 size) (combine st s2) ->
  length size = length s1 -> length st = length s1 -> valid size i -> valid (map2 (fun a b => (a + b - 1)%nat) s1 s2) (map2 Nat.add i st).
Proof.
  induction s1 as [|n s1 IH]; intros [|k s2] [|t st] [|z size] i L H L1 L2 V; try discriminate; inversion V; subst; [constructor|].
  cbn [combine] in H. inversion H; subst. cbn [fst snd] in *. cbn [map2]. constructor; [lia|]. apply (IH s2 st size); cbn in *; try lia; assumption.
Qed.
Lemma displaced_crop : forall i st b, length st = length i -> length b = length i ->
  displaced (map2 Nat.add i st) (map (fun _ => 0%Z) st) b = displaced i (map Z.of_nat st) b.
Proof. induction i as [|a i IH]; intros [|t st] [|z b] L1 L2; try discriminate; [reflexivity|]. cbn [map2 map displaced]. f_equal; [lia|]. apply IH; cbn in *; lia. Qed.
Lemma const_map : forall {A B C} (c : C) (a : list A) (b : list B), length a = length b -> map (fun _ => c) a = map (fun _ => c) b.
Proof. induction a; intros [|y b] L; try discriminate; [reflexivity|]. cbn in *. f_equal. apply IHa. lia. Qed.

Definition zero_centre (m : mode) (s2 : list nat) : list Z :=
  match m with Full => map (fun _ => 0%Z) s2 | Same => half_down s2 | Valid => map (fun k => (Z.of_nat k - 1)%Z) s2 end.
Definition out_shape (m : mode) (s1 s2 : list nat) : list nat :=
  match m with Full => map2 (fun a b => (a + b - 1)%nat) s1 s2 | Same => s1 | Valid => map2 (fun a b => (a - b + 1)%nat) s1 s2 end.

Lemma any_smaller_fits : forall s1 s2, length s1 = length s2 -> (any_smaller s1 s2 = false <-> fits s1 s2).
Proof.
  induction s1 as [|n s1 IH]; intros [|k s2] L; try discriminate; [split; [constructor|reflexivity]|]. unfold any_smaller in *. cbn [combine existsb fst snd].
  rewrite orb_false_iff, IH, Nat.ltb_ge by (cbn in L; lia). split; [intros [A B]; constructor; assumption|intro H; inversion H; auto].
Qed.

Theorem C40_constant : forall s1 s2 x y m, length s1 = length s2 -> positive s1 -> positive s2 -> (m = Valid -> fits s1 s2) ->
  exists out, fftconvolve s1 s2 x y m Constant = Some (out_shape m s1 s2, out) /\
  forall i, valid (out_shape m s1 s2) i -> out i = convolution s2 (zero_outside s1 x) y (zero_centre m s2) i.
Proof.
  intros s1 s2 x y m L P1 P2 HV. unfold fftconvolve.
  set (f := map2 (fun a b => (a + b - 1)%nat) s1 s2).
  set (st := match m with Full => map (fun _ => 0%nat) s1 | Same => map (fun n => (n / 2)%nat) s2 | Valid => map (fun n => (n - 1)%nat) s2 end).
  exists (crop st (ifft_of_product f (zero_pad s1 x) (zero_pad s2 y))). split.
  - destruct m; try reflexivity. assert (any_smaller s1 s2 = false) as -> by (apply any_smaller_fits; auto). reflexivity.
  - intros i Hi. unfold crop. pose proof (valid_length _ _ Hi) as Li.
    assert (Ls : length (out_shape m s1 s2) = length s1) by (destruct m; cbn; rewrite ?map2_length; lia).
    assert (Lt : length st = length s1) by (unfold st; destruct m; rewrite map_length; lia).
    unfold f. rewrite linear_conv; [|exact L|exact P2|exact P1|].
    + unfold convolution. apply rsum_ext. intros b Hb. apply indices_valid in Hb. pose proof (valid_length _ _ Hb). f_equal. f_equal.
      rewrite (const_map 0%Z s2 st) by lia. rewrite displaced_crop by lia. f_equal.
      unfold st, zero_centre, half_down. destruct m; rewrite map_map.
      * apply map_ext. intro a. rewrite Nat2Z.inj_div. reflexivity.
      * apply const_map. exact L.
      * clear -P2. induction P2; cbn [map]; [reflexivity|]. rewrite IHP2. f_equal. lia.
    + fold f. apply (crop_valid s1 s2 st (out_shape m s1 s2)); try assumption; try lia.
      assert (HF : m = Valid -> fits s1 s2) by exact HV. clear -L P1 P2 HF. unfold st. clear st. revert s2 L P2 HF. induction s1 as [|n s1 IH]; intros [|k s2] L P2 HF; try discriminate; [destruct m; constructor|].
      inversion P1; inversion P2; subst.
      assert (HF' : m = Valid -> fits s1 s2) by (intro E; specialize (HF E); inversion HF; subst; assumption).
      assert (HK : m = Valid -> (k <= n)%nat) by (intro E; specialize (HF E); inversion HF; subst; assumption).
      specialize (IH ltac:(assumption) s2 ltac:(cbn in L; lia) ltac:(assumption) HF').
      destruct m; cbn [map map2 out_shape combine] in *; constructor; cbn [fst snd]; try exact IH; try (pose proof (Nat.div_lt k 2 ltac:(lia) ltac:(lia)); lia).
Qed.
Print Assumptions C40_constant.
Example C40_constant_sat : exists (s1 : list nat) (s2 : list nat) (m : mode), length s1 = length s2 /\ positive s1 /\ positive s2 /\ (m = Valid -> fits s1 s2).
Proof. exists [4; 5]%nat, [3; 2]%nat, Valid. split; [reflexivity|]. split; [repeat constructor; lia|]. split; [repeat constructor; lia|]. intros _. repeat constructor; lia. Qed.

(** * The other boundaries: convolution with the continued image *)
Definition continued (b : boundary) (s1 : list nat) (x : array) (p : list Z) : R := x (zmap2 (pad_source b) p s1).
Definition padded_centre (m : mode) (s2 : list nat) : list Z :=
  match m with Full => map (fun _ => 0%Z) s2 | _ => map (fun k => (Z.of_nat k - 1 - Z.of_nat k / 2)%Z) s2 end.
Lemma add_pos : forall a b, length a = length b -> positive a -> positive (map2 Nat.add a b).
Proof. induction a; intros [|y b] L P; try discriminate; [constructor|]. inversion P; subst. cbn. constructor; [lia|]. apply IHa; [cbn in L; lia|assumption]. Qed.

Theorem C40_padded : forall s1 s2 x y m b, length s1 = length s2 -> positive s1 -> positive s2 -> m <> Valid -> b <> Circular -> b <> Constant ->
  exists out, fftconvolve s1 s2 x y m b = Some (out_shape m s1 s2, out) /\
  forall i, valid (out_shape m s1 s2) i -> out i = convolution s2 (continued b s1 x) y (padded_centre m s2) i.
Proof.
  intros s1 s2 x y m b L P1 P2 HV HC HK.
  set (before := match m with Full => map (fun n => (n - 1)%nat) s2 | _ => map (fun n => (n / 2)%nat) s2 end).
  set (after := match m with Full => map (fun n => (n - 1)%nat) s2 | _ => map (fun n => (n - 1 - n / 2)%nat) s2 end).
  set (sp := map2 Nat.add (map2 Nat.add s1 before) after).
  set (f := map2 (fun a b => (a + b - 1)%nat) sp s2).
  exists (crop (map (fun n => (n - 1)%nat) s2) (ifft_of_product f (zero_pad sp (pad b s1 before x)) (zero_pad s2 y))).
  split; [destruct m; destruct b; try contradiction; reflexivity|].
  intros i Hi. pose proof (valid_length _ _ Hi) as Li.
  assert (Ls : length (out_shape m s1 s2) = length s1) by (destruct m; cbn; rewrite ?map2_length; lia).
  assert (Lb : length before = length s1) by (unfold before; destruct m; rewrite map_length; lia).
  assert (La : length after = length s1) by (unfold after; destruct m; rewrite map_length; lia).
  assert (Lp : length sp = length s2) by (unfold sp; rewrite !map2_length; rewrite ?map2_length; lia).
  unfold crop, f. rewrite linear_conv; [|exact Lp|exact P2| |].
  - unfold convolution. apply rsum_ext. intros c Hc. apply indices_valid in Hc. pose proof (valid_length _ _ Hc) as Lc. f_equal.
    rewrite (const_map 0%Z s2 (map (fun n => (n - 1)%nat) s2)) by (rewrite map_length; lia). rewrite displaced_crop by (rewrite ?map_length; lia). rewrite map_map.
    unfold zero_outside, continued, pad.
    assert (G : inside_z sp (displaced i (map (fun k => Z.of_nat (k - 1)) s2) c) = true /\
      map (fun q => (Z.of_nat (fst q) - Z.of_nat (snd q))%Z) (combine (map Z.to_nat (displaced i (map (fun k => Z.of_nat (k - 1)) s2) c)) before) = displaced i (padded_centre m s2) c).
    { clear f Lp. unfold sp, before, after. clear Lb La sp before after. revert s2 i c L P2 Hi Hc Ls Li Lc.
      induction s1 as [|n s1 IH]; intros [|k s2] i c L P2 Hi Hc Ls Li Lc; try discriminate.
      - destruct i; [|destruct m; discriminate]. destruct m; split; reflexivity.
      - destruct i as [|i0 i]; [destruct m; discriminate|]. inversion Hc as [|? c0 ? c' Hc0 Hc']; subst. inversion P1; inversion P2; subst.
        assert (Hi' : valid (out_shape m s1 s2) i) by (destruct m; cbn [out_shape map2] in Hi; inversion Hi; subst; assumption).
        assert (Hi0 : (i0 < match m with Full => n + k - 1 | _ => n end)%nat) by (destruct m; cbn [out_shape map2] in Hi; inversion Hi; subst; try assumption; contradiction).
        destruct (IH ltac:(assumption) s2 i c' ltac:(cbn in L; lia) ltac:(assumption) Hi' Hc' ltac:(destruct m; cbn in *; lia) ltac:(destruct m; cbn in *; lia) ltac:(cbn in *; lia)) as [G1 G2].
        assert (Hh : (k / 2 <= k - 1)%nat) by (destruct k as [|[|k]]; [lia|cbn; lia|]; pose proof (Nat.div_lt (S (S k)) 2 ltac:(lia) ltac:(lia)); lia).
        pose proof (Nat2Z.inj_div k 2) as Hd. change (Z.of_nat 2) with 2%Z in Hd.
        destruct m; try contradiction; cbn [map map2 padded_centre out_shape displaced combine fst snd] in *; unfold inside_z in *; cbn [combine forallb fst snd map]; rewrite G1, G2; split.
        + rewrite andb_true_r. apply andb_true_iff. split; [apply Z.leb_le; lia|apply Z.ltb_lt; lia].
        + f_equal. rewrite Z2Nat.id by lia. rewrite Hd. lia.
        + rewrite andb_true_r. apply andb_true_iff. split; [apply Z.leb_le; lia|apply Z.ltb_lt; lia].
        + f_equal. rewrite Z2Nat.id by lia. lia. }
    destruct G as [G1 G2]. rewrite G1, G2. reflexivity.
  - unfold sp. apply add_pos; [rewrite map2_length; lia|]. apply add_pos; [lia|exact P1].
  - fold f. apply (crop_valid sp s2 _ (out_shape m s1 s2)); try assumption; try (rewrite ?map_length; lia).
    clear -L P1 P2 HV. unfold sp, before, after. clear sp before after. revert s2 L P2. induction s1 as [|n s1 IH]; intros [|k s2] L P2; try discriminate; [destruct m; constructor|].
    inversion P1; inversion P2; subst. specialize (IH ltac:(assumption) s2 ltac:(cbn in L; lia) ltac:(assumption)).
    assert (Hh : (k / 2 <= k - 1)%nat) by (destruct k as [|[|k]]; [lia|cbn; lia|]; pose proof (Nat.div_lt (S (S k)) 2 ltac:(lia) ltac:(lia)); lia).
    destruct m; try contradiction; cbn [map map2 out_shape combine] in *; constructor; cbn [fst snd]; try exact IH; lia.
Qed.
Print Assumptions C40_padded.
Example C40_padded_sat : exists s1 s2 (m : mode) (b : boundary), length s1 = length s2 /\ positive s1 /\ positive s2 /\ m <> Valid /\ b <> Circular /\ b <> Constant.
Proof. exists [4; 5]%nat, [3; 2]%nat, Full, Wrap. split; [reflexivity|]. split; [repeat constructor; lia|]. split; [repeat constructor; lia|]. repeat split; discriminate. Qed.

(** * When it raises *)
Theorem C40_raises : forall s1 s2 x y m b, length s1 = length s2 ->
  (fftconvolve s1 s2 x y m b = None <-> m = Valid /\ exists d, (d < length s1)%nat /\ (nth d s1 0 < nth d s2 0)%nat).
Proof.
  intros s1 s2 x y m b L.
  assert (G : any_smaller s1 s2 = true <-> exists d, (d < length s1)%nat /\ (nth d s1 0 < nth d s2 0)%nat).
  { unfold any_smaller. rewrite existsb_exists. split.
    - intros [[u v] [I T]]. apply (In_nth _ _ (0%nat, 0%nat)) in I. destruct I as [d [D E]]. rewrite combine_length, <- L, Nat.min_id in D. rewrite combine_nth in E by exact L.
      injection E as <- <-. apply Nat.ltb_lt in T. exists d. auto.
    - intros [d [D T]]. exists (nth d s1 0%nat, nth d s2 0%nat). split; [|apply Nat.ltb_lt; exact T]. rewrite <- combine_nth by exact L. apply nth_In. rewrite combine_length. lia. }
  rewrite <- G. unfold fftconvolve. destruct m; [destruct b; split; intro H; try discriminate; destruct H; discriminate..|].
  destruct (any_smaller s1 s2); split; try tauto; try discriminate. intros [_ F]; discriminate.
Qed.
Example C40_raises_sat : exists (s1 : list nat) (s2 : list nat), length s1 = length s2.
Proof. exists [4; 5]%nat, [2; 3]%nat. repeat split; first [lra | lia | reflexivity | discriminate | congruence | auto]. Qed.

(** * The kernel that should do nothing: a unit impulse at its centre size//2 *)
Definition impulse (c : list nat) : array := fun b => if list_eqb c b then 1 else 0.
Lemma convolution_impulse : forall s2 A c q i, valid s2 q -> convolution s2 A (impulse q) c i = A (displaced i c q).
Proof.
  intros s2 A c q i V. unfold convolution, impulse. rewrite (rsum_ext _ (fun b => if list_eqb q b then A (displaced i c b) else 0)).
  - apply (rsum_delta list_eqb (fun b => A (displaced i c b))); [apply list_eqb_spec|apply indices_NoDup|apply indices_valid; exact V].
  - intros b _. destruct (list_eqb q b); ring.
Qed.
Definition centre (s2 : list nat) : list nat := map (fun k => (k / 2)%nat) s2.
Lemma centre_valid : forall s2, positive s2 -> valid s2 (centre s2).
Proof. induction 1; cbn [centre map]; constructor; [|assumption]. destruct x as [|[|x]]; [lia|cbn; lia|]. apply Nat.div_lt; lia. Qed.
Lemma displaced_cell : forall i (s2 : list nat), length i = length s2 -> displaced i (map (fun _ => 0%Z) s2) (map (fun _ => 0%nat) s2) = map Z.of_nat i.
Proof. induction i as [|a i IH]; intros [|k s2] L; try discriminate; [reflexivity|]. cbn [map displaced]. f_equal; [lia|]. apply IH. cbn in L; lia. Qed.
Lemma periodic_cell : forall s i, valid s i -> periodic s (map Z.of_nat i) = i.
Proof. induction 1; cbn [map periodic]; [reflexivity|]. rewrite IHForall2. f_equal. rewrite Z.mod_small by lia. apply Nat2Z.id. Qed.

(** Odd axes shift the image by one cell, even axes do not. *)
Theorem C40_circular_impulse : forall s1 s2 x m, fits s1 s2 -> positive s2 -> m <> Valid ->
  exists out, fftconvolve s1 s2 x (impulse (centre s2)) m Circular = Some (s1, out) /\
  forall i, valid s1 i -> out i = x (wrap_add s1 i (map (fun k => k mod 2)%nat s2)).
Proof.
  intros s1 s2 x m F P M. destruct (C40_circular s1 s2 x (impulse (centre s2)) m F P M) as [out [E O]]. exists out. split; [exact E|]. intros i Hi.
  rewrite (O i Hi). rewrite convolution_impulse by (apply centre_valid; exact P). f_equal.
  clear -F Hi P. revert i Hi. induction F as [|n k s1 s2 K F IH]; intros i Hi; inversion Hi as [|? i0 ? i' Hi0 Hi']; subst; [reflexivity|]. inversion P; subst.
  unfold half_up, centre in *. cbn [map displaced periodic wrap_add]. rewrite IH by assumption. f_equal.
  apply Nat2Z.inj. rewrite Z2Nat.id by (apply Z.mod_pos_bound; lia). rewrite Nat2Z.inj_mod, Nat2Z.inj_add, Nat2Z.inj_mod, Nat2Z.inj_div.
  f_equal. change (Z.of_nat 2) with 2%Z. Z.div_mod_to_equations. lia.
Qed.
Print Assumptions C40_circular_impulse.
Example C40_circular_impulse_sat : exists (s1 : list nat) (s2 : list nat) (m : mode), fits s1 s2 /\ positive s2 /\ m <> Valid.
Proof. exists [4; 5]%nat, [3; 2]%nat, Same. split; [repeat constructor; lia|]. split; [repeat constructor; lia|discriminate]. Qed.

Theorem C40_circular_identity_iff : forall s1 s2 m, fits s1 s2 -> positive s2 -> m <> Valid ->
  ((forall x, exists out, fftconvolve s1 s2 x (impulse (centre s2)) m Circular = Some (s1, out) /\ forall i, valid s1 i -> out i = x i)
   <-> Forall2 (fun n k => Nat.even k = true \/ n = 1%nat) s1 s2).
Proof.
  intros s1 s2 m F P M. split.
  - intro H. set (o := map (fun _ => 0%nat) s1).
    assert (V : valid s1 o) by (unfold o; clear -F P; induction F; inversion P; subst; cbn; constructor; [lia|apply IHF; assumption]).
    destruct (H (impulse o)) as [out [E O]]. destruct (C40_circular_impulse s1 s2 (impulse o) m F P M) as [out' [E' O']]. rewrite E' in E. injection E as E.
    specialize (O o V). specialize (O' o V). rewrite E, O in O'. unfold impulse in O'. replace (list_eqb o o) with true in O' by (symmetry; apply list_eqb_spec; reflexivity).
    destruct (list_eqb o (wrap_add s1 o (map (fun k => (k mod 2)%nat) s2))) eqn:T; [|lra]. apply list_eqb_spec in T. clear -T F P. unfold o in *. clear o. remember (fun k => (k mod 2)%nat) as par eqn:Hpar.
    induction F as [|n k s1 s2 K F IH]; [constructor|]. inversion_clear P. cbn [map wrap_add] in T. injection T as T1 T2. constructor; [|apply IH; assumption].
    destruct (Nat.even k) eqn:Ek; [left; reflexivity|right]. assert (par k = 1)%nat as Hk.
    { rewrite Hpar. assert (Od : Nat.odd k = true) by (unfold Nat.odd; rewrite Ek; reflexivity). apply Nat.odd_spec in Od. destruct Od as [q Q]. rewrite Q, Nat.add_comm, Nat.mul_comm, Nat.mod_add by lia. reflexivity. }
    rewrite Hk in T1. destruct n as [|[|n]]; [lia|reflexivity|]. rewrite Nat.mod_small in T1 by lia. lia.
  - intros H x. destruct (C40_circular_impulse s1 s2 x m F P M) as [out [E O]]. exists out. split; [exact E|]. intros i Hi. rewrite (O i Hi). f_equal.
    clear -H Hi. revert i Hi. induction H as [|n k s1 s2 K H IH]; intros i Hi; inversion Hi as [|? i0 ? i' Hi0 Hi']; subst; [reflexivity|]. cbn [map wrap_add]. rewrite IH by assumption. f_equal.
    destruct K as [K|K].
    + apply Nat.even_spec in K. destruct K as [q Q]. subst k. rewrite (Nat.mul_comm 2 q), Nat.mod_mul by lia. rewrite Nat.add_0_r. apply Nat.mod_small. exact Hi0.
    + subst n. rewrite Nat.mod_1_r. lia.
Qed.
Example C40_circular_identity_iff_sat : exists (s1 : list nat) (s2 : list nat) (m : mode), fits s1 s2 /\ positive s2 /\ m <> Valid.
Proof. exists [4; 5]%nat, [2; 3]%nat, Same. repeat split; try (repeat constructor; lia). discriminate. Qed.
Example C40_circular_identity_sat : fits [4;4]%nat [3;2]%nat /\ positive [3;2]%nat /\ ~ Forall2 (fun n k => Nat.even k = true \/ n = 1%nat) [4;4]%nat [3;2]%nat.
Proof. split; [|split]; repeat constructor; intro H; inversion H as [|? ? ? ? A]; subst; cbn in A; destruct A; discriminate. Qed.

(** The zero boundary is centred for every kernel. *)
Theorem C40_constant_impulse : forall s1 s2 x, length s1 = length s2 -> positive s1 -> positive s2 ->
  exists out, fftconvolve s1 s2 x (impulse (centre s2)) Same Constant = Some (s1, out) /\ forall i, valid s1 i -> out i = x i.
Proof.
  intros s1 s2 x L P1 P2. destruct (C40_constant s1 s2 x (impulse (centre s2)) Same L P1 P2 ltac:(discriminate)) as [out [E O]]. exists out. split; [exact E|].
  intros i Hi. rewrite (O i Hi). rewrite convolution_impulse by (apply centre_valid; exact P2). pose proof (valid_length _ _ Hi).
  assert (displaced i (zero_centre Same s2) (centre s2) = map Z.of_nat i) as ->.
  { cbn [zero_centre]. unfold half_down, centre. clear -L H. revert i H. revert s1 L. induction s2 as [|k s2 IH]; intros [|n s1] L [|a i] H; try discriminate; [reflexivity|].
    cbn [map displaced]. rewrite (IH s1) by (cbn in *; lia). f_equal. rewrite Nat2Z.inj_div. change (Z.of_nat 2) with 2%Z. lia. }
  unfold zero_outside. rewrite inside_z_valid by exact Hi. rewrite to_of. reflexivity.
Qed.
Example C40_constant_impulse_sat : exists (s1 : list nat) (s2 : list nat), length s1 = length s2 /\ positive s1 /\ positive s2.
Proof. exists [4; 5]%nat, [3; 2]%nat. repeat split; repeat constructor; lia. Qed.
(** The padded boundaries are centred for odd kernels and shift by one cell (cell i gets
    the cell i-1 of the continued image) along even axes. *)
Theorem C40_padded_impulse : forall s1 s2 x b, length s1 = length s2 -> positive s1 -> positive s2 -> b <> Circular -> b <> Constant ->
  exists out, fftconvolve s1 s2 x (impulse (centre s2)) Same b = Some (s1, out) /\
  forall i, valid s1 i -> out i = continued b s1 x (displaced i (map (fun k => if Nat.even k then (-1)%Z else 0%Z) s2) (map (fun _ => 0%nat) s2)).
Proof.
  intros s1 s2 x b L P1 P2 H1 H2. destruct (C40_padded s1 s2 x (impulse (centre s2)) Same b L P1 P2 ltac:(discriminate) H1 H2) as [out [E O]]. exists out. split; [exact E|].
  intros i Hi. rewrite (O i Hi). rewrite convolution_impulse by (apply centre_valid; exact P2). pose proof (valid_length _ _ Hi). f_equal.
  cbn [padded_centre]. unfold centre. clear -L H. revert i H. revert s1 L. induction s2 as [|k s2 IH]; intros [|n s1] L [|a i] H; try discriminate; [reflexivity|].
  cbn [map displaced]. rewrite (IH s1) by (cbn in *; lia). f_equal. rewrite Nat2Z.inj_div. change (Z.of_nat 2) with 2%Z.
  pose proof (Nat.even_spec k) as Ev. pose proof (Nat.odd_spec k) as Od. unfold Nat.odd in Od. destruct (Nat.even k).
  - destruct (proj1 Ev eq_refl) as [q Q]. subst k. Z.div_mod_to_equations. lia.
  - destruct (proj1 Od eq_refl) as [q Q]. subst k. Z.div_mod_to_equations. lia.
Qed.
Example C40_padded_impulse_sat : exists (s1 : list nat) (s2 : list nat) (b : boundary), length s1 = length s2 /\ positive s1 /\ positive s2 /\ b <> Circular /\ b <> Constant.
Proof. exists [4; 5]%nat, [3; 2]%nat, Wrap. split; [reflexivity|]. split; [repeat constructor; lia|]. split; [repeat constructor; lia|]. repeat split; discriminate. Qed.
(** 'wrap' and 'circular' are both periodic but never agree: they are one cell apart, for
    every kernel. *)
Lemma wrap_periodic : forall s p, length p = length s -> zmap2 (pad_source Wrap) p s = periodic s p.
Proof. induction s; intros [|k p] L; try discriminate; [reflexivity|]. cbn [zmap2 periodic]. rewrite IHs by (cbn in L; lia). reflexivity. Qed.
Theorem C40_wrap_is_not_circular : forall s1 s2 x y, fits s1 s2 -> positive s2 ->
  exists w c, fftconvolve s1 s2 x y Same Wrap = Some (s1, w) /\ fftconvolve s1 s2 x y Same Circular = Some (s1, c) /\
  forall i, valid s1 i -> c i = w (wrap_add s1 i (map (fun _ => 1%nat) s2)).
Proof.
  intros s1 s2 x y F P. pose proof (fits_length _ _ F) as L.
  assert (P1 : positive s1) by (clear -F P; induction F; inversion P; subst; constructor; [lia|apply IHF; assumption]).
  destruct (C40_padded s1 s2 x y Same Wrap L P1 P ltac:(discriminate) ltac:(discriminate) ltac:(discriminate)) as [w [Ew Ow]].
  destruct (C40_circular s1 s2 x y Same F P ltac:(discriminate)) as [c [Ec Oc]]. exists w, c. split; [exact Ew|]. split; [exact Ec|]. intros i Hi.
  assert (V : valid s1 (wrap_add s1 i (map (fun _ => 1%nat) s2))).
  { clear -Hi L. revert s2 L. induction Hi; intros [|k s2] L; try discriminate; [constructor|]. cbn [map wrap_add]. constructor; [apply Nat.mod_upper_bound; lia|]. apply IHHi. cbn in L; lia. }
  rewrite (Oc i Hi), (Ow _ V). unfold convolution, continued. apply rsum_ext. intros b Hb. apply indices_valid in Hb. f_equal. f_equal.
  pose proof (valid_length _ _ Hi). pose proof (valid_length _ _ Hb). pose proof (valid_length _ _ V).
  rewrite wrap_periodic by (rewrite displaced_length; cbn [padded_centre]; rewrite ?map_length; lia). cbn [padded_centre]. unfold half_up.
  clear -Hi Hb L P. revert s2 b L Hb P. induction Hi as [|n a s1 i Ha Hi IH]; intros [|k s2] [|c b] L Hb P; try discriminate; [reflexivity..|]. inversion Hb; inversion P; subst.
  cbn [map displaced periodic wrap_add]. rewrite (IH s2 b) by (try assumption; cbn in L; lia). f_equal. f_equal. rewrite Nat2Z.inj_mod, Nat2Z.inj_add.
  set (h := (Z.of_nat k - 1 - Z.of_nat k / 2 - Z.of_nat c)%Z).
  replace ((Z.of_nat a + Z.of_nat 1) mod Z.of_nat n + (Z.of_nat k - 1 - Z.of_nat k / 2) - Z.of_nat c)%Z with ((Z.of_nat a + Z.of_nat 1) mod Z.of_nat n + h)%Z by (unfold h; lia).
  rewrite Zplus_mod_idemp_l. f_equal. unfold h. clear. Z.div_mod_to_equations. lia.
Qed.
Print Assumptions C40_wrap_is_not_circular.
Example C40_wrap_is_not_circular_sat : exists (s1 : list nat) (s2 : list nat), fits s1 s2 /\ positive s2.
Proof. exists [4; 5]%nat, [3; 2]%nat. split; repeat constructor; lia. Qed.

(** * What smoothing with any kernel does *)
Lemma sum_periodic : forall s c b (g : list nat -> R), positive s -> length c = length s -> length b = length s ->
  rsum (map (fun i => g (periodic s (displaced i c b))) (indices s)) = rsum (map g (indices s)).
Proof.
  intros s c b g P Lc Lb.
  set (sh := map (fun q => Z.to_nat ((snd (fst q) - Z.of_nat (snd q)) mod Z.of_nat (fst (fst q)))) (combine (combine s c) b)).
  rewrite <- (sum_translate s sh g) by (unfold sh; rewrite map_length, !combine_length; lia). apply rsum_ext. intros i Hi. apply indices_valid in Hi. f_equal.
  unfold sh. clear sh. revert c b Lc Lb. induction Hi as [|n a s i Ha Hi IH]; intros [|y c] [|z b] Lc Lb; try discriminate; [reflexivity|]. inversion P; subst.
  cbn [displaced periodic combine map wrap_add fst snd]. rewrite IH by (try assumption; cbn in *; lia). f_equal.
  apply Nat2Z.inj. rewrite Z2Nat.id by (apply Z.mod_pos_bound; lia). rewrite Nat2Z.inj_mod, Nat2Z.inj_add, Z2Nat.id by (apply Z.mod_pos_bound; lia).
  rewrite Zplus_mod_idemp_r. f_equal. lia.
Qed.
Theorem C40_circular_total : forall s1 s2 x y m, fits s1 s2 -> positive s2 -> m <> Valid ->
  exists out, fftconvolve s1 s2 x y m Circular = Some (s1, out) /\
  rsum (map out (indices s1)) = rsum (map y (indices s2)) * rsum (map x (indices s1)).
Proof.
  intros s1 s2 x y m F P M. destruct (C40_circular s1 s2 x y m F P M) as [out [E O]]. exists out. split; [exact E|].
  assert (P1 : positive s1) by (clear -F P; induction F; inversion P; subst; constructor; [lia|apply IHF; assumption]). pose proof (fits_length _ _ F).
  rewrite (rsum_ext out (fun i => convolution s2 (fun p => x (periodic s1 p)) y (half_up s2) i)) by (intros i Hi; apply O, indices_valid, Hi).
  unfold convolution. rewrite rsum_swap. rewrite (rsum_ext _ (fun b => y b * rsum (map x (indices s1)))).
  - rewrite rsum_scale_r. reflexivity.
  - intros b Hb. apply indices_valid in Hb. pose proof (valid_length _ _ Hb). rewrite rsum_scale. f_equal. apply sum_periodic; [exact P1|unfold half_up; rewrite map_length; lia|lia].
Qed.
Print Assumptions C40_circular_total.
Example C40_circular_total_sat : exists (s1 : list nat) (s2 : list nat) (m : mode), fits s1 s2 /\ positive s2 /\ m <> Valid.
Proof. exists [4; 5]%nat, [3; 2]%nat, Full. split; [repeat constructor; lia|]. split; [repeat constructor; lia|discriminate]. Qed.

Lemma convolution_between : forall s2 A y c i lo hi, (forall b, valid s2 b -> 0 <= y b) -> rsum (map y (indices s2)) = 1 ->
  (forall b, valid s2 b -> lo <= A (displaced i c b) <= hi) -> lo <= convolution s2 A y c i <= hi.
Proof.
  intros s2 A y c i lo hi Y U B. unfold convolution. split.
  - replace lo with (rsum (map (fun b => y b * lo) (indices s2))) by (rewrite rsum_scale_r, U; ring). apply rsum_le. intros b Hb. apply indices_valid in Hb. apply Rmult_le_compat_l; [apply Y, Hb|apply B, Hb].
  - replace hi with (rsum (map (fun b => y b * hi) (indices s2))) by (rewrite rsum_scale_r, U; ring). apply rsum_le. intros b Hb. apply indices_valid in Hb. apply Rmult_le_compat_l; [apply Y, Hb|apply B, Hb].
Qed.
Lemma pad_source_ok : forall b k n, (0 < n)%nat -> b <> Circular -> b <> Constant -> (pad_source b k n < n)%nat.
Proof.
  intros b k n N H1 H2. destruct b; try contradiction; cbn [pad_source].
  - destruct (Nat.eq_dec n 1) as [->|Hn].
    + change (2 * (Z.of_nat 1 - 1))%Z with 0%Z. set (r := (k mod 0)%Z). destruct (Z.ltb_spec r (Z.of_nat 1)); [lia|]. change (0 - r)%Z with (- r)%Z. lia.
    + pose proof (Z.mod_pos_bound k (2 * (Z.of_nat n - 1)) ltac:(lia)). set (r := (k mod (2 * (Z.of_nat n - 1)))%Z) in *. destruct (Z.ltb_spec r (Z.of_nat n)); lia.
  - lia.
  - pose proof (Z.mod_pos_bound k (2 * Z.of_nat n) ltac:(lia)). set (r := (k mod (2 * Z.of_nat n))%Z) in *. destruct (Z.ltb_spec r (Z.of_nat n)); lia.
  - pose proof (Z.mod_pos_bound k (Z.of_nat n) ltac:(lia)). lia.
Qed.
Lemma continued_valid : forall b s p, positive s -> length p = length s -> b <> Circular -> b <> Constant -> valid s (zmap2 (pad_source b) p s).
Proof. induction s; intros [|k p] P L H1 H2; try discriminate; [constructor|]. inversion P; subst. cbn [zmap2]. constructor; [apply pad_source_ok; assumption|apply IHs; try assumption; cbn in L; lia]. Qed.

(** Every boundary but the zero one keeps the values of the image within their range, for a
    non-negative kernel of unit sum that fits. *)
Theorem C40_between : forall s1 s2 x y b lo hi, fits s1 s2 -> positive s2 -> b <> Constant ->
  (forall k, valid s2 k -> 0 <= y k) -> rsum (map y (indices s2)) = 1 -> (forall i, valid s1 i -> lo <= x i <= hi) ->
  exists out, fftconvolve s1 s2 x y Same b = Some (s1, out) /\ forall i, valid s1 i -> lo <= out i <= hi.
Proof.
  intros s1 s2 x y b lo hi F P HK Y U B. pose proof (fits_length _ _ F) as L.
  assert (P1 : positive s1) by (clear -F P; induction F; inversion P; subst; constructor; [lia|apply IHF; assumption]).
  assert (D : b = Circular \/ b <> Circular) by (destruct b; [left; reflexivity|right; discriminate..]). destruct D as [D|D].
  - subst b. destruct (C40_circular s1 s2 x y Same F P ltac:(discriminate)) as [out [E O]]. exists out. split; [exact E|]. intros i Hi. rewrite (O i Hi). apply convolution_between; [exact Y|exact U|].
    intros c Hc. apply B. pose proof (valid_length _ _ Hi). pose proof (valid_length _ _ Hc). apply periodic_valid; [|exact P1]. rewrite displaced_length; unfold half_up; rewrite ?map_length; lia.
  - destruct (C40_padded s1 s2 x y Same b L P1 P ltac:(discriminate) D HK) as [out [E O]]. exists out. split; [exact E|]. intros i Hi. rewrite (O i Hi). apply convolution_between; [exact Y|exact U|].
    intros c Hc. apply B. pose proof (valid_length _ _ Hi). cbn [out_shape] in *. pose proof (valid_length _ _ Hc). apply continued_valid; try assumption. rewrite displaced_length; cbn [padded_centre]; rewrite ?map_length; lia.
Qed.
Print Assumptions C40_between.
Example C40_between_sat : exists (s1 : list nat) (s2 : list nat) (x : list nat -> R) (y : list nat -> R) (b : boundary) (lo : R) (hi : R), fits s1 s2 /\ positive s2 /\ b <> Constant /\ ((forall k, valid s2 k -> 0 <= y k)) /\ rsum (map y (indices s2)) = 1 /\ (forall i, valid s1 i -> lo <= x i <= hi).
Proof. exists [4; 5]%nat, [3; 2]%nat, (fun i => INR (nth 0 i 0%nat)), (fun _ => / 6), Circular, 0, 3. split; [repeat constructor; lia|]. split; [repeat constructor; lia|]. split; [discriminate|]. split; [intros; lra|]. split; [cbn; lra|].
  intros i V. inversion V as [|a b l m A B]; subst. cbn [nth]. split; [apply pos_INR|]. replace 3 with (INR 3) by (cbn; lra). apply le_INR. lia. Qed.
Example C40_sat : fits [4;5]%nat [3;2]%nat /\ positive [3;2]%nat /\ (forall k, valid [3;2]%nat k -> 0 <= (fun _ => / 6) k) /\ rsum (map (fun _ => / 6) (indices [3;2]%nat)) = 1.
Proof. split; [repeat constructor|]. split; [repeat constructor|]. split; [intros; lra|]. cbn. lra. Qed.
(** Linear in the image and in the kernel. *)
Theorem C40_linear : forall s1 s2 x x' y a m b out out', fits s1 s2 -> positive s2 ->
  fftconvolve s1 s2 x y m b = Some out -> fftconvolve s1 s2 x' y m b = Some out' ->
  exists res, fftconvolve s1 s2 (fun i => x i + a * x' i) y m b = Some res /\ fst res = fst out /\ fst res = fst out' /\
  forall i, valid (fst res) i -> snd res i = snd out i + a * snd out' i.
Proof.
  intros s1 s2 x x' y a m b out out' F P E E'. pose proof (fits_length _ _ F) as L.
  assert (P1 : positive s1) by (clear -F P; induction F; inversion P; subst; constructor; [lia|apply IHF; assumption]).
  assert (CL : forall A A' A'' c i, (forall p, A'' p = A p + a * A' p) -> convolution s2 A'' y c i = convolution s2 A y c i + a * convolution s2 A' y c i).
  { intros A A' A'' c i H. unfold convolution. rewrite <- rsum_scale, <- rsum_plus. apply rsum_ext. intros k _. rewrite H. ring. }
  assert (D : m = Valid \/ m <> Valid) by (destruct m; [right; discriminate|right; discriminate|left; reflexivity]).
  assert (K : forall b', b' = Constant -> fftconvolve s1 s2 x y m b' = Some out -> fftconvolve s1 s2 x' y m b' = Some out' -> exists res, fftconvolve s1 s2 (fun i => x i + a * x' i) y m b' = Some res /\ fst res = fst out /\ fst res = fst out' /\
    forall i, valid (fst res) i -> snd res i = snd out i + a * snd out' i).
  { intros b' -> E1 E2. destruct (C40_constant s1 s2 x y m L P1 P (fun _ => F)) as [o1 [F1 O1]]. destruct (C40_constant s1 s2 x' y m L P1 P (fun _ => F)) as [o2 [F2 O2]].
    destruct (C40_constant s1 s2 (fun i => x i + a * x' i) y m L P1 P (fun _ => F)) as [o3 [F3 O3]]. rewrite F1 in E1. rewrite F2 in E2. injection E1 as <-. injection E2 as <-.
    exists (out_shape m s1 s2, o3). cbn [fst snd]. repeat split; try assumption. intros i Hi. rewrite (O1 i Hi), (O2 i Hi), (O3 i Hi). apply CL. intro p. unfold zero_outside. destruct (inside_z s1 p); ring. }
  destruct D as [D|D].
  - assert (forall z, fftconvolve s1 s2 z y m b = fftconvolve s1 s2 z y m Constant) as Q by (intro z; subst m; reflexivity). rewrite Q in *. apply (K Constant); auto.
  - assert (Db : b = Circular \/ b = Constant \/ (b <> Circular /\ b <> Constant)) by (destruct b; [left; reflexivity|right; left; reflexivity|right; right; split; discriminate..]).
    destruct Db as [Db|[Db|[Db1 Db2]]]; [| apply (K b Db); assumption|].
    + subst b. destruct (C40_circular s1 s2 x y m F P D) as [o1 [F1 O1]]. destruct (C40_circular s1 s2 x' y m F P D) as [o2 [F2 O2]].
      destruct (C40_circular s1 s2 (fun i => x i + a * x' i) y m F P D) as [o3 [F3 O3]]. rewrite F1 in E. rewrite F2 in E'. injection E as <-. injection E' as <-.
      exists (s1, o3). cbn [fst snd]. repeat split; try assumption. intros i Hi. rewrite (O1 i Hi), (O2 i Hi), (O3 i Hi). apply CL. intro p. reflexivity.
    + destruct (C40_padded s1 s2 x y m b L P1 P D Db1 Db2) as [o1 [F1 O1]]. destruct (C40_padded s1 s2 x' y m b L P1 P D Db1 Db2) as [o2 [F2 O2]].
      destruct (C40_padded s1 s2 (fun i => x i + a * x' i) y m b L P1 P D Db1 Db2) as [o3 [F3 O3]]. rewrite F1 in E. rewrite F2 in E'. injection E as <-. injection E' as <-.
      exists (out_shape m s1 s2, o3). cbn [fst snd]. repeat split; try assumption. intros i Hi. rewrite (O1 i Hi), (O2 i Hi), (O3 i Hi). apply CL. intro p. reflexivity.
Qed.
Print Assumptions C40_linear.
Example C40_linear_sat : exists (s1 : list nat) (s2 : list nat) (x : array) (x' : array) (y : array) (m : mode) (b : boundary) (out : list nat * array) (out' : list nat * array), fits s1 s2 /\ positive s2 /\ fftconvolve s1 s2 x y m b = Some out /\ fftconvolve s1 s2 x' y m b = Some out'.
Proof. eexists [4; 5]%nat, [3; 2]%nat, (fun _ => 1), (fun i => INR (nth 0 i 0%nat)), (fun _ => / 6), Same, Circular, _, _. split; [repeat constructor; lia|]. split; [repeat constructor; lia|]. split; reflexivity. Qed.
