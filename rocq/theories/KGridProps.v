(** C23, C25, C61: wave-number grids. *)
From Coq Require Import List Arith ZArith Reals Lia Bool Lra.
From Verif Require Import KGridModel KGridSpec.
Import ListNotations.
Local Open Scope R_scope.

Lemma shift_source_val : forall n i, (i < n)%nat ->
  Z.of_nat (shift_source n i) = ((Z.of_nat i - Z.of_nat (n / 2)) mod Z.of_nat n)%Z.
Proof.
  intros n i H. unfold shift_source. rewrite Nat2Z.inj_mod, Nat2Z.inj_add.
  assert (n / 2 <= n)%nat by (apply Nat.div_le_upper_bound; lia).
  rewrite Nat2Z.inj_sub by auto.
  replace (Z.of_nat i + (Z.of_nat n - Z.of_nat (n / 2)))%Z
    with ((Z.of_nat i - Z.of_nat (n / 2)) + 1 * Z.of_nat n)%Z by lia.
  apply Z.mod_add. lia.
Qed.
Lemma half_bounds : forall n, (2 * (n / 2) <= n < 2 * (n / 2) + 2)%nat.
Proof. intro n. pose proof (Nat.div_mod n 2). pose proof (Nat.mod_upper_bound n 2). lia. Qed.
Lemma shift_signed : forall n i, (i < n)%nat ->
  signed_frequency n (shift_source n i) (Z.of_nat i - Z.of_nat (n / 2)).
Proof.
  intros n i H. split; [symmetry; apply shift_source_val; exact H|].
  pose proof (half_bounds n). lia.
Qed.
Lemma signed_unique : forall n j m m', (0 < n)%nat ->
  signed_frequency n j m -> signed_frequency n j m' -> m = m'.
Proof.
  intros n j m m' Hn [A B] [C D].
  assert (E : ((m - m') mod Z.of_nat n = 0)%Z) by (rewrite Zminus_mod, A, C, Z.sub_diag; apply Z.mod_0_l; lia).
  apply Z.mod_divide in E; [|lia]. destruct E as [q E]. assert (q < 1)%Z by nia. assert (-1 < q)%Z by nia. nia.
Qed.

Lemma center_3d_val : forall n, center_3d n = INR (n / 2).
Proof.
  intro n. unfold center_3d. pose proof (Nat.div_mod n 2 ltac:(lia)) as E.
  destruct (Nat.eqb_spec (n mod 2) 0) as [H|H].
  - rewrite H, Nat.add_0_r in E. rewrite E at 1. rewrite mult_INR. simpl. field.
  - pose proof (Nat.mod_upper_bound n 2 ltac:(lia)).
    replace (n mod 2) with 1%nat in E by lia. rewrite E at 1. rewrite plus_INR, mult_INR. simpl. field.
Qed.
Lemma k_component_nat : forall c L x, k_component (INR c) L x = wavenumber L (Z.of_nat x - Z.of_nat c).
Proof.
  intros. unfold k_component, wavenumber. rewrite minus_IZR, <- !INR_IZR_INZ. reflexivity.
Qed.
Lemma wavenumber_inj : forall L m m', 0 < L -> wavenumber L m = wavenumber L m' -> m = m'.
Proof.
  intros L m m' HL H. unfold wavenumber in H. apply eq_IZR.
  apply Rmult_eq_reg_l with (2 * PI / L).
  - replace (2 * PI / L * IZR m) with (2 * PI * IZR m / L) by (field; lra).
    replace (2 * PI / L * IZR m') with (2 * PI * IZR m' / L) by (field; lra). exact H.
  - pose proof PI_RGT_0. assert (0 < 2 * PI / L); [|lra]. apply Rdiv_lt_0_compat; lra.
Qed.

(** 3-D: cell i of the k grid carries the wave number of the Fourier mode that fftshift
    puts into cell i, for every size. *)
Theorem C23_grid_3d_aligned : forall n L i m, (i < n)%nat ->
  signed_frequency n (shift_source n i) m -> get_k_3d n L i = wavenumber L m.
Proof.
  intros n L i m Hi Hm. unfold get_k_3d. rewrite center_3d_val, k_component_nat.
  f_equal. eapply signed_unique; [|apply shift_signed; exact Hi|exact Hm]. lia.
Qed.
Print Assumptions C23_grid_3d_aligned.
Example C23_grid_3d_aligned_sat : exists (n : nat) (i : nat) (m : Z), (i < n)%nat /\ signed_frequency n (shift_source n i) m.
Proof. exists 5%nat, 1%nat, (-1)%Z. split; [lia|]. split; [reflexivity|lia]. Qed.

(** So k = 0 is at index n//2, the cell that [mu_binning] zeroes and that holds DFT
    output 0. *)
Theorem C23_zero_mode : forall n L i, (i < n)%nat -> 0 < L ->
  (get_k_3d n L i = 0 <-> i = zero_index n) /\ shift_source n (zero_index n) = 0%nat.
Proof.
  intros n L i Hi HL. split.
  - unfold get_k_3d. rewrite center_3d_val, k_component_nat. unfold zero_index.
    assert (Z0 : wavenumber L 0 = 0) by (unfold wavenumber; field; lra). split; intro H.
    + rewrite <- Z0 in H. apply wavenumber_inj in H; auto. lia.
    + subst i. rewrite Z.sub_diag. exact Z0.
  - unfold shift_source, zero_index. assert (n / 2 <= n)%nat by (apply Nat.div_le_upper_bound; lia).
    replace (n / 2 + (n - n / 2))%nat with n by lia. apply Nat.mod_same. lia.
Qed.
Print Assumptions C23_zero_mode.
Example C23_zero_mode_sat : exists (n : nat) (L : R) (i : nat), (i < n)%nat /\ 0 < L.
Proof. exists 6%nat, 100, 4%nat. repeat split; first [lra | lia | reflexivity | discriminate | congruence | auto]. Qed.

(** 1-D, 2-D and the fast module (all dimensions): aligned in every cell iff the size is
    odd; for an even size every wave number is too large by exactly half a cell, pi/L. *)
Theorem C23_grid_half_offset : forall n L i m, (i < n)%nat -> 0 < L ->
  signed_frequency n (shift_source n i) m ->
  get_k_1d n L i = wavenumber L m + (if Nat.even n then PI / L else 0) /\
  get_k_fast n L i = get_k_1d n L i.
Proof.
  intros n L i m Hi HL Hm. split; [|reflexivity].
  assert (E : m = (Z.of_nat i - Z.of_nat (n / 2))%Z).
  { eapply signed_unique; [|exact Hm|apply shift_signed; exact Hi]. lia. }
  subst m. unfold get_k_1d, k_component, wavenumber, center_half.
  rewrite minus_IZR, <- !INR_IZR_INZ. rewrite minus_INR by lia. simpl (INR 1).
  destruct (Nat.even n) eqn:Ev.
  - apply Nat.even_spec in Ev as [p ->]. replace (2 * p / 2)%nat with p
      by (rewrite Nat.mul_comm, Nat.div_mul; lia).
    rewrite mult_INR. simpl (INR 2). field. lra.
  - assert (Od : Nat.odd n = true) by (rewrite <- Nat.negb_even, Ev; reflexivity).
    apply Nat.odd_spec in Od as [p ->].
    replace ((2 * p + 1) / 2)%nat with p
      by (rewrite Nat.mul_comm, Nat.div_add_l by lia; simpl; lia).
    rewrite plus_INR, mult_INR. simpl (INR 2). simpl (INR 1). field. lra.
Qed.
Print Assumptions C23_grid_half_offset.
Example C23_grid_half_offset_sat : exists (n : nat) (L : R) (i : nat) (m : Z), (i < n)%nat /\ 0 < L /\ signed_frequency n (shift_source n i) m.
Proof. exists 5%nat, 100, 1%nat, (-1)%Z. split; [lia|]. split; [lra|]. split; [reflexivity|lia]. Qed.

Theorem C23_half_offset_iff : forall n L i m, (i < n)%nat -> 0 < L ->
  signed_frequency n (shift_source n i) m ->
  (get_k_1d n L i = wavenumber L m <-> Nat.odd n = true).
Proof.
  intros n L i m Hi HL Hm. destruct (C23_grid_half_offset n L i m Hi HL Hm) as [E _].
  rewrite E. rewrite <- Nat.negb_even. destruct (Nat.even n); simpl.
  - split; [|discriminate]. intro H. pose proof PI_RGT_0.
    assert (0 < PI / L) by (apply Rdiv_lt_0_compat; lra). lra.
  - rewrite Rplus_0_r. tauto.
Qed.
Print Assumptions C23_half_offset_iff.
Example C23_half_offset_iff_sat : exists (n : nat) (L : R) (i : nat) (m : Z), (i < n)%nat /\ 0 < L /\ signed_frequency n (shift_source n i) m.
Proof. exists 5%nat, 100, 1%nat, (-1)%Z. split; [lia|]. split; [lra|]. split; [reflexivity|lia]. Qed.

(** The sizes and frequencies of the statements exist: 4 cells, mode -1 in cell 1. *)
Example C23_sat : (1 < 4)%nat /\ signed_frequency 4 (shift_source 4 1) (-1).
Proof. split; [lia|]. split; [reflexivity|]. simpl. lia. Qed.

(** * C25 *)
Lemma is_half_spec : forall x n, is_half x n = true <-> (Nat.even n = true /\ x = (n / 2)%nat).
Proof.
  intros x n. unfold is_half. rewrite Nat.eqb_eq. split.
  - intros <-. split; [apply Nat.even_spec; exists x; reflexivity|].
    rewrite Nat.mul_comm, Nat.div_mul; lia.
  - intros [H ->]. apply Nat.even_spec in H as [p ->].
    replace (2 * p / 2)%nat with p by (rewrite Nat.mul_comm, Nat.div_mul; lia). reflexivity.
Qed.
Lemma k_zero_iff : forall n L x, (x < n)%nat -> 0 < L -> (get_k_3d n L x = 0 <-> x = (n / 2)%nat).
Proof. intros n L x H HL. exact (proj1 (C23_zero_mode n L x H HL)). Qed.

(** The mask excludes a mode iff both transverse wave numbers are zero AND both transverse
    sizes are even (line of sight 0; the other axes are the next two theorems). *)
Theorem C25_mask_axis0 : forall n1 n2 n3 L2 L3 x y z, 0 < L2 -> 0 < L3 ->
  (y < n2)%nat -> (z < n3)%nat ->
  (get_nonzero_idx n1 n2 n3 0 x y z = false <->
   (get_k_3d n2 L2 y = 0 /\ get_k_3d n3 L3 z = 0) /\ Nat.even n2 = true /\ Nat.even n3 = true).
Proof.
  intros. unfold get_nonzero_idx. rewrite negb_false_iff, andb_true_iff, !is_half_spec, !k_zero_iff by auto. tauto.
Qed.
Print Assumptions C25_mask_axis0.
Example C25_mask_axis0_sat : exists (n2 : nat) (n3 : nat) (L2 : R) (L3 : R) (y : nat) (z : nat), 0 < L2 /\ 0 < L3 /\ (y < n2)%nat /\ (z < n3)%nat.
Proof. exists 6%nat, 7%nat, 100, 50, 4%nat, 2%nat. repeat split; first [lra | lia | reflexivity | discriminate | congruence | auto]. Qed.
Theorem C25_mask_axis1 : forall n1 n2 n3 L1 L3 x y z, 0 < L1 -> 0 < L3 ->
  (x < n1)%nat -> (z < n3)%nat ->
  (get_nonzero_idx n1 n2 n3 1 x y z = false <->
   (get_k_3d n1 L1 x = 0 /\ get_k_3d n3 L3 z = 0) /\ Nat.even n1 = true /\ Nat.even n3 = true).
Proof.
  intros. unfold get_nonzero_idx. rewrite negb_false_iff, andb_true_iff, !is_half_spec, !k_zero_iff by auto. tauto.
Qed.
Print Assumptions C25_mask_axis1.
Example C25_mask_axis1_sat : exists (n1 : nat) (n3 : nat) (L1 : R) (L3 : R) (x : nat) (z : nat), 0 < L1 /\ 0 < L3 /\ (x < n1)%nat /\ (z < n3)%nat.
Proof. exists 6%nat, 7%nat, 100, 50, 4%nat, 2%nat. repeat split; first [lra | lia | reflexivity | discriminate | congruence | auto]. Qed.
Theorem C25_mask_axis2 : forall n1 n2 n3 L1 L2 x y z, 0 < L1 -> 0 < L2 ->
  (x < n1)%nat -> (y < n2)%nat ->
  (get_nonzero_idx n1 n2 n3 2 x y z = false <->
   (get_k_3d n1 L1 x = 0 /\ get_k_3d n2 L2 y = 0) /\ Nat.even n1 = true /\ Nat.even n2 = true).
Proof.
  intros. unfold get_nonzero_idx. rewrite negb_false_iff, andb_true_iff, !is_half_spec, !k_zero_iff by auto. tauto.
Qed.
Print Assumptions C25_mask_axis2.
Example C25_mask_axis2_sat : exists (n1 : nat) (n2 : nat) (L1 : R) (L2 : R) (x : nat) (y : nat), 0 < L1 /\ 0 < L2 /\ (x < n1)%nat /\ (y < n2)%nat.
Proof. exists 6%nat, 7%nat, 100, 50, 4%nat, 2%nat. repeat split; first [lra | lia | reflexivity | discriminate | congruence | auto]. Qed.

(** Hence the claim "exactly the modes with k_perp = 0 are excluded" holds for a shape iff
    both transverse sizes are even. *)
Theorem C25_exact_iff_even : forall n1 n2 n3 L2 L3, 0 < L2 -> 0 < L3 ->
  (0 < n2)%nat -> (0 < n3)%nat ->
  ((forall x y z, (y < n2)%nat -> (z < n3)%nat ->
      (get_nonzero_idx n1 n2 n3 0 x y z = false <-> get_k_3d n2 L2 y = 0 /\ get_k_3d n3 L3 z = 0))
   <-> Nat.even n2 = true /\ Nat.even n3 = true).
Proof.
  intros n1 n2 n3 L2 L3 H2 H3 P2 P3. split.
  - intro H. assert (B2 : (n2 / 2 < n2)%nat) by (apply Nat.div_lt; lia).
    assert (B3 : (n3 / 2 < n3)%nat) by (apply Nat.div_lt; lia).
    specialize (H 0%nat (n2 / 2)%nat (n3 / 2)%nat B2 B3).
    rewrite (C25_mask_axis0 n1 n2 n3 L2 L3) in H by auto.
    rewrite !k_zero_iff in H by auto. tauto.
  - intros [E2 E3] x y z Hy Hz. rewrite (C25_mask_axis0 n1 n2 n3 L2 L3) by auto. tauto.
Qed.
Print Assumptions C25_exact_iff_even.
Example C25_exact_iff_even_sat : exists (n2 : nat) (n3 : nat) (L2 : R) (L3 : R), 0 < L2 /\ 0 < L3 /\ (0 < n2)%nat /\ (0 < n3)%nat.
Proof. exists 6%nat, 7%nat, 100, 50. repeat split; first [lra | lia | reflexivity | discriminate | congruence | auto]. Qed.

Example C25_sat : get_nonzero_idx 4 4 4 0 1 2 2 = false /\ get_nonzero_idx 5 5 5 0 1 2 2 = true.
Proof. split; reflexivity. Qed.

(** * C61: the box_dims argument *)

(** A list, a number or None give one side per axis (None: the current box); a numpy
    array of sides raises unless it has exactly one element. *)
Theorem C61_box_dims : forall LB a ndim,
  (get_dims LB a ndim = None <-> exists l, a = DArray l /\ length l <> 1%nat) /\
  (forall l, get_dims LB a ndim = Some l ->
     match a with
     | DNone => l = repeat LB ndim
     | DScalar L => l = repeat L ndim
     | DList l' => l = l'
     | DArray l' => l = l' /\ length l' = 1%nat
     end).
Proof.
  intros LB a ndim. destruct a as [|L|l|l]; simpl.
  - split; [split; [discriminate|intros [l [H _]]; discriminate]|intros l [= <-]; reflexivity].
  - split; [split; [discriminate|intros [l [H _]]; discriminate]|intros l [= <-]; reflexivity].
  - split; [split; [discriminate|intros [l' [H _]]; discriminate]|intros l' [= <-]; reflexivity].
  - destruct l as [|x [|y l]]; simpl.
    + split; [split; [|reflexivity]|discriminate]. intros _. exists []. split; [reflexivity|discriminate].
    + split; [split; [discriminate|]|].
      * intros [l' [[= <-] H]]. exfalso. apply H. reflexivity.
      * intros l' [= <-]. auto.
    + split; [split; [|reflexivity]|discriminate]. intros _. exists (x :: y :: l). split; [reflexivity|discriminate].
Qed.
Print Assumptions C61_box_dims.
Example C61_sat : get_dims 100 (DArray [1; 2; 3]) 3 = None /\ get_dims 100 (DList [1; 2; 3]) 3 = Some [1; 2; 3].
Proof. split; reflexivity. Qed.
