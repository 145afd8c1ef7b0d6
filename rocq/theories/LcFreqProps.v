(** More of C56: how many redshifts there are, and when there are none. *)
From Coq Require Import List ZArith QArith Qround Qfield Lqa Lia.
From Verif Require Import LcModel LcProofs LcProps.
Import ListNotations.
Local Open Scope nat_scope.

(** C56: the number of redshifts is the bandwidth between the two given ones in channels, rounded up. *)
Theorem C56_number : forall nu0 dnu z_low z_high, (0 < nu0)%Q -> (0 < dnu)%Q -> (0 < 1 + z_low)%Q -> (z_low < z_high)%Q ->
  exists fuel0 l, (forall fuel, fuel0 <= fuel -> redshifts_equal_frequency fuel z_low z_high (dnu / nu0) = Some l) /\
    Z.of_nat (length l) = Qceiling ((nu0 / (1 + z_low) - nu0 / (1 + z_high)) / dnu).
Proof.
  intros nu0 dnu z_low z_high HN HD HL HZ. destruct (C56_equal_frequency nu0 dnu z_low z_high HN HD HL HZ) as (fuel0 & l & F & L & I & K & E).
  exists fuel0, l. split; [exact F|].
  assert (NZ : 0 < length l) by (destruct l; [discriminate|cbn; lia]).
  set (B := ((nu0 / (1 + z_low) - nu0 / (1 + z_high)) / dnu)%Q).
  assert (U : (B <= inject_Z (Z.of_nat (length l)))%Q).
  { unfold B. apply Qle_shift_div_r; [exact HD|]. Lqa.lra. }
  assert (W : (inject_Z (Z.of_nat (length l) - 1) < B)%Q).
  { destruct (nth_error l 0) as [z|] eqn:Ez; [|apply nth_error_None in Ez; lia].
    specialize (K (length l - 1) z ltac:(lia)). replace (length l - 1 - (length l - 1)) with 0 in K by lia. specialize (K Ez).
    assert (Iz : (z_low < z <= z_high)%Q) by (apply I; apply nth_error_In with 0; exact Ez).
    unfold B. apply Qlt_shift_div_l; [exact HD|]. replace (Z.of_nat (length l) - 1)%Z with (Z.of_nat (length l - 1)) by lia.
    assert (G : (nu0 / (1 + z) < nu0 / (1 + z_low))%Q).
    { apply Qlt_shift_div_l; [Lqa.lra|]. setoid_replace (nu0 / (1 + z) * (1 + z_low))%Q with (nu0 * (1 + z_low) / (1 + z))%Q by (field; Lqa.lra).
      apply Qlt_shift_div_r; [Lqa.lra|]. Lqa.nra. }
    Lqa.lra. }
  apply Z.le_antisymm.
  - pose proof (Qle_ceiling B) as C. assert (T : (inject_Z (Z.of_nat (length l) - 1) < inject_Z (Qceiling B))%Q) by Lqa.lra. rewrite <- Zlt_Qlt in T. lia.
  - apply Qceiling_resp_le in U. rewrite Qceiling_Z in U. exact U.
Qed.
Print Assumptions C56_number.

(** C56: limits in the wrong order are refused; a channel width of zero never comes to an end. *)
Theorem C56_never : forall z_low z_high fuel, 
  ((z_high <= z_low)%Q -> forall a, redshifts_equal_frequency fuel z_low z_high a = None) /\
  redshifts_equal_frequency fuel z_low z_high 0 = None.
Proof.
  intros z_low z_high fuel. assert (LT : forall x y, (x <= y)%Q -> Qltb y x = false).
  { intros x y H. apply not_true_is_false. intro T. apply Qltb_lt in T. Lqa.lra. }
  split.
  - intros H a. unfold redshifts_equal_frequency. now rewrite LT.
  - unfold redshifts_equal_frequency. destruct (Qltb z_low z_high) eqn:E; [|reflexivity].
    assert (N : forall f z, (z_low < z)%Q -> freq_loop f 0 z_low z = None).
    { induction f as [|f IH]; intros z Hz; cbn [freq_loop].
      - now rewrite (proj2 (Qltb_lt z_low z) Hz).
      - rewrite (proj2 (Qltb_lt z_low z) Hz). rewrite IH; [reflexivity|]. unfold freq_next. setoid_replace ((z - 0 * (1 + z)) / (1 + 0 * (1 + z)))%Q with z by field. exact Hz. }
    rewrite N; [reflexivity|]. now apply Qltb_lt.
Qed.
Print Assumptions C56_never.
Example C56_number_sat : redshifts_equal_frequency 9 1 3 (1 # 8) <> None /\ option_map (@length Q) (redshifts_equal_frequency 9 1 3 (1 # 8)) = Some 2.
Proof. split; [discriminate|reflexivity]. Qed.
