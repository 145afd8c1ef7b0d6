(** More of C77: which cells are averaged. *)
From Coq Require Import List ZArith Reals Lia Lra.
From Verif Require Import SpaModel SpaProps.
Import ListNotations.
Local Open Scope R_scope.

(** C77: the average around a cell is taken over the cells at the displacements of a ball: of radius [ra] around the cell itself
    for whole scales; in general, with D the diameter 2 ra rounded down, over the displacements s with |s + o| <= D/2, where the
    offset o is half a cell along every axis for odd D. *)
Theorem C77_average : forall n d ra i j k, 1 <= ra -> exists window : list (Z * Z * Z), NoDup window /\ window <> [] /\
  (forall a b c, In (a, b, c) window <-> let D := Int_part (2 * ra) in let o := (D mod 2)%Z in ((2 * a + o) ^ 2 + (2 * b + o) ^ 2 + (2 * c + o) ^ 2 <= D ^ 2)%Z) /\
  smooth n d ra i j k = total (map (fun s => let '(a, b, c) := s in
      if ((0 <=? i + a) && (i + a <? n) && (0 <=? j + b) && (j + b <? n) && (0 <=? k + c) && (k + c <? n))%Z%bool then d (i + a)%Z (j + b)%Z (k + c)%Z else 0) window) / INR (length window).
Proof.
  intros n d ra i j k Hr. set (D := Int_part (2 * ra)).
  assert (IP : Int_part (2 * ra + 1) = (D + 1)%Z).
  { unfold D. destruct (base_Int_part (2 * ra)) as [A1 A2]. destruct (base_Int_part (2 * ra + 1)) as [B1 B2].
    assert (IZR (Int_part (2 * ra + 1)) < IZR (Int_part (2 * ra) + 2)) by (rewrite plus_IZR; lra).
    assert (IZR (Int_part (2 * ra)) < IZR (Int_part (2 * ra + 1))) by lra. apply lt_IZR in H, H0. lia. }
  assert (D0 : (2 <= D)%Z).
  { unfold D. destruct (base_Int_part (2 * ra)) as [A1 A2]. assert (IZR 1 < IZR (Int_part (2 * ra))) by lra. apply lt_IZR in H. lia. }
  set (c := (D / 2)%Z). pose proof (Z.div_mod D 2 ltac:(lia)) as DM. pose proof (Z.mod_pos_bound D 2 ltac:(lia)) as MB. fold c in DM.
  set (o := (D mod 2)%Z) in *.
  set (g := fun t : Z * Z * Z => let '(a, b, e) := t in (c - a, c - b, c - e)%Z).
  exists (map g (ball (D + 1))). split; [|split; [|split]].
  - apply FinFun.Injective_map_NoDup; [|apply ball_NoDup]. intros [[a b] e] [[a' b'] e'] E. unfold g in E. inversion E. f_equal; [f_equal|]; lia.
  - intro E. apply map_eq_nil in E. assert (I : In (c, c, c) (ball (D + 1))) by (apply ball_in; repeat split; try lia; unfold c in *; nia). rewrite E in I. exact I.
  - intros a b e. cbv zeta. fold D. fold o. rewrite in_map_iff. split.
    + intros [[[a' b'] e'] [E I]]. unfold g in E. inversion E. apply ball_in in I. subst a b e. destruct I as (_ & _ & _ & I). nia.
    + intro H. exists (c - a, c - b, c - e)%Z. split; [unfold g; f_equal; [f_equal|]; lia|]. apply ball_in.
      assert (SQ : forall u v, (0 <= v -> u ^ 2 <= v ^ 2 -> - v <= u <= v)%Z) by (intros u v Hv K; nia).
      pose proof (Z.pow_nonneg (2 * a + o) 2) as _.
      assert (N1 : (0 <= (2 * a + o) ^ 2)%Z) by nia. assert (N2 : (0 <= (2 * b + o) ^ 2)%Z) by nia. assert (N3 : (0 <= (2 * e + o) ^ 2)%Z) by nia.
      pose proof (SQ (2 * a + o)%Z D ltac:(lia) ltac:(lia)). pose proof (SQ (2 * b + o)%Z D ltac:(lia) ltac:(lia)). pose proof (SQ (2 * e + o)%Z D ltac:(lia) ltac:(lia)).
      repeat split; lia.
  - unfold smooth, convolved, ball_points. rewrite IP. rewrite map_length, map_map. replace (D + 1 - 1)%Z with D by lia. fold c. f_equal. f_equal.
    apply map_ext. intros [[a b] e]. unfold g, padded. replace (i + c - a)%Z with (i + (c - a))%Z by lia. replace (j + c - b)%Z with (j + (c - b))%Z by lia. replace (k + c - e)%Z with (k + (c - e))%Z by lia. reflexivity.
Qed.
Print Assumptions C77_average.
Example C77_average_sat : exists window : list (Z * Z * Z), length window = 7%nat /\ NoDup window /\
  forall a b c, In (a, b, c) window <-> ((2 * a + 0) ^ 2 + (2 * b + 0) ^ 2 + (2 * c + 0) ^ 2 <= 2 ^ 2)%Z.
Proof.
  exists (filter (fun t => let '(a, b, c) := t in ((2 * a + 0) ^ 2 + (2 * b + 0) ^ 2 + (2 * c + 0) ^ 2 <=? 2 ^ 2)%Z) (list_prod (list_prod [-1; 0; 1]%Z [-1; 0; 1]%Z) [-1; 0; 1]%Z)).
  split; [reflexivity|]. split.
  - apply NoDup_filter. cbn. repeat constructor; cbn; intuition discriminate.
  - intros a b c. rewrite filter_In, !in_prod_iff, Z.leb_le. split; [tauto|]. intro H. split; [|exact H].
    assert (K : forall u, (u ^ 2 <= 1)%Z -> In u [-1; 0; 1]%Z) by (intros u Hu; assert (-1 <= u <= 1)%Z by nia; cbn; lia).
    repeat split; apply K; nia.
Qed.
