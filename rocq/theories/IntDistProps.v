(** More of C63: distances given as integers. *)
From Coq Require Import List ZArith Reals Lra Lia.
From Verif Require Import ConstModel UnitsModel UnitsProps IntDistModel.
Local Open Scope R_scope.

(** The redshift of an integer distance is cut to a whole number; only a float distance gets
    its redshift. *)
Theorem C63_integer_redshift : forall func (d : Z) x, 0 <= func (IZR d) ->
  cdist_to_z func (Flt x) = Flt (func x) /\
  exists k, cdist_to_z func (Int d) = Int k /\ IZR k <= func (IZR d) < IZR k + 1 /\
    (val (cdist_to_z func (Int d)) = func (IZR d) <-> exists n, func (IZR d) = IZR n).
Proof.
  intros func d x H. split; [reflexivity|]. unfold cdist_to_z. cbn [store_like val]. set (y := func (IZR d)) in *.
  assert (T : IZR (truncate y) <= y < IZR (truncate y) + 1).
  { unfold truncate. destruct (Rle_dec 0 y); [|contradiction]. pose proof (base_Int_part y). lra. }
  exists (truncate y). split; [reflexivity|]. split; [exact T|]. split; [intros E; now exists (truncate y)|].
  intros [n En]. rewrite En in T |- *. f_equal. destruct T as [T1 T2]. apply le_IZR in T1. rewrite <- plus_IZR in T2. apply lt_IZR in T2. lia.
Qed.
Print Assumptions C63_integer_redshift.
Example C63_integer_redshift_sat : exists (func : R -> R) (d : Z), 0 <= func (IZR d).
Proof. exists (fun d => d / 3000), 9%Z. lra. Qed.

(** There and back with integers: if the interpolation inverts the distance exactly, and the
    distance grows with redshift, the result is an integer distance not above the first one,
    and equal to it iff its redshift is whole. With floats it is the first one. *)
Theorem C63_there_and_back : forall c quad func (d : Z),
  (forall x y, 0 <= x -> x < y -> 3 * 10 ^ 5 / H0 c * quad x < 3 * 10 ^ 5 / H0 c * quad y) ->
  0 <= 3 * 10 ^ 5 / H0 c * quad 0 ->
  0 <= func (IZR d) -> 3 * 10 ^ 5 / H0 c * quad (func (IZR d)) = IZR d ->
  exists k e, cdist_to_z func (Int d) = Int k /\ z_to_cdist c quad (Int k) = Int e /\ (e <= d)%Z /\
    (e = d <-> func (IZR d) = IZR k) /\
    z_to_cdist c quad (cdist_to_z func (Flt (IZR d))) = Flt (IZR d).
Proof.
  intros c quad func d Hm H0' Hf Hinv. destruct (C63_integer_redshift func d 0 Hf) as (_ & k & Ek & Bk & _).
  assert (Kp : 0 <= IZR k).
  { assert (-1 < IZR k) by lra. apply IZR_le. apply lt_IZR in H. lia. }
  set (D := fun x => 3 * 10 ^ 5 / H0 c * quad x) in *.
  assert (Dp : 0 <= D (IZR k)).
  { destruct (Req_dec (IZR k) 0) as [E|E]; [rewrite E; exact H0'|]. specialize (Hm 0 (IZR k) ltac:(lra) ltac:(lra)). fold (D 0) in *. unfold D in *. lra. }
  destruct (C63_integer_distance c quad k 0 Dp) as (_ & e & Ee & Be & _).
  assert (Le : D (IZR k) <= IZR d).
  { rewrite <- Hinv. destruct (Req_dec (IZR k) (func (IZR d))) as [E|E]; [rewrite E; unfold D; lra|].
    left. apply Hm; [exact Kp|lra]. }
  exists k, e. split; [exact Ek|]. split; [exact Ee|]. fold (D (IZR k)) in Be.
  split; [apply le_IZR; lra|]. split.
  - split; intros E.
    + subst e. destruct (Req_dec (func (IZR d)) (IZR k)) as [G|G]; [exact G|exfalso].
      specialize (Hm (IZR k) (func (IZR d)) Kp ltac:(lra)). fold (D (IZR k)) in Hm. rewrite Hinv in Hm. lra.
    + assert (Q : D (IZR k) = IZR d) by (rewrite <- Hinv, E; reflexivity).
      rewrite Q in Be. destruct Be as [T1 T2]. apply le_IZR in T1. rewrite <- plus_IZR in T2. apply lt_IZR in T2. lia.
  - unfold z_to_cdist, cdist_to_z. cbn [store_like val]. f_equal. exact Hinv.
Qed.
Print Assumptions C63_there_and_back.
Example C63_there_and_back_sat : exists (c : const) (quad : R -> R) (func : R -> R) (d : Z), ((forall x y, 0 <= x -> x < y -> 3 * 10 ^ 5 / H0 c * quad x < 3 * 10 ^ 5 / H0 c * quad y)) /\ 0 <= 3 * 10 ^ 5 / H0 c * quad 0 /\ 0 <= func (IZR d) /\ 3 * 10 ^ 5 / H0 c * quad (func (IZR d)) = IZR d.
Proof. exists const0, (fun z => z), (fun d => d / (3 * 10 ^ 5 / H0 const0)), 9%Z. assert (Hh : 0 < 3 * 10 ^ 5 / H0 const0) by (apply Rdiv_lt_0_compat; [lra|cbn; lra]). set (q := 3 * 10 ^ 5 / H0 const0) in *.
  split; [intros x y _ L; apply Rmult_lt_compat_l; assumption|]. split; [lra|]. split; [apply Rlt_le, Rdiv_lt_0_compat; lra|]. field. lra. Qed.

(** Met by a distance linear in the redshift (800 Mpc per unit redshift) and its inverse. *)
Example C63_back_sat :
  let c := fst (run nil) in let quad := fun z => 800 * z * H0 c / (3 * 10 ^ 5) in let func := fun d => d / 800 in
  0 <= func (IZR 6600) /\ 3 * 10 ^ 5 / H0 c * quad (func (IZR 6600)) = IZR 6600 /\ func (IZR 6600) = 8.25.
Proof. cbn -[IZR]. repeat split; lra. Qed.
