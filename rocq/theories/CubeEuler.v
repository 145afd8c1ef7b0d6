(** Proofs about the Euler characteristic. *)
From Coq Require Import List Arith ZArith Bool Lia.
From Verif Require Import CubeModel CubeSpec CubeProofs.
Import ListNotations.
Local Open Scope nat_scope.

Fixpoint zsum (n : nat) (f : nat -> Z) : Z :=
  match n with 0 => 0%Z | S n' => (zsum n' f + f n')%Z end.

Lemma zsum_ext n f g : (forall i, i < n -> f i = g i) -> zsum n f = zsum n g.
Proof. induction n as [|n IH]; intros H; cbn [zsum]; [reflexivity|]. rewrite IH, H by (intros; try apply H; lia). reflexivity. Qed.
Lemma zsum_add n f g : (zsum n (fun i => f i + g i) = zsum n f + zsum n g)%Z.
Proof. induction n as [|n IH]; cbn [zsum]; [reflexivity|]. rewrite IH. ring. Qed.
Lemma zsum_sub n f g : (zsum n (fun i => f i - g i) = zsum n f - zsum n g)%Z.
Proof. induction n as [|n IH]; cbn [zsum]; [reflexivity|]. rewrite IH. ring. Qed.
Lemma zsum_const n c : (zsum n (fun _ => c) = Z.of_nat n * c)%Z.
Proof. induction n as [|n IH]; cbn [zsum]; [reflexivity|]. rewrite IH. lia. Qed.
Lemma zsum_double n f : zsum (2 * n) f = zsum n (fun p => Z.add (f (2 * p)) (f (2 * p + 1))).
Proof.
  induction n as [|n IH]; [reflexivity|]. replace (2 * S n) with (S (S (2 * n))) by lia. cbn [zsum]. rewrite IH.
  replace (S (2 * n)) with (2 * n + 1) by lia. cbn [zsum]. ring.
Qed.
Lemma zsum_shift n f : 0 < n -> zsum n (fun i => f ((i + 1) mod n)) = zsum n f.
Proof.
  destruct n as [|n]; [lia|]. intros _.
  assert (G : forall k, zsum k (fun i => f (i + 1)) = (zsum (S k) f - f 0%nat)%Z).
  { induction k as [|k IH]; cbn [zsum]; [ring|]. rewrite IH. cbn [zsum]. replace (k + 1) with (S k) by lia. ring. }
  cbn [zsum]. rewrite (zsum_ext n _ (fun i => f (i + 1))).
  - rewrite G. replace (n + 1) with (S n) by lia. rewrite Nat.mod_same by lia. cbn [zsum]. ring.
  - intros i Hi. rewrite Nat.mod_small by lia. reflexivity.
Qed.

Definition zsum3 nx ny nz (f : idx -> Z) : Z :=
  zsum nx (fun i => zsum ny (fun j => zsum nz (fun k => f (i, j, k)))).

Lemma zsum3_ext nx ny nz f g : (forall i j k, i < nx -> j < ny -> k < nz -> f (i, j, k) = g (i, j, k)) ->
  zsum3 nx ny nz f = zsum3 nx ny nz g.
Proof. intros H. unfold zsum3. apply zsum_ext. intros i Hi. apply zsum_ext. intros j Hj. apply zsum_ext. auto. Qed.
Lemma zsum3_add nx ny nz f g : (zsum3 nx ny nz (fun c => f c + g c) = zsum3 nx ny nz f + zsum3 nx ny nz g)%Z.
Proof.
  unfold zsum3. rewrite <- zsum_add. apply zsum_ext. intros i _. rewrite <- zsum_add. apply zsum_ext. intros j _.
  apply zsum_add.
Qed.
Lemma zsum3_sub nx ny nz f g : (zsum3 nx ny nz (fun c => f c - g c) = zsum3 nx ny nz f - zsum3 nx ny nz g)%Z.
Proof.
  unfold zsum3. rewrite <- zsum_sub. apply zsum_ext. intros i _. rewrite <- zsum_sub. apply zsum_ext. intros j _.
  apply zsum_sub.
Qed.

Lemma filter_flat_map {A B} (P : B -> bool) (g : A -> list B) l :
  filter P (flat_map g l) = flat_map (fun a => filter P (g a)) l.
Proof. induction l as [|a l IH]; cbn [flat_map]; [reflexivity|]. now rewrite filter_app, IH. Qed.
Lemma flat_map_length_zsum {B} (g : nat -> list B) n :
  Z.of_nat (length (flat_map g (seq 0 n))) = zsum n (fun i => Z.of_nat (length (g i))).
Proof.
  induction n as [|n IH]; [reflexivity|]. rewrite seq_S, flat_map_app, app_length. cbn [flat_map Nat.add zsum].
  rewrite app_nil_r, Nat2Z.inj_add, IH. reflexivity.
Qed.

Lemma count_sum nx ny nz P : count nx ny nz P = zsum3 nx ny nz (fun c => Z.b2z (P c)).
Proof.
  unfold count, cells, zsum3. rewrite filter_flat_map, flat_map_length_zsum. apply zsum_ext. intros i _.
  rewrite filter_flat_map, flat_map_length_zsum. apply zsum_ext. intros j _.
  cbn beta.
  induction nz as [|n IH]; [reflexivity|]. rewrite seq_S, map_app, filter_app, app_length, Nat2Z.inj_add.
  cbn [zsum]. rewrite <- IH. cbn [Nat.add map filter]. f_equal. destruct (P (i, j, n)); reflexivity.
Qed.

Lemma zsum3_double nx ny nz f :
  zsum3 (2 * nx) (2 * ny) (2 * nz) f
  = zsum3 nx ny nz (fun c => let '(i, j, k) := c in
      let a := 2*i in let b := 2*j in let c := 2*k in let a' := 2*i+1 in let b' := 2*j+1 in let c' := 2*k+1 in
      (f (a, b, c) + f (a', b, c) + f (a, b', c) + f (a, b, c')
       + f (a', b', c) + f (a, b', c') + f (a', b, c') + f (a', b', c'))%Z).
Proof.
  unfold zsum3. rewrite zsum_double. apply zsum_ext. intros i _.
  rewrite !zsum_double, <- zsum_add. apply zsum_ext. intros j _.
  rewrite !zsum_double, <- !zsum_add. apply zsum_ext. intros k _. cbv zeta. ring.
Qed.

(** Signed sum over the complex. *)
Lemma euler_signed_sum nx ny nz A m :
  (forall c, in_box (2 * nx) (2 * ny) (2 * nz) c -> m c = complex_map nx ny nz A c) ->
  let n := count_marker m (2 * nx) (2 * ny) (2 * nz) in
  (n 1 - n 2 + n 3 - n 4)%Z
  = zsum3 (2 * nx) (2 * ny) (2 * nz)
      (fun c => if present nx ny nz A c then (if Nat.odd (dim c) then -1 else 1)%Z else 0%Z).
Proof.
  intros H n. unfold n, count_marker.
  assert (E : forall v, Z.of_nat (length (filter (fun c => Z.eqb (m c) v) (cells (seq 0 (2 * nx)) (2 * ny) (2 * nz))))
     = zsum3 (2 * nx) (2 * ny) (2 * nz) (fun c => Z.b2z (Z.eqb (m c) v))) by (intros v; apply count_sum).
  rewrite !E, <- zsum3_sub, <- zsum3_add, <- zsum3_sub. apply zsum3_ext. intros i j k Hi Hj Hk.
  rewrite H by (unfold in_box; auto). unfold complex_map.
  destruct (present nx ny nz A (i, j, k)); [|reflexivity].
  unfold dim. destruct (Nat.odd i), (Nat.odd j), (Nat.odd k); reflexivity.
Qed.

Lemma present_cells nx ny nz A i j k :
  let X := sx nx in let Y := sy ny in let Z' := sz nz in let p := (i, j, k) in
  present nx ny nz A (2*i, 2*j, 2*k) = A p
  /\ present nx ny nz A (2*i+1, 2*j, 2*k) = A p && A (X p)
  /\ present nx ny nz A (2*i, 2*j+1, 2*k) = A p && A (Y p)
  /\ present nx ny nz A (2*i, 2*j, 2*k+1) = A p && A (Z' p)
  /\ present nx ny nz A (2*i+1, 2*j+1, 2*k) = A p && A (X p) && A (Y p) && A (X (Y p))
  /\ present nx ny nz A (2*i, 2*j+1, 2*k+1) = A p && A (Y p) && A (Z' p) && A (Y (Z' p))
  /\ present nx ny nz A (2*i+1, 2*j, 2*k+1) = A p && A (Z' p) && A (X p) && A (Z' (X p))
  /\ present nx ny nz A (2*i+1, 2*j+1, 2*k+1)
     = A p && A (X p) && A (Y p) && A (X (Y p)) && A (Z' p) && A (X (Z' p)) && A (Y (Z' p)) && A (X (Y (Z' p))).
Proof.
  cbv zeta. unfold present, sx, sy, sz. rewrite !corners_even, !corners_odd. cbn [forallb].
  repeat split; rewrite ?andb_true_r;
    repeat match goal with |- context [A ?c] => destruct (A c) end; reflexivity.
Qed.

Lemma chi6_sum nx ny nz A :
  zsum3 (2 * nx) (2 * ny) (2 * nz)
      (fun c => if present nx ny nz A c then (if Nat.odd (dim c) then -1 else 1)%Z else 0%Z)
  = chi6 nx ny nz A.
Proof.
  rewrite zsum3_double. unfold chi6. rewrite !count_sum.
  rewrite <- !zsum3_add, <- !zsum3_sub, <- !zsum3_add, <- !zsum3_sub.
  apply zsum3_ext. intros i j k _ _ _. cbv zeta.
  destruct (present_cells nx ny nz A i j k) as (-> & -> & -> & -> & -> & -> & -> & ->).
  unfold dim. rewrite !Nat.odd_add, !odd_double. cbn [Nat.odd Nat.even negb xorb Nat.b2n Nat.add].
  set (p := (i, j, k)).
  repeat match goal with |- context [A ?c] => destruct (A c) end; reflexivity.
Qed.

Lemma euler6 nx ny nz A m :
  (forall c, in_box (2 * nx) (2 * ny) (2 * nz) c -> m c = complex_map nx ny nz A c) ->
  let n := count_marker m (2 * nx) (2 * ny) (2 * nz) in
  (n 1 - n 2 + n 3 - n 4)%Z = chi6 nx ny nz A.
Proof. intros H n. rewrite <- chi6_sum. now apply euler_signed_sum. Qed.

(** Duality between the two connectivities. *)
Lemma chi_dual nx ny nz A : chi6 nx ny nz (fun c => negb (A c)) = chi26 nx ny nz A.
Proof.
  unfold chi6, chi26. rewrite !count_sum.
  rewrite <- !zsum3_add, <- !zsum3_sub, <- !zsum3_add, <- !zsum3_sub.
  apply zsum3_ext. intros i j k _ _ _.
  repeat match goal with |- context [A ?c] => destruct (A c) end; reflexivity.
Qed.

(** Periodic translation. *)
Lemma zsum3_sx nx ny nz f : 0 < nx -> zsum3 nx ny nz (fun p => f (sx nx p)) = zsum3 nx ny nz f.
Proof. intros H. unfold zsum3, sx. apply (zsum_shift nx (fun i => zsum ny (fun j => zsum nz (fun k => f (i, j, k)))) H). Qed.
Lemma zsum3_sy nx ny nz f : 0 < ny -> zsum3 nx ny nz (fun p => f (sy ny p)) = zsum3 nx ny nz f.
Proof.
  intros H. unfold zsum3, sy. apply zsum_ext. intros i _.
  apply (zsum_shift ny (fun j => zsum nz (fun k => f (i, j, k))) H).
Qed.
Lemma zsum3_sz nx ny nz f : 0 < nz -> zsum3 nx ny nz (fun p => f (sz nz p)) = zsum3 nx ny nz f.
Proof.
  intros H. unfold zsum3, sz. apply zsum_ext. intros i _. apply zsum_ext. intros j _.
  apply (zsum_shift nz (fun k => f (i, j, k)) H).
Qed.

Lemma sxy nx ny p : sx nx (sy ny p) = sy ny (sx nx p).
Proof. destruct p as [[i j] k]. reflexivity. Qed.
Lemma sxz nx nz p : sx nx (sz nz p) = sz nz (sx nx p).
Proof. destruct p as [[i j] k]. reflexivity. Qed.
Lemma syz ny nz p : sy ny (sz nz p) = sz nz (sy ny p).
Proof. destruct p as [[i j] k]. reflexivity. Qed.

Lemma chi6_shift nx ny nz A (s : idx -> idx) :
  (forall f, zsum3 nx ny nz (fun p => f (s p)) = zsum3 nx ny nz f) ->
  (forall p, s (sx nx p) = sx nx (s p)) -> (forall p, s (sy ny p) = sy ny (s p)) ->
  (forall p, s (sz nz p) = sz nz (s p)) ->
  chi6 nx ny nz (fun p => A (s p)) = chi6 nx ny nz A.
Proof.
  intros HS Hx Hy Hz. unfold chi6. rewrite !count_sum.
  rewrite <- !zsum3_add, <- !zsum3_sub, <- !zsum3_add, <- !zsum3_sub.
  symmetry. match goal with |- zsum3 _ _ _ ?f = _ => transitivity (zsum3 nx ny nz (fun p => f (s p))); [exact (eq_sym (HS f))|] end.
  apply zsum3_ext. intros i j k _ _ _.
  rewrite ?Hx, ?Hy, ?Hz, ?Hx, ?Hy, ?Hz, ?Hx, ?Hy, ?Hz. reflexivity.
Qed.
