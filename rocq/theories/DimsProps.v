(** More of C61: what the functions do with the forms of [box_dims]. *)
From Coq Require Import List Arith Reals Lra Lia.
From Verif Require Import KGridModel DimsModel.
Import ListNotations.
Local Open Scope R_scope.

(** The keyword [boxsize] replaces [box_dims] altogether. *)
Theorem C61_boxsize : forall LB b a a' shape, b <> DNone ->
  volume_factor LB (Some b) a shape = volume_factor LB (Some b) a' shape
  /\ volume_factor LB (Some b) a shape = volume_factor LB None b shape
  /\ volume_factor LB (Some DNone) a shape = volume_factor LB None a shape.
Proof. intros LB b a a' shape H. destruct b; try congruence; repeat split; reflexivity. Qed.
Print Assumptions C61_boxsize.

Lemma prod_pos l : (forall x, In x l -> 0 < x) -> 0 < prod l.
Proof. induction l as [|x l IH]; intros H; cbn; [lra|]. apply Rmult_lt_0_compat; [apply H; now left|apply IH; intros; apply H; now right]. Qed.
Lemma prod_repeat L n : prod (repeat L n) = L ^ n.
Proof. induction n as [|n IH]; [reflexivity|]. change (L * prod (repeat L n) = L * L ^ n). now rewrite IH. Qed.

(** The factor on the squared transform is the volume over the squared number of cells, where
    the volume is the product of whatever sides are listed: too few or too many are not
    noticed. *)
Theorem C61_volume : forall LB shape, (forall n, In n shape -> (0 < n)%nat) ->
  (forall l, (forall x, In x l -> 0 < x) -> volume_factor LB None (DList l) shape = Some (prod l / prod (map INR shape) ^ 2)) /\
  (forall L, 0 < L -> volume_factor LB None (DScalar L) shape = Some (L ^ length shape / prod (map INR shape) ^ 2)) /\
  (0 < LB -> volume_factor LB None DNone shape = Some (LB ^ length shape / prod (map INR shape) ^ 2)).
Proof.
  intros LB shape Hs.
  assert (Ps : 0 < prod (map INR shape)).
  { apply prod_pos. intros x Hx. apply in_map_iff in Hx as (n & <- & Hn). apply lt_0_INR, Hs, Hn. }
  assert (G : forall v, 0 < v -> (v / prod (map INR shape)) ^ 2 / v = v / prod (map INR shape) ^ 2) by (intros v Hv; field; lra).
  split; [|split].
  - intros l Hl. unfold volume_factor. cbn [chosen get_dims]. now rewrite G by now apply prod_pos.
  - intros L HL. unfold volume_factor. cbn [chosen get_dims]. rewrite prod_repeat. now rewrite G by now apply pow_lt.
  - intros HL. unfold volume_factor. cbn [chosen get_dims]. rewrite prod_repeat. now rewrite G by now apply pow_lt.
Qed.
Print Assumptions C61_volume.
Example C61_volume_sat : exists (shape : list nat), (forall n, In n shape -> (0 < n)%nat).
Proof. exists [3; 4; 5]%nat. intros n H. cbn in H. lia. Qed.

(** The wave numbers exist, for one to three axes, iff there is a side for every axis; each
    component uses the side of its own axis, and further sides are ignored. *)
Theorem C61_wavenumbers : forall LB l shape cell, (1 <= length shape <= 3)%nat -> length cell = length shape ->
  (k_components LB (DList l) shape cell = None <-> (length l < length shape)%nat) /\
  (forall k, k_components LB (DList l) shape cell = Some k ->
     length k = length shape /\ k_components LB (DList (firstn (length shape) l)) shape cell = Some k /\
     forall i n x L, nth_error shape i = Some n -> nth_error cell i = Some x -> nth_error l i = Some L ->
       nth_error k i = Some (if (length shape =? 3)%nat then get_k_3d n L x else get_k_1d n L x)).
Proof.
  intros LB l shape cell Hs Hc. unfold k_components. cbn [get_dims].
  destruct shape as [|n1 [|n2 [|n3 [|n4 shape]]]]; cbn [length] in *; try lia;
    destruct cell as [|x1 [|x2 [|x3 [|x4 cell]]]]; cbn [length] in *; try lia;
    destruct l as [|L1 [|L2 [|L3 l]]]; cbn [length firstn];
    (split; [split; [intros K; try discriminate; lia|intros K; try reflexivity; lia]|]);
    intros k E; try discriminate; injection E as <-; (split; [reflexivity|]); (split; [reflexivity|]);
    intros [|[|[|i]]] n x L A1 A2 A3; cbn in A1, A2, A3; try discriminate; try (destruct i; discriminate);
    injection A1 as <-; injection A2 as <-; injection A3 as <-; reflexivity.
Qed.
Print Assumptions C61_wavenumbers.
Example C61_wavenumbers_sat : exists (shape : list nat) (cell : list nat), (1 <= length shape <= 3)%nat /\ length cell = length shape.
Proof. exists [4; 5; 6]%nat, [1; 2; 3]%nat. cbn; lia. Qed.

(** A number means the same as a list of that number for every axis, everywhere. *)
Theorem C61_number : forall LB L shape cell,
  k_components LB (DScalar L) shape cell = k_components LB (DList (repeat L (length shape))) shape cell /\
  k_components LB DNone shape cell = k_components LB (DScalar LB) shape cell /\
  volume_factor LB None (DScalar L) shape = volume_factor LB None (DList (repeat L (length shape))) shape.
Proof. intros. repeat split; reflexivity. Qed.
Print Assumptions C61_number.

Example C61_uses_sat : volume_factor 100 None (DList [2; 3]) [2; 2; 2]%nat = Some (6 / 64)
  /\ k_components 100 (DList [2; 3]) [2; 2; 2]%nat [0; 0; 0]%nat = None
  /\ volume_factor 100 (Some (DScalar 2)) (DArray [1; 2]) [2; 2]%nat = Some (4 / 16).
Proof. unfold volume_factor. cbn. split; [f_equal; lra|]. split; [reflexivity|f_equal; lra]. Qed.
