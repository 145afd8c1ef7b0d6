(** C79: which haloes a cell of the grid holds, in all three directions. *)
From Coq Require Import List Arith ZArith Reals Lra Lia.
From Verif Require Import HaloGridModel HaloGridProps.
Import ListNotations.
Local Open Scope R_scope.

(** Bin [i] of [n] equal bins from [a] to [b]; the last one includes its upper end. *)
Definition in_nth_bin (n : nat) (a b : R) (i : nat) (x : R) : Prop :=
  let e k := a + INR k * ((b - a) / INR n) in e i <= x /\ (x < e (S i) \/ (x = b /\ S i = n)).
(** [a] and [b] are the smallest and the largest coordinate. *)
Definition extremes (xs : list R) (a b : R) : Prop := In a xs /\ In b xs /\ forall x, In x xs -> a <= x <= b.

Lemma least_in : forall l, l <> [] -> In (least l) l.
Proof.
  induction l as [|v r IH]; intro N; [contradiction|]. destruct r as [|w r]; [left; reflexivity|].
  change (least (v :: w :: r)) with (Rmin v (least (w :: r))). unfold Rmin. destruct (Rle_dec v (least (w :: r))); [left; reflexivity|right; apply IH; discriminate].
Qed.
Lemma largest_in : forall l, l <> [] -> In (largest l) l.
Proof.
  induction l as [|v r IH]; intro N; [contradiction|]. destruct r as [|w r]; [left; reflexivity|].
  change (largest (v :: w :: r)) with (Rmax v (largest (w :: r))). unfold Rmax. destruct (Rle_dec v (largest (w :: r))); [right; apply IH; discriminate|left; reflexivity].
Qed.
Lemma extremes_range xs a b : extremes xs a b -> a < b -> low xs = a /\ high xs = b.
Proof.
  intros (A & B & H) L. assert (N : xs <> []) by (intros ->; destruct A).
  assert (E1 : least xs = a) by (apply Rle_antisym; [apply least_le, A|apply (H _ (least_in xs N))]).
  assert (E2 : largest xs = b) by (apply Rle_antisym; [apply (H _ (largest_in xs N))|apply largest_ge, B]).
  unfold low, high. rewrite E1, E2. destruct (Req_EM_T a b); [lra|]. split; reflexivity.
Qed.
Lemma index_iff n xs a b x i : (i < n)%nat -> extremes xs a b -> a < b -> In x xs -> (index n xs x = Z.of_nat i <-> in_nth_bin n a b i x).
Proof.
  intros I X L H. destruct (extremes_range xs a b X L) as [E1 E2]. assert (P : 0 < INR n) by (apply lt_0_INR; lia).
  pose proof (index_range n xs x ltac:(lia) H) as R. destruct (C79_bin n xs x ltac:(lia) H) as (B1 & B2 & B3). unfold edge in B2, B3. rewrite E1, E2 in B2, B3.
  set (w := (b - a) / INR n) in *. assert (W : 0 < w) by (apply Rdiv_lt_0_compat; lra). assert (NW : a + INR n * w = b) by (unfold w; field; lra).
  unfold in_nth_bin. fold w. split.
  - intro E. rewrite E, Nat2Z.id in B2, B3. split; [exact B2|]. destruct B3 as [B3|[B3 B4]]; [left; exact B3|right]. rewrite B4 in *. split; [lra|reflexivity].
  - intros [C1 C2]. set (k := Z.to_nat (index n xs x)) in *.
    assert (MO : forall p q, (p < q)%nat -> a + INR (S p) * w <= a + INR q * w) by (intros p q Q; apply Rplus_le_compat_l, Rmult_le_compat_r; [lra|apply le_INR; lia]).
    assert (NK : INR k * w < INR n * w) by (apply Rmult_lt_compat_r; [exact W|apply lt_INR; exact B1]).
    assert (NI : INR i * w < INR n * w) by (apply Rmult_lt_compat_r; [exact W|apply lt_INR; exact I]).
    assert (K : k = i).
    { destruct (Nat.lt_trichotomy k i) as [Q|[Q|Q]]; [|exact Q|].
      - exfalso. pose proof (MO k i Q). destruct B3 as [B3|[B3 B4]]; [lra|]. lia.
      - exfalso. pose proof (MO i k Q). destruct C2 as [C2|[C2 C3]]; [lra|]. lia. }
    rewrite <- K. unfold k. rewrite Z2Nat.id; [reflexivity|lia].
Qed.

(** The value of cell (i, j, k) is the sum over the haloes whose first coordinate is in bin i of n bins between the smallest and largest
    first coordinate of all haloes, whose second is in bin j and third in bin k of those of the second and third. *)
Theorem C79_cell : forall n hs i j k x0 x1 y0 y1 z0 z1 (inside : point * R -> bool), (i < n)%nat -> (j < n)%nat -> (k < n)%nat ->
  extremes (map (fun h : point * R => let '((x, _, _), _) := h in x) hs) x0 x1 -> x0 < x1 ->
  extremes (map (fun h : point * R => let '((_, y, _), _) := h in y) hs) y0 y1 -> y0 < y1 ->
  extremes (map (fun h : point * R => let '((_, _, z), _) := h in z) hs) z0 z1 -> z0 < z1 ->
  (forall x y z v, In ((x, y, z), v) hs -> (inside ((x, y, z), v) = true <-> in_nth_bin n x0 x1 i x /\ in_nth_bin n y0 y1 j y /\ in_nth_bin n z0 z1 k z)) ->
  value_on_grid n hs (Z.of_nat i, Z.of_nat j, Z.of_nat k) = total (map snd (filter inside hs)).
Proof.
  intros n hs i j k x0 x1 y0 y1 z0 z1 inside Hi Hj Hk X LX Y LY Z LZ D. unfold value_on_grid. f_equal. f_equal.
  assert (EX : map px (map fst hs) = map (fun h : point * R => let '((x, _, _), _) := h in x) hs) by (rewrite map_map; apply map_ext; intros [[[x y] z] v]; reflexivity).
  assert (EY : map py (map fst hs) = map (fun h : point * R => let '((_, y, _), _) := h in y) hs) by (rewrite map_map; apply map_ext; intros [[[x y] z] v]; reflexivity).
  assert (EZ : map pz (map fst hs) = map (fun h : point * R => let '((_, _, z), _) := h in z) hs) by (rewrite map_map; apply map_ext; intros [[[x y] z] v]; reflexivity).
  apply filter_ext_in. intros [[[x y] z] v] I. specialize (D x y z v I).
  pose proof (index_iff n _ x0 x1 x i Hi X LX (in_map (fun h : point * R => let '((x, _, _), _) := h in x) hs _ I)) as IX.
  pose proof (index_iff n _ y0 y1 y j Hj Y LY (in_map (fun h : point * R => let '((_, y, _), _) := h in y) hs _ I)) as IY.
  pose proof (index_iff n _ z0 z1 z k Hk Z LZ (in_map (fun h : point * R => let '((_, _, z), _) := h in z) hs _ I)) as IZ.
  rewrite <- EX in IX. rewrite <- EY in IY. rewrite <- EZ in IZ.
  apply Bool.eq_true_iff_eq. rewrite cell_eqb_spec, D. unfold cell_of. cbn [fst px py pz snd].
  change (px (x, y, z)) with x. change (py (x, y, z)) with y. change (pz (x, y, z)) with z.
  rewrite <- IX, <- IY, <- IZ. split.
  - intro E. assert (E1 : (fst (fst (index n (map px (map fst hs)) x, index n (map py (map fst hs)) y, index n (map pz (map fst hs)) z)) = Z.of_nat i)) by (rewrite E; reflexivity).
    assert (E2 : (snd (fst (index n (map px (map fst hs)) x, index n (map py (map fst hs)) y, index n (map pz (map fst hs)) z)) = Z.of_nat j)) by (rewrite E; reflexivity).
    assert (E3 : (snd (index n (map px (map fst hs)) x, index n (map py (map fst hs)) y, index n (map pz (map fst hs)) z) = Z.of_nat k)) by (rewrite E; reflexivity).
    cbn [fst snd] in E1, E2, E3. auto.
  - intros (-> & -> & ->). reflexivity.
Qed.
Print Assumptions C79_cell.

(** Three haloes in a grid of 2: the one at (1, 1, 4) shares no cell with the others; its cell is (0, 1, 1). *)
Example C79_cell_sat : value_on_grid 2 [((0, 0, 0), 1); ((1, 1, 4), 5); ((4, 1, 2), 7)] (0, 1, 1)%Z = 5.
Proof.
  change (0, 1, 1)%Z with (Z.of_nat 0, Z.of_nat 1, Z.of_nat 1).
  rewrite (C79_cell 2 _ 0 1 1 0 4 0 1 0 4 (fun h => if Req_EM_T (snd h) 5 then true else false)); try lia; try lra.
  - cbn [filter snd]. destruct (Req_EM_T 1 5); [lra|]. destruct (Req_EM_T 5 5); [|lra]. destruct (Req_EM_T 7 5); [lra|]. cbn. lra.
  - unfold extremes. cbn. repeat split; auto; intros; lra.
  - unfold extremes. cbn. repeat split; auto; intros; lra.
  - unfold extremes. cbn. repeat split; auto; intros; lra.
  - intros x y z v I. unfold in_nth_bin. cbn [INR snd]. destruct I as [I|[I|[I|[]]]];
      (assert (EX : x = fst (fst (fst (x, y, z, v)))) by reflexivity; assert (EY : y = snd (fst (fst (x, y, z, v)))) by reflexivity; assert (EZ : z = snd (fst (x, y, z, v))) by reflexivity; assert (EV : v = snd (x, y, z, v)) by reflexivity;
       rewrite <- I in EX, EY, EZ, EV; cbn [fst snd] in EX, EY, EZ, EV; clear I; subst); (destruct (Req_EM_T _ 5); [|]); split; intro K; try discriminate; try lra; try reflexivity.
    + repeat split; try lra; try (left; lra); try (right; split; [lra|lia]).
    + destruct K as ((A & [B|B]) & _); [exfalso; lra|]. destruct B as [_ B]. discriminate.
Qed.
(** Positions in centimetres are those in Mpc times 3.0857e24, and grid units are positions in Mpc over the size of a cell. *)
Theorem C79_units : forall n box s ps, 
  let mpc := 3085677581491367 * 10 ^ 9 in
  let place := fun p : point => let '(x, y, z) := p in (x / (box / INR n), y / (box / INR n), z / (box / INR n)) in
  let cm := fun p : point => let '(x, y, z) := p in (x * mpc, y * mpc, z * mpc) in
  (0 < n)%nat -> 0 < box ->
  step n box s (SetPos ps (Some Mpc)) = Some {| pos_grid := Some (map place ps); mass_Msun := mass_Msun s |} /\
  step n box s (SetPos (map cm ps) (Some Cm)) = step n box s (SetPos ps (Some Mpc)) /\
  step n box s (SetPos ps (Some Grid)) = Some {| pos_grid := Some ps; mass_Msun := mass_Msun s |} /\
  step n box s (SetPos ps None) = None.
Proof.
  intros n box s ps mpc place cm Hn Hb. assert (P : 0 < INR n) by (apply lt_0_INR; exact Hn). assert (M : 3.085677581491367e+24 = mpc) by (unfold mpc; lra). assert (M0 : mpc <> 0) by (unfold mpc; lra). cbn [step]. rewrite M. split; [|split; [|split; reflexivity]].
  - do 2 f_equal. f_equal. apply map_ext. intros [[x y] z]. unfold pos_to_grid, place. cbn [px py pz fst snd]. f_equal; [f_equal|]; field; lra.
  - do 2 f_equal. rewrite map_map. f_equal. apply map_ext. intros [[x y] z]. unfold pos_to_grid, cm. cbn [px py pz fst snd]. f_equal; [f_equal|]; field; split; lra.
Qed.
Print Assumptions C79_units.
