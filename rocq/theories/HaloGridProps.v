(** C79: haloes on a grid. *)
From Coq Require Import List ZArith Reals Lra Lia Bool.
From Verif Require Import HaloGridModel.
Import ListNotations.
Local Open Scope R_scope.

(** * Specification *)
(** The cell of a box of side [box] divided into [n] cells that contains coordinate x (the far face belongs to the last cell). *)
Definition cell_in_box (n : nat) (box x : R) (i : Z) : Prop :=
  IZR i * (box / INR n) <= x /\ (x < (IZR i + 1) * (box / INR n) \/ (x = box /\ i = (Z.of_nat n - 1)%Z)).
Definition masses (haloes : list (point * R)) : R := total (map snd haloes).

Lemma least_le : forall l v, In v l -> least l <= v.
Proof. intros l. induction l as [|w r IH]; intros v H; [destruct H|]. destruct r as [|u r]; [destruct H as [-> |[]]; cbn; lra|]. change (least (w :: u :: r)) with (Rmin w (least (u :: r))). destruct H as [-> |H]; [apply Rmin_l|]. eapply Rle_trans; [apply Rmin_r|]. apply IH, H. Qed.
Lemma largest_ge : forall l v, In v l -> v <= largest l.
Proof. intros l. induction l as [|w r IH]; intros v H; [destruct H|]. destruct r as [|u r]; [destruct H as [-> |[]]; cbn; lra|]. change (largest (w :: u :: r)) with (Rmax w (largest (u :: r))). destruct H as [-> |H]; [apply Rmax_l|]. eapply Rle_trans; [|apply Rmax_r]. apply IH, H. Qed.
Lemma Int_part_unique : forall x z, IZR z <= x < IZR z + 1 -> Int_part x = z.
Proof. intros x z [A B]. destruct (base_Int_part x) as [C D]. assert (Int_part x < z + 1)%Z by (apply lt_IZR; rewrite plus_IZR; lra). assert (z < Int_part x + 1)%Z by (apply lt_IZR; rewrite plus_IZR; lra). lia. Qed.
Lemma low_high : forall xs x, In x xs -> low xs <= x <= high xs /\ low xs < high xs.
Proof. intros xs x H. pose proof (least_le xs x H). pose proof (largest_ge xs x H). unfold low, high. destruct (Req_EM_T (least xs) (largest xs)); lra. Qed.
Lemma index_range : forall n xs x, (0 < n)%nat -> In x xs -> (0 <= index n xs x < Z.of_nat n)%Z.
Proof.
  intros n xs x Hn H. destruct (low_high xs x H) as [[A B] C]. unfold index. destruct (Req_EM_T x (high xs)); [lia|]. assert (P : 0 < INR n) by (apply lt_0_INR; exact Hn).
  set (w := (high xs - low xs) / INR n). assert (W : 0 < w) by (apply Rdiv_lt_0_compat; lra). set (q := (x - low xs) / w). assert (Q : 0 <= q < INR n).
  { unfold q. split; [apply Rmult_le_pos; [lra|left; apply Rinv_0_lt_compat, W]|]. apply (Rmult_lt_reg_r w); [exact W|]. unfold Rdiv. rewrite Rmult_assoc, Rinv_l, Rmult_1_r by lra. unfold w. replace (INR n * ((high xs - low xs) / INR n)) with (high xs - low xs) by (field; lra). lra. }
  destruct (base_Int_part q) as [E F]. rewrite INR_IZR_INZ in Q. split; [assert (-1 < Int_part q)%Z; [apply lt_IZR; lra|lia]|]. apply lt_IZR. lra.
Qed.
(** The bin contains the coordinate. *)
Theorem C79_bin : forall n xs x, (0 < n)%nat -> In x xs -> let i := Z.to_nat (index n xs x) in
  (i < n)%nat /\ edge n xs i <= x /\ (x < edge n xs (S i) \/ (x = edge n xs (S i) /\ S i = n)).
Proof.
  intros n xs x Hn H i. pose proof (index_range n xs x Hn H) as R. assert (P : 0 < INR n) by (apply lt_0_INR; exact Hn). destruct (low_high xs x H) as [[A B] C].
  set (w := (high xs - low xs) / INR n). assert (W : 0 < w) by (apply Rdiv_lt_0_compat; lra). split; [unfold i; lia|]. unfold edge. fold w.
  assert (NW : low xs + INR n * w = high xs) by (unfold w; field; lra). unfold i. unfold index in R |- *. change ((high xs - low xs) / INR n) with w in R |- *. destruct (Req_EM_T x (high xs)) as [E|E].
  - assert (Q : S (Z.to_nat (Z.of_nat n - 1)) = n) by lia. rewrite Q, NW. split; [|right; split; [exact E|reflexivity]]. rewrite <- E in *. assert (INR (Z.to_nat (Z.of_nat n - 1)) <= INR n) by (apply le_INR; lia). nra.
  - set (q := (x - low xs) / w) in *. assert (X : x = low xs + q * w) by (unfold q; field; lra). destruct (base_Int_part q) as [F G]. rewrite S_INR, INR_IZR_INZ, Z2Nat.id by lia. rewrite X. split; [|left]; nra.
Qed.
Print Assumptions C79_bin.
Example C79_bin_sat : exists (n : nat) (xs : list R) (x : R), (0 < n)%nat /\ In x xs.
Proof. exists 4%nat, [10; 20; 30], 20. split; [lia|]. cbn; tauto. Qed.

(** * Mass conservation *)
Lemma zseq_in : forall n v, In v (zseq n) <-> (0 <= v < Z.of_nat n)%Z.
Proof. intros n v. unfold zseq. rewrite in_map_iff. split; [intros (m & <- & H); apply in_seq in H; lia|]. intro H. exists (Z.to_nat v). split; [lia|]. apply in_seq. lia. Qed.
Lemma cells_in : forall n i j k, In (i, j, k) (cells n) <-> ((0 <= i < Z.of_nat n) /\ (0 <= j < Z.of_nat n) /\ (0 <= k < Z.of_nat n))%Z.
Proof. intros n i j k. unfold cells. rewrite !in_prod_iff, !zseq_in. tauto. Qed.
Lemma cell_eqb_spec : forall a b, cell_eqb a b = true <-> a = b.
Proof. intros [[i j] k] [[i' j'] k']. unfold cell_eqb. rewrite !andb_true_iff, !Z.eqb_eq. split; [intros [[-> ->] ->]; reflexivity|intro E; injection E; auto]. Qed.
Lemma NoDup_app_intro : forall {T} (l1 l2 : list T), NoDup l1 -> NoDup l2 -> (forall x, In x l1 -> ~ In x l2) -> NoDup (l1 ++ l2).
Proof. intros T l1 l2 H1 H2 D. induction H1 as [|x l N H IH]; [exact H2|]. cbn. constructor; [|apply IH; intros y Hy; apply D; right; exact Hy]. intro I. apply in_app_or in I. destruct I as [I|I]; [contradiction|]. apply (D x); [left; reflexivity|exact I]. Qed.
Lemma NoDup_map_in : forall {A B} (f : A -> B) l, (forall a b, f a = f b -> a = b) -> NoDup l -> NoDup (map f l).
Proof. intros A B f l H N. induction N as [|x l N1 N IH]; [constructor|]. cbn. constructor; [|exact IH]. intro I. apply in_map_iff in I. destruct I as (y & E & I). apply H in E. subst. contradiction. Qed.
Lemma NoDup_prod : forall {A B} (l : list A) (m : list B), NoDup l -> NoDup m -> NoDup (list_prod l m).
Proof.
  intros A B l m Hl Hm. induction Hl as [|x l N Hl IH]; [constructor|]. cbn [list_prod]. apply NoDup_app_intro; [apply NoDup_map_in; [intros a b E; congruence|exact Hm]|exact IH|].
  intros [a b] I1 I2. apply in_map_iff in I1. destruct I1 as (u & E & _). injection E as <- <-. apply in_prod_iff in I2. apply N, I2.
Qed.
Lemma cells_NoDup : forall n, NoDup (cells n).
Proof. intro n. unfold cells. assert (Z1 : NoDup (zseq n)) by (unfold zseq; apply NoDup_map_in; [intros a b; lia|apply seq_NoDup]). apply NoDup_prod; [apply NoDup_prod|]; exact Z1. Qed.
Lemma total_delta : forall (l : list cell) c v, NoDup l -> In c l -> total (map (fun d => if cell_eqb c d then v else 0) l) = v.
Proof.
  intros l c v N I. induction N as [|d l N1 N IH]; [destruct I|]. cbn [map total fold_right]. destruct I as [-> |I].
  - rewrite (proj2 (cell_eqb_spec c c) eq_refl). assert (Z0 : fold_right Rplus 0 (map (fun d => if cell_eqb c d then v else 0) l) = 0). { clear - N1. induction l as [|d l IH]; [reflexivity|]. cbn. destruct (cell_eqb c d) eqn:E; [apply cell_eqb_spec in E; subst; exfalso; apply N1; left; reflexivity|]. rewrite IH; [ring|intro; apply N1; right; assumption]. } rewrite Z0. ring.
  - destruct (cell_eqb c d) eqn:E; [apply cell_eqb_spec in E; subst; contradiction|]. specialize (IH I). unfold total in IH. rewrite IH. ring.
Qed.
Lemma total_plus : forall {A} (l : list A) f g, total (map (fun x => f x + g x) l) = total (map f l) + total (map g l).
Proof. intros A l f g. induction l as [|x r IH]; cbn [map total fold_right] in *; [ring|]. unfold total in IH. rewrite IH. ring. Qed.
Lemma grid_total : forall n (key : point -> cell) hs, (forall h, In h hs -> In (key (fst h)) (cells n)) ->
  total (map (fun c => total (map snd (filter (fun h : point * R => cell_eqb (key (fst h)) c) hs))) (cells n)) = masses hs.
Proof.
  intros n key hs H. unfold masses. induction hs as [|[p m] hs IH].
  - cbn [filter map total fold_right]. generalize (cells n). intro l. induction l as [|c l IHl]; [reflexivity|]. cbn [map fold_right total]. unfold total in IHl. rewrite IHl. ring.
  - change (total (map snd ((p, m) :: hs))) with (m + total (map snd hs)). rewrite <- (IH (fun h Hh => H h (or_intror Hh))). pose proof (total_delta (cells n) (key p) m (cells_NoDup n) (H (p, m) (or_introl eq_refl))) as TD.
    match goal with |- _ = m + ?X => transitivity (total (map (fun d => if cell_eqb (key p) d then m else 0) (cells n)) + X); [|rewrite TD; reflexivity] end. rewrite <- (total_plus (cells n)). f_equal. apply map_ext. intro c. cbn [filter fst]. destruct (cell_eqb (key p) c); cbn [map total fold_right snd]; unfold total; ring.
Qed.
(** The grid holds exactly the mass of the haloes, whatever the box size. *)
Theorem C79_conserved : forall hs box n, (0 < n)%nat -> total (map (halo_list_to_grid hs box n) (cells n)) = masses hs.
Proof.
  intros hs box n Hn. unfold halo_list_to_grid, value_on_grid. set (gs := map (fun h => (pos_to_grid n box (fst h), snd h)) hs).
  rewrite (grid_total n (cell_of n (map fst gs)) gs).
  - unfold masses, gs. rewrite map_map. reflexivity.
  - intros h I. unfold cell_of. apply cells_in. split; [|split]; apply index_range; try exact Hn; apply in_map, in_map, I.
Qed.
Print Assumptions C79_conserved.
Example C79_conserved_sat : exists (n : nat), (0 < n)%nat.
Proof. exists 4%nat. repeat split; first [lra | lia | reflexivity | discriminate | congruence | auto]. Qed.
(** The occupied cells carry all of it when masses are not negative. *)
Lemma total_nonneg : forall l, (forall v, In v l -> 0 <= v) -> 0 <= total l.
Proof. intros l H. induction l as [|v r IH]; cbn [total fold_right]; [lra|]. specialize (IH (fun w Hw => H w (or_intror Hw))). specialize (H v (or_introl eq_refl)). unfold total in IH. lra. Qed.
Theorem C79_occupied : forall hs n, (0 < n)%nat -> (forall h, In h hs -> 0 <= snd h) ->
  let g := value_on_grid n hs in total (map snd (occupied n g)) = masses hs /\ (forall c v, In (c, v) (occupied n g) <-> In c (cells n) /\ v = g c /\ 0 < v) /\ NoDup (map fst (occupied n g)).
Proof.
  intros hs n Hn P g. assert (G : forall c, 0 <= g c). { intro c. unfold g, value_on_grid. apply total_nonneg. intros v Hv. apply in_map_iff in Hv. destruct Hv as (h & <- & I). apply filter_In in I. apply P, I. }
  split; [|split].
  - rewrite <- (grid_total n (cell_of n (map fst hs)) hs).
    + change (fun c => total (map snd (filter (fun h : point * R => cell_eqb (cell_of n (map fst hs) (fst h)) c) hs))) with g. unfold occupied. rewrite map_map. cbn [snd]. induction (cells n) as [|c l IH]; [reflexivity|]. cbn [filter map total fold_right]. destruct (Rlt_dec 0 (g c)); cbn [map total fold_right]; unfold total in *; rewrite IH; [reflexivity|]. specialize (G c). lra.
    + intros h I. unfold cell_of. apply cells_in. split; [|split]; apply index_range; try exact Hn; apply in_map, in_map, I.
  - intros c v. unfold occupied. rewrite in_map_iff. split.
    + intros (d & E & I). injection E as -> <-. apply filter_In in I. destruct I as [I L]. destruct (Rlt_dec 0 (g c)); [auto|discriminate].
    + intros (I & -> & L). exists c. split; [reflexivity|]. apply filter_In. split; [exact I|]. destruct (Rlt_dec 0 (g c)); [reflexivity|contradiction].
  - unfold occupied. rewrite map_map. cbn [fst]. rewrite map_id. apply NoDup_filter, cells_NoDup.
Qed.
Print Assumptions C79_occupied.
Example C79_occupied_sat : exists (hs : list (point * R)) (n : nat), (0 < n)%nat /\ (forall h, In h hs -> 0 <= snd h).
Proof. exists [((1, 2, 3), 4); ((0, 2, 5), 1)], 4%nat. split; [lia|]. intros h [<-|[<-|[]]]; cbn; lra. Qed.

(** * The box *)
Lemma least_affine : forall a b l, 0 < a -> l <> [] -> least (map (fun x => a * x + b) l) = a * least l + b.
Proof.
  intros a b l Ha. induction l as [|w r IH]; intro H; [congruence|]. destruct r as [|u r]; [reflexivity|]. change (least (map (fun x => a * x + b) (w :: u :: r))) with (Rmin (a * w + b) (least (map (fun x => a * x + b) (u :: r)))). rewrite IH by discriminate. change (least (w :: u :: r)) with (Rmin w (least (u :: r))).
  unfold Rmin. destruct (Rle_dec (a * w + b) (a * least (u :: r) + b)); destruct (Rle_dec w (least (u :: r))); try reflexivity; exfalso; nra.
Qed.
Lemma largest_affine : forall a b l, 0 < a -> l <> [] -> largest (map (fun x => a * x + b) l) = a * largest l + b.
Proof.
  intros a b l Ha. induction l as [|w r IH]; intro H; [congruence|]. destruct r as [|u r]; [reflexivity|]. change (largest (map (fun x => a * x + b) (w :: u :: r))) with (Rmax (a * w + b) (largest (map (fun x => a * x + b) (u :: r)))). rewrite IH by discriminate. change (largest (w :: u :: r)) with (Rmax w (largest (u :: r))).
  unfold Rmax. destruct (Rle_dec (a * w + b) (a * largest (u :: r) + b)); destruct (Rle_dec w (largest (u :: r))); try reflexivity; exfalso; nra.
Qed.
Lemma index_affine : forall n a b xs x, (0 < n)%nat -> 0 < a -> In x xs -> index n (map (fun x => a * x + b) xs) (a * x + b) = index n xs x.
Proof.
  intros n a b xs x Hn Ha I. assert (NE : xs <> []) by (intro E; rewrite E in I; destruct I). assert (P : 0 < INR n) by (apply lt_0_INR; exact Hn).
  pose proof (least_le xs x I) as L1. pose proof (largest_ge xs x I) as L2. unfold index, low, high. rewrite least_affine, largest_affine by assumption.
  destruct (Req_EM_T (least xs) (largest xs)) as [E|E]; destruct (Req_EM_T (a * least xs + b) (a * largest xs + b)) as [E'|E'].
  - rewrite <- E in *. assert (x = least xs) by lra. subst x. destruct (Req_EM_T (a * least xs + b) (a * least xs + b + 1 / 2)); [lra|]. destruct (Req_EM_T (least xs) (least xs + 1 / 2)); [lra|]. f_equal. field. split; lra.
  - rewrite E in E'. congruence.
  - exfalso. apply E. nra.
  - assert (D : largest xs - least xs <> 0) by lra. destruct (Req_EM_T (a * x + b) (a * largest xs + b)) as [F|F]; destruct (Req_EM_T x (largest xs)) as [F'|F']; try reflexivity; [exfalso; apply F'; nra|subst; congruence|]. f_equal. field. repeat split; try lra.
Qed.
(** Neither the box size nor the origin of the coordinates matters: only the extent of the halo positions does. *)
Theorem C79_box_ignored : forall hs box box' s n c, (0 < n)%nat -> 0 < box -> 0 < box' ->
  halo_list_to_grid (map (fun h => ((px (fst h) + px s, py (fst h) + py s, pz (fst h) + pz s), snd h)) hs) box n c = halo_list_to_grid hs box' n c.
Proof.
  intros hs box box' s n c Hn Hb Hb'. assert (P : 0 < INR n) by (apply lt_0_INR; exact Hn). unfold halo_list_to_grid, value_on_grid. rewrite !map_map. cbn [fst snd].
  assert (K : forall b t (proj : point -> R) h, 0 < b -> In h hs -> index n (map (fun h : point * R => (proj (fst h) + t) * INR n / b) hs) ((proj (fst h) + t) * INR n / b) = index n (map (fun h : point * R => proj (fst h)) hs) (proj (fst h))).
  { intros b t proj h B I. rewrite <- (index_affine n (INR n / b) (t * INR n / b) (map (fun h : point * R => proj (fst h)) hs) (proj (fst h)) Hn (Rdiv_lt_0_compat _ _ P B) (in_map (fun h : point * R => proj (fst h)) hs h I)). rewrite map_map. f_equal; [apply map_ext; intro|]; field; lra. }
  assert (K0 : forall b (proj : point -> R) h, 0 < b -> In h hs -> index n (map (fun h : point * R => proj (fst h) * INR n / b) hs) (proj (fst h) * INR n / b) = index n (map (fun h : point * R => proj (fst h)) hs) (proj (fst h))).
  { intros b proj h B I. rewrite <- (K b 0 proj h B I). f_equal; [apply map_ext; intro|]; f_equal; f_equal; ring. }
  assert (F : forall {A B} (f : A -> B) (p q : B -> bool) (g : B -> R) (f' : A -> B) (q' : B -> bool) l, (forall a, In a l -> p (f a) = q' (f' a)) -> (forall a, g (f a) = g (f' a)) -> map g (filter p (map f l)) = map g (filter q' (map f' l))).
  { clear. intros A B f p q g f' q' l H G. induction l as [|a l IH]; [reflexivity|]. cbn [map filter]. rewrite (H a (or_introl eq_refl)). specialize (IH (fun b Hb => H b (or_intror Hb))). destruct (q' (f' a)); cbn [map]; rewrite IH; [rewrite G|]; reflexivity. }
  f_equal. apply F; [exact (fun _ => true)| |reflexivity]. intros h I. cbn [fst]. f_equal. unfold cell_of. rewrite !map_map. cbn [fst]. unfold pos_to_grid, px, py, pz. cbn [fst snd].
  f_equal; [f_equal|].
  - etransitivity; [exact (K box (px s) px h Hb I)|symmetry; exact (K0 box' px h Hb' I)].
  - etransitivity; [exact (K box (py s) py h Hb I)|symmetry; exact (K0 box' py h Hb' I)].
  - etransitivity; [exact (K box (pz s) pz h Hb I)|symmetry; exact (K0 box' pz h Hb' I)].
Qed.
Print Assumptions C79_box_ignored.
Example C79_box_ignored_sat : exists (box : R) (box' : R) (n : nat), (0 < n)%nat /\ 0 < box /\ 0 < box'.
Proof. exists 100, 200, 4%nat. repeat split; first [lra | lia | reflexivity | discriminate | congruence | auto]. Qed.
(** If the haloes reach both ends of the box along an axis, the bins along it are the cells of the box... *)
Theorem C79_spanning : forall n box xs x, (0 < n)%nat -> 0 < box -> In x xs -> least xs = 0 -> largest xs = box -> cell_in_box n box x (index n xs x).
Proof.
  intros n box xs x Hn Hb I L H. pose proof (index_range n xs x Hn I) as R. destruct (C79_bin n xs x Hn I) as (A & B & C). set (i := index n xs x) in *.
  assert (E : forall k, edge n xs k = INR k * (box / INR n)). { intro k. unfold edge, low, high. destruct (Req_EM_T (least xs) (largest xs)); [lra|]. rewrite L, H. rewrite Rminus_0_r, Rplus_0_l. reflexivity. }
  assert (V : INR (Z.to_nat i) = IZR i) by (rewrite INR_IZR_INZ, Z2Nat.id by lia; reflexivity). rewrite !E, S_INR, V in *. unfold cell_in_box. split; [exact B|]. destruct C as [C|[C D]]; [left; exact C|right]. split; [|lia]. rewrite C. rewrite <- D, S_INR, V. field. rewrite <- V, <- S_INR. pose proof (pos_INR (Z.to_nat i)). rewrite S_INR. lra.
Qed.
Print Assumptions C79_spanning.
Example C79_spanning_sat : least [0; 3; 10] = 0 /\ largest [0; 3; 10] = 10.
Proof. cbn. unfold Rmin, Rmax. destruct (Rle_dec 3 10); [|lra]. split; [destruct (Rle_dec 0 3); lra|destruct (Rle_dec 0 10); lra]. Qed.
(** ... otherwise they are not: two haloes in the first cell of a box of 100 end up in different cells. *)
Theorem C79_box_refuted : exists hs : list (point * R), (forall h, In h hs -> cell_in_box 2 100 (px (fst h)) 0 /\ cell_in_box 2 100 (py (fst h)) 0 /\ cell_in_box 2 100 (pz (fst h)) 0) /\
  halo_list_to_grid hs 100 2 (0, 0, 0)%Z = 1 /\ halo_list_to_grid hs 100 2 (1, 1, 1)%Z = 1 /\ masses hs = 2.
Proof.
  exists [((1, 1, 1), 1); ((2, 2, 2), 1)].
  assert (N2 : INR 2 = 2) by (cbn; ring). split.
  - intros h H. unfold cell_in_box. rewrite N2. destruct H as [<- |[<- |[]]]; cbn [px py pz fst snd]; repeat split; (lra || (left; lra)).
  - set (u := 1 * INR 2 / 100). set (v := 2 * INR 2 / 100). assert (U : u = 1 / 50) by (unfold u; rewrite N2; lra). assert (V : v = 1 / 25) by (unfold v; rewrite N2; lra).
    assert (L : least [u; v] = 1 / 50) by (cbn [least]; rewrite U, V; unfold Rmin; destruct (Rle_dec (1 / 50) (1 / 25)); lra). assert (H : largest [u; v] = 1 / 25) by (cbn [largest]; rewrite U, V; unfold Rmax; destruct (Rle_dec (1 / 50) (1 / 25)); lra).
    assert (I1 : index 2 [u; v] u = 0%Z). { unfold index, low, high. rewrite L, H. destruct (Req_EM_T (1 / 50) (1 / 25)); [lra|]. destruct (Req_EM_T u (1 / 25)); [lra|]. apply Int_part_unique. rewrite U. replace (1 / 50 - 1 / 50) with 0 by ring. unfold Rdiv at 1 2. rewrite Rmult_0_l. lra. }
    assert (I2 : index 2 [u; v] v = 1%Z). { unfold index, low, high. rewrite L, H. destruct (Req_EM_T (1 / 50) (1 / 25)); [lra|]. destruct (Req_EM_T v (1 / 25)); [reflexivity|lra]. }
    assert (G : forall c, halo_list_to_grid [((1, 1, 1), 1); ((2, 2, 2), 1)] 100 2 c = total (map snd (filter (fun h : point * R => cell_eqb (cell_of 2 [(u, u, u); (v, v, v)] (fst h)) c) [((u, u, u), 1); ((v, v, v), 1)]))) by reflexivity.
    assert (C1 : cell_of 2 [(u, u, u); (v, v, v)] (u, u, u) = (0, 0, 0)%Z) by (unfold cell_of; cbn [map px py pz fst snd]; rewrite I1; reflexivity).
    assert (C2 : cell_of 2 [(u, u, u); (v, v, v)] (v, v, v) = (1, 1, 1)%Z) by (unfold cell_of; cbn [map px py pz fst snd]; rewrite I2; reflexivity).
    rewrite !G. cbn [filter fst]. rewrite C1, C2. unfold masses. cbn. repeat split; ring.
Qed.
Print Assumptions C79_box_refuted.

(** * The object over a history of calls *)
Fixpoint run (n : nat) (box : R) (s : h2g) (os : list op) : option h2g := match os with [] => Some s | o :: r => match step n box s o with None => None | Some s' => run n box s' r end end.
Definition without_masses (os : list op) : list op := filter (fun o => match o with SetMass _ => false | _ => true end) os.
(** Masses set beforehand are never used: the call needs them again, and gives the same answer whatever was stored. *)
Theorem C79_history : forall n box s os s' s'', run n box s os = Some s' -> run n box s (without_masses os) = Some s'' ->
  (forall m, mass_on_grid n s'' m = mass_on_grid n s' m) /\ (mass_on_grid n s' None = Failure \/ mass_on_grid n s' None = Nothing).
Proof.
  intros n box s os s' s'' H H'.
  assert (G : forall os a b a' b', pos_grid a = pos_grid b -> run n box a os = Some a' -> run n box b (without_masses os) = Some b' -> pos_grid b' = pos_grid a').
  { clear. intro os. induction os as [|o os IH]; intros a b a' b' E H H'; [cbn in *; injection H as <-; injection H' as <-; congruence|]. destruct o as [ps [[]|]|ms]; cbn [run step without_masses filter] in H, H'; try discriminate; eapply IH; try exact H; try exact H'; try reflexivity. exact E. }
  pose proof (G os s s s' s'' eq_refl H H') as E. split; [intro m; unfold mass_on_grid; rewrite E; reflexivity|]. unfold mass_on_grid. destruct (pos_grid s'); auto.
Qed.
Print Assumptions C79_history.
Example C79_history_sat : exists s' s'', let os := [SetPos [(1, 1, 1)] (Some Grid); SetMass [1]] in run 2 100 {| pos_grid := None; mass_Msun := None |} os = Some s' /\ run 2 100 {| pos_grid := None; mass_Msun := None |} (without_masses os) = Some s'' /\ mass_on_grid 2 s' None = Failure.
Proof. eexists. eexists. cbv zeta. split; [reflexivity|]. split; reflexivity. Qed.
