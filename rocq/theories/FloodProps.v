(** C78: the regions behind the watershed size distribution. *)
From Coq Require Import List Arith ZArith Bool Lia Reals.
From Coq Require Import Relations.Relation_Operators.
From Verif Require Import FofModel FofSpec FofProofs FloodModel WsModel WsProps.
Import ListNotations.
Local Open Scope nat_scope.

(** * Specification *)
(** [out] splits the part of the mask that the peaks reach into regions grown from [m] clusters of peaks: *)
Definition segmentation (shape : list nat) (image : coord -> bool) (peaks : coord -> bool) (n : nat) (out : coord -> nat) : Prop :=
  (* a cell has a region iff a chain of face neighbours in the mask joins it to a peak *)
  (forall c, out c <> 0 <-> exists p, cell_of shape peaks p /\ connected 1 (cell_of shape image) p c) /\
  (* each region is joined, within itself, to a peak *)
  (forall c, out c <> 0 -> exists p, cell_of shape peaks p /\ connected 1 (fun d => out d = out c) p c) /\
  (* touching peaks are in one region, and peaks of one region touch *)
  (forall p q, cell_of shape peaks p -> cell_of shape peaks q -> (out p = out q <-> connected 1 (cell_of shape peaks) p q)) /\
  (* the regions are numbered 1..n and there are as many as clusters of peaks *)
  components 1 shape peaks n /\ (forall g, 1 <= g <= n <-> exists c, g <> 0 /\ out c = g).

Lemma mem_coord_in c l : mem_coord c l = true <-> In c l.
Proof.
  unfold mem_coord. rewrite existsb_exists. split.
  - intros (d & I & E). unfold coord_eqb in E. destruct (list_eq_dec Z.eq_dec c d); [congruence|discriminate].
  - intro I. exists c. split; [exact I|]. unfold coord_eqb. destruct (list_eq_dec Z.eq_dec c c); congruence.
Qed.

Section FloodProof.
  Variable pick : labels -> list coord -> nat.
  Variable cells : list coord.
  Variable seeds : labels.
  Hypothesis cells_nodup : NoDup cells.

  Definition free (out : labels) : nat := length (filter (fun c => Nat.eqb (out c) 0) cells).
  (** what holds of a partial labelling *)
  Definition good (out : labels) : Prop :=
    (forall c, out c <> 0 -> In c cells) /\ (forall c, seeds c <> 0 -> out c = seeds c) /\
    (forall c, out c <> 0 -> exists p, seeds p = out c /\ connected 1 (fun d => out d = out c) p c).
  (** all labelled cells outside [h] have only labelled neighbours *)
  Definition closed (out : labels) (h : list coord) : Prop :=
    forall c, out c <> 0 -> ~ In c h -> forall d, neighbours 1 c d -> In d cells -> out d <> 0.

  Lemma connected_mono (A B : coord -> Prop) c d : (forall x, A x -> B x) -> connected 1 A c d -> connected 1 B c d.
  Proof. intros H. induction 1 as [x y (a & b & n)|x|x y z _ I1 _ I2]; [apply rt_step; auto|apply rt_refl|eapply rt_trans; eauto]. Qed.

  Lemma free_set out t g : In t cells -> out t = 0 -> g <> 0 -> S (free (set_label out t g)) = free out.
  Proof.
    intros I E G. unfold free. revert I cells_nodup.  induction cells as [|a l IH]; intros I N; [destruct I|]. inversion N as [|? ? N1 N2]; subst. cbn [filter].
    destruct (list_eq_dec Z.eq_dec a t) as [->|D].
    - rewrite set_same, E. cbn [Nat.eqb]. destruct (Nat.eqb_spec g 0) as [|_]; [contradiction|]. cbn [length]. f_equal. f_equal. apply filter_ext_in. intros x Hx. rewrite set_other; [reflexivity|]. intros ->. contradiction.
    - destruct I as [|I]; [congruence|]. rewrite set_other by exact D. destruct (Nat.eqb (out a) 0); cbn [length]; [f_equal|]; apply IH; assumption.
  Qed.

  (** one neighbour *)
  Lemma spread_ok c s t : good (fst s) -> fst s c <> 0 -> neighbours 1 c t ->
    let s' := spread cells (fst s c) s t in
    good (fst s') /\ (forall d, fst s d <> 0 -> fst s' d = fst s d) /\ (forall d, In d (snd s) -> In d (snd s')) /\
    (forall d, In d (snd s') -> In d (snd s) \/ fst s' d <> 0) /\ (forall d, fst s' d <> 0 -> fst s d <> 0 \/ In d (snd s')) /\
    (In t cells -> fst s' t <> 0) /\ free (fst s') + length (snd s') = free (fst s) + length (snd s).
  Proof.
    destruct s as [out h]. cbn [fst snd]. intros (G1 & G2 & G3) C N. unfold spread. cbn [fst snd].
    destruct (mem_coord t cells) eqn:M; cbn [andb].
    2:{ cbn [fst snd]. assert (NI : ~ In t cells) by (rewrite <- mem_coord_in, M; discriminate). repeat split; auto. }
    apply mem_coord_in in M. destruct (Nat.eqb_spec (out t) 0) as [Z|NZ]; cbn [fst snd].
    2:{ repeat split; auto. }
    assert (K : forall d, out d <> 0 -> set_label out t (out c) d = out d) by (intros d Hd; apply set_other; intros ->; contradiction).
    assert (K' : forall d, d = t \/ set_label out t (out c) d = out d) by (intro d; destruct (list_eq_dec Z.eq_dec d t) as [->|D]; [left; reflexivity|right; apply set_other, D]).
    split; [|split; [exact K|split; [|split; [|split; [|split]]]]].
    - split; [|split].
      + intros d Hd. destruct (K' d) as [->|E]; [exact M|]. rewrite E in Hd. auto.
      + intros d Hd. rewrite K; [auto|]. rewrite (G2 d Hd). exact Hd.
      + assert (P : forall d, out d <> 0 -> exists p, seeds p = out d /\ connected 1 (fun x => set_label out t (out c) x = out d) p d).
        { intros d Hd. destruct (G3 d Hd) as (p & E & W). exists p. split; [exact E|]. refine (connected_mono _ _ _ _ _ W). intros x Hx. rewrite K; [exact Hx|]. rewrite Hx. exact Hd. }
        intros d Hd. destruct (K' d) as [->|E].
        * rewrite set_same. destruct (P c C) as (p & E & W). exists p. split; [exact E|]. eapply rt_trans; [exact W|]. apply rt_step. split; [apply K, C|]. split; [apply set_same|exact N].
        * rewrite E. apply P. rewrite E in Hd. exact Hd.
    - intros d Hd. apply in_or_app. auto.
    - intros d Hd. apply in_app_or in Hd. destruct Hd as [Hd|[<-|[]]]; [auto|]. right. rewrite set_same. exact C.
    - intros d Hd. destruct (K' d) as [->|E]; [right; apply in_or_app; right; left; reflexivity|]. left. rewrite E in Hd. exact Hd.
    - intros _. rewrite set_same. exact C.
    - rewrite app_length. cbn [length]. pose proof (free_set out t (out c) M Z C). lia.
  Qed.

  Lemma spread_all c ts : forall s, good (fst s) -> fst s c <> 0 -> (forall t, In t ts -> neighbours 1 c t) ->
    let s' := fold_left (spread cells (fst s c)) ts s in
    good (fst s') /\ (forall d, fst s d <> 0 -> fst s' d = fst s d) /\ (forall d, In d (snd s) -> In d (snd s')) /\
    (forall d, In d (snd s') -> In d (snd s) \/ fst s' d <> 0) /\ (forall d, fst s' d <> 0 -> fst s d <> 0 \/ In d (snd s')) /\
    (forall t, In t ts -> In t cells -> fst s' t <> 0) /\ free (fst s') + length (snd s') = free (fst s) + length (snd s).
  Proof.
    induction ts as [|t ts IH]; intros s G C N; cbn [fold_left].
    - repeat split; auto; try apply G.
    - destruct (spread_ok c s t G C (N t (or_introl eq_refl))) as (A1 & A2 & A3 & A4 & A5 & A6 & A7).
      set (s1 := spread cells (fst s c) s t) in *. assert (C1 : fst s1 c = fst s c) by (apply A2, C).
      destruct (IH s1 A1 ltac:(rewrite C1; exact C) (fun x Hx => N x (or_intror Hx))) as (B1 & B2 & B3 & B4 & B5 & B6 & B7). rewrite C1 in B1, B2, B3, B4, B5, B6, B7.
      set (s2 := fold_left (spread cells (fst s c)) ts s1) in *.
      split; [exact B1|]. split; [intros d Hd; rewrite B2, A2; auto; rewrite A2; auto|]. split; [auto|]. split.
      { intros d Hd. destruct (B4 d Hd) as [X|X]; [|auto]. destruct (A4 d X) as [Y|Y]; [auto|]. right. rewrite B2; exact Y. }
      split. { intros d Hd. destruct (B5 d Hd) as [X|X]; [|auto]. destruct (A5 d X) as [Y|Y]; auto. }
      split. { intros x [<-|Hx] Hc; [rewrite B2; auto|auto]. }
      lia.
  Qed.

  Lemma in_remove (h : list coord) k q0 d : k < length h -> In d h -> d = nth k h q0 \/ In d (firstn k h ++ skipn (S k) h).
  Proof.
    intros K I. revert k K. induction h as [|a h IH]; intros k K; [destruct I|]. destruct k as [|k]; cbn [nth firstn skipn app].
    - destruct I as [->|I]; auto.
    - cbn [length] in K. destruct I as [->|I]; [right; left; reflexivity|]. destruct (IH I k ltac:(lia)) as [E|E]; [auto|]. right. right. exact E.
  Qed.
  Lemma in_remove_back (h : list coord) k d : In d (firstn k h ++ skipn (S k) h) -> In d h.
  Proof. intro I. apply in_app_or in I. destruct I as [I|I]; [rewrite <- (firstn_skipn k h); apply in_or_app; auto|rewrite <- (firstn_skipn (S k) h); apply in_or_app; auto]. Qed.
  Lemma remove_length (h : list coord) k : k < length h -> S (length (firstn k h ++ skipn (S k) h)) = length h.
  Proof. intro K. rewrite app_length, firstn_length, skipn_length. lia. Qed.

  Lemma flood_ok : forall fuel out h, free out + length h <= fuel -> good out -> (forall c, In c h -> out c <> 0) -> closed out h ->
    good (flood pick cells fuel out h) /\ closed (flood pick cells fuel out h) [].
  Proof.
    induction fuel as [|fuel IH]; intros out h F G Q C; [destruct h; [auto|cbn [length] in F; lia]|].
    destruct h as [|q0 h0]; [auto|]. cbn [flood]. set (h := q0 :: h0) in *. set (k := pick out h mod length h).
    assert (K : k < length h) by (apply Nat.mod_upper_bound; discriminate). set (c := nth k h q0).
    assert (IC : In c h) by (apply nth_In, K). pose proof (Q c IC) as OC.
    destruct (spread_all c (options_r 1 c) (out, firstn k h ++ skipn (S k) h) G OC) as (B1 & B2 & B3 & B4 & B5 & B6 & B7).
    { intros t Ht. apply options_r_spec, Ht. }
    cbn [fst snd] in *. set (s := fold_left (spread cells (out c)) (options_r 1 c) (out, firstn k h ++ skipn (S k) h)) in *.
    pose proof (remove_length h k K) as RL. apply IH.
    - lia.
    - exact B1.
    - intros d Hd. destruct (B4 d Hd) as [X|X]; [|exact X]. apply in_remove_back in X. rewrite B2; apply Q, X.
    - intros d Hd Hn e N Ie. destruct (B5 d Hd) as [X|X]; [|contradiction].
      destruct (in_dec (list_eq_dec Z.eq_dec) d h) as [I|I].
      + destruct (in_remove h k q0 d K I) as [->|J]; [|exfalso; apply Hn, B3, J]. apply B6; [apply options_r_spec, N|exact Ie].
      + rewrite B2; apply (C d X I e N Ie).
  Qed.
End FloodProof.

(** * Theorems *)
(** Whatever the heights and the order among equals, flooding from the peaks gives the segmentation of the part of the mask that holds peaks;
    the number of regions is the number of clusters of touching peaks. *)
Theorem C78_segmentation : forall pick shape image coords, (forall c, In c coords -> cell_of shape image c) ->
  exists out n, watershed_labels pick shape image coords = Some out /\ segmentation shape image (fun c => mem_coord c coords) n out.
Proof.
  intros pick shape image coords PI. unfold watershed_labels, markers. change (peak_mask coords) with (fun c => mem_coord c coords).
  destruct (label_ok 1 shape (fun c => mem_coord c coords)) as (m & sizes & E & L). rewrite E.
  pose proof (labelling_components _ _ _ _ _ L) as CO. destruct L as (L1 & L2 & L3 & L4).
  assert (PK : forall c, cell_of shape (fun c => mem_coord c coords) c <-> In c coords).
  { intro c. unfold cell_of. rewrite mem_coord_in. split; [intros [_ H]; exact H|]. intro H. split; [apply PI, H|exact H]. }
  set (cells := where_above shape image). set (seeds := fun c => if mem_coord c cells then m c else 0).
  assert (IC : forall c, In c cells <-> cell_of shape image c) by (intro c; apply where_spec).
  assert (SE : forall c, seeds c = m c).
  { intro c. unfold seeds. destruct (mem_coord c cells) eqn:M; [reflexivity|]. destruct (Nat.eq_dec (m c) 0) as [Z|NZ]; [congruence|]. apply L1, PK, PI, IC, mem_coord_in in NZ. congruence. }
  assert (SI : forall c, seeds c <> 0 -> In c cells) by (intros c Hc; rewrite SE in Hc; apply IC, PI, PK, L1, Hc).
  assert (ND : NoDup cells) by apply where_nodup.
  set (h := filter (fun c => negb (Nat.eqb (seeds c) 0)) cells).
  assert (IH : forall c, In c h <-> seeds c <> 0). { intro c. unfold h. rewrite filter_In, negb_true_iff, Nat.eqb_neq. split; [tauto|]. auto. }
  destruct (flood_ok pick cells seeds ND (length cells) seeds h) as ((G1 & G2 & G3) & C).
  { unfold free, h. clearbody seeds. clear. clearbody cells. induction cells as [|a l IH]; cbn [filter length]; [lia|]. destruct (Nat.eqb (seeds a) 0); cbn [negb length]; lia. }
  { split; [exact SI|split; [auto|]]. intros c Hc. exists c. split; [reflexivity|apply rt_refl]. }
  { intros c Hc. apply IH, Hc. }
  { intros c Hc Hn. exfalso. apply Hn, IH, Hc. }
  set (out := flood pick cells (length cells) seeds h) in *. exists out, (length sizes). split; [reflexivity|].
  assert (SP : forall p, seeds p <> 0 <-> cell_of shape (fun c => mem_coord c coords) p) by (intro p; rewrite SE; apply L1).
  assert (OS : forall p, cell_of shape (fun c => mem_coord c coords) p -> out p = m p) by (intros p Hp; rewrite <- SE; apply G2, SP, Hp).
  split; [|split; [|split; [|split; [exact CO|]]]].
  - intro c. split.
    + intro Hc. destruct (G3 c Hc) as (p & Ep & W). exists p. split; [apply SP; rewrite Ep; exact Hc|]. refine (connected_mono _ _ _ _ _ W). intros d Hd. apply IC, G1. rewrite Hd. exact Hc.
    + intros (p & Hp & W). assert (O : out p <> 0) by (rewrite OS by exact Hp; apply L1, Hp). clear Hp. revert O. induction W as [x y (a & b & nb)|x|x y z _ I1 _ I2]; auto. intro O. apply (C x O (fun F => F) y nb). apply IC, b.
  - intros c Hc. destruct (G3 c Hc) as (p & Ep & W). exists p. split; [apply SP; rewrite Ep; exact Hc|exact W].
  - intros p q Hp Hq. rewrite !OS by assumption. apply L2; assumption.
  - intro g. split.
    + intro B. destruct (L4 g B) as (cs & _ & NE & _ & Hcs). destruct cs as [|c cs]; [contradiction|]. exists c. split; [lia|]. assert (M : m c = g) by (apply Hcs; left; reflexivity). rewrite OS; [exact M|]. apply L1. lia.
    + intros (c & NZ & Hc). destruct (G3 c ltac:(congruence)) as (p & Ep & _). rewrite SE in Ep. pose proof (L3 p). lia.
Qed.
Print Assumptions C78_segmentation.

Lemma flat_regions shape image peaks n out : segmentation shape image peaks n out -> (forall c, out c <> 0 -> in_shape shape c) ->
  forall v, is_region (flat shape out) v <-> (1 <= v <= Z.of_nat n)%Z.
Proof.
  intros (_ & _ & _ & _ & S) B v. unfold is_region, flat. rewrite in_map_iff. split.
  - intros (P & c & <- & _). assert (1 <= out c <= n); [|lia]. apply S. exists c. split; [lia|reflexivity].
  - intros [A Bv]. destruct (proj1 (S (Z.to_nat v)) ltac:(lia)) as (c & NZ & E). split; [lia|]. exists c. split; [lia|]. apply all_coords_spec, B. lia.
Qed.
Lemma segmentation_in shape image peaks n out : (forall c, cell_of shape peaks c -> cell_of shape image c) -> segmentation shape image peaks n out -> forall c, out c <> 0 -> in_shape shape c.
Proof. intros H (S1 & _) c Hc. apply S1 in Hc. destruct Hc as (p & Hp & W). apply (connected_cell _ _ _ _ W), H, Hp. Qed.

(** So the size distribution knows of the image only how many clusters of peaks it has: two images of any shape, with any
    regions, get the same distribution as soon as these numbers agree. *)
Theorem C78_clusters_only : forall pick pick' shape shape' image image' coords coords' out out' k box n,
  (forall c, In c coords -> cell_of shape image c) -> (forall c, In c coords' -> cell_of shape' image' c) ->
  watershed_labels pick shape image coords = Some out -> watershed_labels pick' shape' image' coords' = Some out' ->
  components 1 shape (fun c => mem_coord c coords) k -> components 1 shape' (fun c => mem_coord c coords') k ->
  watershed_bsd (flat shape out) box n = watershed_bsd (flat shape' out') box n /\
  (watershed_bsd (flat shape out) box n <> None <-> 5 <= k).
Proof.
  intros pick pick' shape shape' image image' coords coords' out out' k box n P P' E E' K K'.
  destruct (C78_segmentation pick shape image coords P) as (o & m & Eo & Sg). rewrite E in Eo. injection Eo as <-.
  destruct (C78_segmentation pick' shape' image' coords' P') as (o & m' & Eo & Sg'). rewrite E' in Eo. injection Eo as <-.
  assert (m = k) by (eapply components_unique; [apply Sg|exact K]). assert (m' = k) by (eapply components_unique; [apply Sg'|exact K']). subst m m'.
  assert (R1 : forall v, is_region (flat shape out) v <-> (1 <= v <= Z.of_nat k)%Z).
  { apply (flat_regions _ _ _ _ _ Sg), (segmentation_in _ _ _ _ _ ltac:(intros c [_ H]; apply P, mem_coord_in, H) Sg). }
  assert (R2 : forall v, is_region (flat shape' out') v <-> (1 <= v <= Z.of_nat k)%Z).
  { apply (flat_regions _ _ _ _ _ Sg'), (segmentation_in _ _ _ _ _ ltac:(intros c [_ H]; apply P', mem_coord_in, H) Sg'). }
  split; [apply C78_volume_blind; intro v; rewrite R1, R2; reflexivity|].
  destruct (Nat.eq_dec k 0) as [->|NK].
  - split; [|lia]. intro H. exfalso. apply H. unfold watershed_bsd. destruct (unique_labels (flat shape out)) as [|u l] eqn:U; [reflexivity|]. exfalso. assert (I : In u (unique_labels (flat shape out))) by (rewrite U; left; reflexivity). apply unique_in, R1 in I. lia.
  - rewrite (C78_defined (flat shape out) box n (Z.of_nat k) ltac:(lia) R1). lia.
Qed.
Print Assumptions C78_clusters_only.
Example C78_clusters_only_sat : exists pick shape image coords out k, (forall c, In c coords -> cell_of shape image c) /\ watershed_labels pick shape image coords = Some out /\ components 1 shape (fun c => mem_coord c coords) k.
Proof. eexists (fun _ _ => 0), [7], (fun c => negb (coord_eqb c [4%Z])), [[0%Z]; [3%Z]], _, 2. split; [intros c [<-|[<-|[]]]; split; try reflexivity; cbn; repeat constructor; cbn; lia|]. split; [vm_compute; reflexivity|]. destruct (label_num_ok 1 [7] (fun c => mem_coord c [[0%Z]; [3%Z]])) as (n & E & C). vm_compute in E. injection E as <-. exact C. Qed.

(** Two peaks in a row of six cells with a gap: two regions, and the cell beyond the gap stays without one. *)
Example C78_segmentation_sat : exists out, watershed_labels (fun _ _ => 0) [7] (fun c => negb (coord_eqb c [4%Z])) [[0%Z]; [3%Z]] = Some out /\
  map (fun i => out [Z.of_nat i]) (seq 0 7) = [1; 1; 2; 2; 0; 0; 0].
Proof. eexists. split; [vm_compute; reflexivity|]. vm_compute. reflexivity. Qed.
