(** C81: pkdgrav outputs. *)
From Coq Require Import String.
From Coq Require Import List Arith ZArith Reals Lra Lia Bool.
From Verif Require Import PkdModel.
Import ListNotations.
Local Open Scope R_scope.

(** * The density contrast *)
Lemma nearest_root_spec : forall fuel r len, (r <= fuel + r)%nat -> (8 * len < (2 * (fuel + r) + 1) ^ 3)%nat -> (r = 0 \/ (2 * (r - 1) + 1) ^ 3 <= 8 * len)%nat ->
  let v := nearest_root fuel r len in (8 * len < (2 * v + 1) ^ 3)%nat /\ (v = 0 \/ (2 * (v - 1) + 1) ^ 3 <= 8 * len)%nat.
Proof.
  intros fuel. induction fuel as [|m IH]; intros r len H1 H2 H3; cbn [nearest_root]; [split; [exact H2|exact H3]|]. destruct (8 * len <? (2 * r + 1) ^ 3)%nat eqn:E; [apply Nat.ltb_lt in E; split; assumption|]. apply Nat.ltb_ge in E.
  apply IH; [lia| |].
  - replace (m + S r)%nat with (S m + r)%nat by lia. exact H2.
  - right. replace (S r - 1)%nat with r by lia. exact E.
Qed.
Lemma cube_root_spec : forall len, (8 * len < (2 * cube_root len + 1) ^ 3)%nat /\ (cube_root len = 0 \/ (2 * (cube_root len - 1) + 1) ^ 3 <= 8 * len)%nat.
Proof. intro len. apply nearest_root_spec; [lia| |left; reflexivity]. rewrite Nat.add_0_r. cbn [Nat.pow]. nia. Qed.
Lemma pow3_lt : forall a b, (a ^ 3 < b ^ 3)%nat -> (a < b)%nat.
Proof. intros a b H. destruct (Nat.lt_ge_cases a b) as [L|L]; [exact L|]. pose proof (Nat.pow_le_mono_l b a 3 L). lia. Qed.
Lemma cube_root_exact : forall n, cube_root (n ^ 3) = n.
Proof.
  intro n. destruct (cube_root_spec (n ^ 3)) as [A B]. set (v := cube_root (n ^ 3)) in *. assert (E : (8 * n ^ 3 = (2 * n) ^ 3)%nat) by (rewrite Nat.pow_mul_l; reflexivity). rewrite E in A, B. apply pow3_lt in A.
  destruct B as [B|B]; [lia|]. assert ((2 * (v - 1) + 1) < 2 * n + 1)%nat; [|lia]. apply pow3_lt. eapply Nat.le_lt_trans; [exact B|]. apply Nat.pow_lt_mono_l; lia.
Qed.
(** A file is accepted iff its number of cells is the cube of the given grid size, or of some number when none is given. *)
Theorem C81_accepts : forall rhoc box ngrid dens, (exists g, load_density rhoc box ngrid dens = Some g) <-> (exists n, match ngrid with Some m => m = n | None => True end /\ (n ^ 3)%nat = length dens).
Proof.
  intros rhoc box ngrid dens. unfold load_density. split.
  - intros [g H]. destruct (grid_size ngrid (length dens) ^ 3 =? length dens)%nat eqn:E; [|discriminate]. apply Nat.eqb_eq in E. exists (grid_size ngrid (length dens)). split; [destruct ngrid; [reflexivity|exact I]|exact E].
  - intros (n & H & E). destruct ngrid as [m|]; cbn [grid_size]; [subst m; rewrite E, Nat.eqb_refl; eauto|]. rewrite <- E, cube_root_exact, Nat.eqb_refl. eauto.
Qed.
Print Assumptions C81_accepts.

Lemma total_plus : forall {A} (l : list A) f g, total (map (fun x => f x + g x) l) = total (map f l) + total (map g l).
Proof. intros A l f g. induction l as [|x r IH]; cbn [map total fold_right] in *; [ring|]. unfold total in IH. rewrite IH. ring. Qed.
Lemma total_scale : forall {A} (l : list A) f c, total (map (fun x => c * f x) l) = c * total (map f l).
Proof. intros A l f c. induction l as [|x r IH]; cbn [map total fold_right] in *; [ring|]. unfold total in IH. rewrite IH. ring. Qed.
Lemma total_const : forall {A} (l : list A) c, total (map (fun _ => c) l) = INR (length l) * c.
Proof. intros A l c. induction l as [|x r IH]; [cbn; ring|]. cbn [map total fold_right length] in *. unfold total in IH. rewrite IH, S_INR. ring. Qed.
Lemma total_app : forall a b, total (a ++ b) = total a + total b.
Proof. intros a b. induction a as [|x r IH]; [change (total ([] ++ b)) with (total b); change (total []) with 0; ring|]. change (total ((x :: r) ++ b)) with (x + total (r ++ b)). change (total (x :: r)) with (x + total r). rewrite IH. ring. Qed.
Lemma total_nonneg : forall l, (forall v, In v l -> 0 <= v) -> 0 <= total l.
Proof. intros l H. induction l as [|v r IH]; cbn [total fold_right]; [lra|]. specialize (IH (fun w Hw => H w (or_intror Hw))). specialize (H v (or_introl eq_refl)). unfold total in IH. lra. Qed.
Lemma total_swap : forall {A B} (l : list A) (m : list B) f, total (map (fun a => total (map (fun b => f a b) m)) l) = total (map (fun b => total (map (fun a => f a b) l)) m).
Proof.
  intros A B l m f. induction l as [|a l IH].
  - symmetry. etransitivity; [apply (total_const m 0)|]. cbn. ring.
  - symmetry. etransitivity; [apply (total_plus m (fun b => f a b) (fun b => total (map (fun a => f a b) l)))|]. rewrite <- IH. reflexivity.
Qed.
Lemma total_prod : forall {A B} (l : list A) (m : list B) f, total (map f (list_prod l m)) = total (map (fun a => total (map (fun b => f (a, b)) m)) l).
Proof. intros A B l m f. induction l as [|a l IH]; [reflexivity|]. cbn [list_prod map total fold_right]. rewrite map_app, total_app, map_map. unfold total in *. rewrite IH. reflexivity. Qed.
Lemma seq_split_block : forall n m (f : nat -> R), total (map (fun a => total (map (fun b => f (a * m + b)%nat) (seq 0 m))) (seq 0 n)) = total (map f (seq 0 (n * m))).
Proof.
  intros n m f. induction n as [|n IH]; [reflexivity|]. rewrite seq_S, map_app, total_app. rewrite IH. cbn [map total fold_right Nat.add]. replace (S n * m)%nat with (n * m + m)%nat by lia. rewrite seq_app, map_app, total_app. f_equal. rewrite Rplus_0_r. cbn [Nat.add].
  f_equal. replace (seq (n * m) m) with (map (fun b => (n * m + b)%nat) (seq 0 m)); [rewrite map_map; reflexivity|]. generalize (n * m)%nat. intro k. clear. apply (nth_ext _ _ 0%nat 0%nat); [rewrite map_length, !seq_length; reflexivity|]. intros i Hi. rewrite map_length, seq_length in Hi. rewrite (nth_indep _ 0%nat (k + 0)%nat) by (rewrite map_length, seq_length; exact Hi). rewrite (map_nth (fun b => (k + b)%nat)), !seq_nth by exact Hi. lia.
Qed.
Lemma seq_nth_total : forall (l : list R), total (map (fun i => nth i l 0) (seq 0 (length l))) = total l.
Proof. intro l. induction l as [|x l IH]; [reflexivity|]. cbn [length seq map nth total fold_right]. rewrite <- seq_shift, map_map. unfold total in *. rewrite IH. reflexivity. Qed.
Lemma triples_total : forall n l, (n ^ 3)%nat = length l -> total (map (fun '(i, j, k) => nth (k * n * n + j * n + i) l 0) (triples n)) = total l.
Proof.
  intros n l H. unfold triples. rewrite total_prod, total_prod.
  etransitivity; [|apply seq_nth_total]. rewrite <- H. replace (n ^ 3)%nat with (n * (n * n))%nat by (cbn [Nat.pow]; lia). rewrite <- (seq_split_block n (n * n)).
  transitivity (total (map (fun k => total (map (fun j => total (map (fun i => nth (k * n * n + j * n + i) l 0) (seq 0 n))) (seq 0 n))) (seq 0 n))).
  - transitivity (total (map (fun i => total (map (fun k => total (map (fun j => nth (k * n * n + j * n + i) l 0) (seq 0 n))) (seq 0 n))) (seq 0 n))).
    + f_equal. apply map_ext. intro i. apply (total_swap (seq 0 n) (seq 0 n) (fun j k => nth (k * n * n + j * n + i) l 0)).
    + rewrite (total_swap (seq 0 n) (seq 0 n) (fun i k => total (map (fun j => nth (k * n * n + j * n + i) l 0) (seq 0 n)))). f_equal. apply map_ext. intro k. apply (total_swap (seq 0 n) (seq 0 n) (fun i j => nth (k * n * n + j * n + i) l 0)).
  - f_equal. apply map_ext. intro k. rewrite <- (seq_split_block n n (fun b => nth (k * (n * n) + b) l 0)). f_equal. apply map_ext. intro j. f_equal. apply map_ext. intro i. f_equal. lia.
Qed.
Lemma triples_length : forall n, length (triples n) = (n ^ 3)%nat.
Proof. intro n. unfold triples. rewrite !prod_length, !seq_length. cbn [Nat.pow]. lia. Qed.
(** The contrast at (i, j, k) is the density stored at (k, j, i) over the mean density minus one: box size and critical density drop out. *)
Theorem C81_contrast : forall rhoc box ngrid dens g n, load_density rhoc box ngrid dens = Some g -> (n ^ 3)%nat = length dens -> 0 < rhoc -> 0 < box -> mean dens <> 0 ->
  forall i j k, g i j k = nth (k * n * n + j * n + i) dens 0 / mean dens - 1.
Proof.
  intros rhoc box ngrid dens g n H E P1 P2 M i j k. unfold load_density in H. destruct (grid_size ngrid (length dens) ^ 3 =? length dens)%nat eqn:E'; [|discriminate]. apply Nat.eqb_eq in E'.
  assert (Q : grid_size ngrid (length dens) = n). { rewrite <- E in E'. set (a := grid_size ngrid (n ^ 3)) in *. rewrite <- E. fold a. destruct (Nat.lt_total a n) as [L|[L|L]]; [|exact L|]; exfalso; [pose proof (Nat.pow_lt_mono_l a n 3 ltac:(lia) L)|pose proof (Nat.pow_lt_mono_l n a 3 ltac:(lia) L)]; lia. }
  rewrite Q in H. injection H as <-. assert (N0 : n <> 0%nat). { intro Z0. rewrite Z0 in E. apply M. unfold mean. rewrite <- E. cbn. unfold Rdiv. destruct dens; [cbn; ring|discriminate E]. }
  assert (PN : 0 < INR n) by (apply lt_0_INR; lia). set (c := rhoc * INR n ^ 3). assert (C : c <> 0). { unfold c. apply Rgt_not_eq. apply Rmult_lt_0_compat; [exact P1|apply pow_lt, PN]. }
  assert (RHO : forall i j k, rho rhoc box n dens i j k = c * nth (k * n * n + j * n + i) dens 0) by (intros; unfold rho, c; field; lra).
  assert (ME : mean (all_rho rhoc box n dens) = c * mean dens).
  { unfold mean, all_rho. rewrite map_length, triples_length, E. unfold Rdiv. rewrite <- Rmult_assoc. f_equal. rewrite <- (triples_total n dens E), <- total_scale. f_equal. apply map_ext. intros [[a b] d]. apply RHO. }
  rewrite ME, RHO. field. split; assumption.
Qed.
Print Assumptions C81_contrast.
(** Its mean is zero, and it is at least -1 for non-negative densities. *)
Theorem C81_contrast_mean : forall rhoc box ngrid dens g n, load_density rhoc box ngrid dens = Some g -> (n ^ 3)%nat = length dens -> 0 < rhoc -> 0 < box -> mean dens <> 0 ->
  total (map (fun '(i, j, k) => g i j k) (triples n)) = 0 /\ ((forall v, In v dens -> 0 <= v) -> forall i j k, -1 <= g i j k).
Proof.
  intros rhoc box ngrid dens g n H E P1 P2 M. pose proof (C81_contrast rhoc box ngrid dens g n H E P1 P2 M) as G. split.
  - transitivity (total (map (fun t => / mean dens * (fun '(i, j, k) => nth (k * n * n + j * n + i) dens 0) t + - 1) (triples n))).
    + f_equal. apply map_ext. intros [[i j] k]. rewrite G. unfold Rdiv. ring.
    + rewrite (total_plus (triples n) (fun t => / mean dens * (fun '(i, j, k) => nth (k * n * n + j * n + i) dens 0) t) (fun _ => - 1)), (total_scale (triples n)), total_const, triples_total, triples_length, E by exact E.
      assert (L : INR (length dens) <> 0). { intro Z0. apply M. unfold mean. destruct dens as [|d r]; [cbn; unfold Rdiv; ring|]. exfalso. cbn [length] in Z0. rewrite S_INR in Z0. pose proof (pos_INR (length r)). lra. }
      assert (T : total dens = mean dens * INR (length dens)) by (unfold mean; field; exact L). rewrite T. field. exact M.
  - intros NN i j k. rewrite G. assert (0 <= mean dens). { unfold mean. unfold Rdiv. destruct dens as [|d r]; [cbn; lra|]. apply Rmult_le_pos; [apply total_nonneg, NN|left; apply Rinv_0_lt_compat, lt_0_INR; cbn; lia]. }
    assert (0 <= nth (k * n * n + j * n + i) dens 0). { destruct (nth_in_or_default (k * n * n + j * n + i) dens 0) as [I|D]; [apply NN, I|rewrite D; lra]. }
    assert (0 <= nth (k * n * n + j * n + i) dens 0 / mean dens) by (apply Rmult_le_pos; [assumption|left; apply Rinv_0_lt_compat; lra]). lra.
Qed.
Print Assumptions C81_contrast_mean.
Example C81_contrast_mean_sat : exists (rhoc : R) (box : R) (ngrid : option nat) (dens : list R) (g : nat -> nat -> nat -> R) (n : nat), load_density rhoc box ngrid dens = Some g /\ (n ^ 3)%nat = length dens /\ 0 < rhoc /\ 0 < box /\ mean dens <> 0.
Proof. eexists 2, 100, None, [1; 2; 3; 4; 5; 6; 7; 8], _, 2%nat. split; [reflexivity|]. split; [reflexivity|]. split; [lra|]. split; [lra|]. unfold mean, total. cbn. lra. Qed.
Example C81_contrast_sat : exists g, load_density 1 1 None [1; 2; 3; 4; 5; 6; 7; 8] = Some g /\ mean [1; 2; 3; 4; 5; 6; 7; 8] = 9 / 2.
Proof. eexists. split; [reflexivity|]. unfold mean. cbn [total fold_right length]. replace (INR 8) with 8 by (cbn; ring). lra. Qed.

(** * Haloes *)
(** Lists of files are concatenated in order; the empty list is an error; a later read replaces an earlier one. *)
Theorem C81_read : forall ls, read_fof (Files ls) = (match ls with [] => None | _ => Some (concat ls) end).
Proof.
  intros [|l ls]; [reflexivity|]. cbn [read_fof concat]. f_equal. revert l. induction ls as [|m ls IH]; intro l; cbn [fold_left concat]; [rewrite app_nil_r; reflexivity|]. rewrite IH, app_assoc. reflexivity.
Qed.
Print Assumptions C81_read.
Theorem C81_history : forall rhoc box stored srcs l, array_fof rhoc box (fold_left read_step (srcs ++ [OneFile l]) stored) = Some (map (halo_row rhoc box) l) /\ length (map (halo_row rhoc box) l) = length l.
Proof. intros. rewrite fold_left_app. split; [reflexivity|apply map_length]. Qed.
Print Assumptions C81_history.
(** A read that fails, of an empty list of files, leaves the haloes read before. *)
Theorem C81_failed_read : forall rhoc box stored srcs, read_fof (Files []) = None /\
  array_fof rhoc box (fold_left read_step (srcs ++ [Files []]) stored) = array_fof rhoc box (fold_left read_step srcs stored).
Proof. intros. rewrite fold_left_app. split; reflexivity. Qed.
Print Assumptions C81_failed_read.
(** Mass first, then per axis the position of the potential minimum plus the offset on the same axis, in units of the box. *)
Definition axis (a : nat) (p : R * R * R) : R := match a with 0%nat => fst (fst p) | 1%nat => snd (fst p) | _ => snd p end.
Theorem C81_row : forall rhoc box g, length (halo_row rhoc box g) = 4%nat /\ nth 0 (halo_row rhoc box g) 0 = fmass g * (rhoc * box ^ 3) /\
  forall a, (a < 3)%nat -> nth (S a) (halo_row rhoc box g) 0 = axis a (rpot g) * box + axis a (rcom g) * box.
Proof.
  intros rhoc box g. unfold halo_row. destruct (rpot g) as [[x y] z], (rcom g) as [[u v] w]. split; [reflexivity|]. split; [cbn [nth]; ring|]. intros a Ha. destruct a as [|[|[|a]]]; try lia; cbn [nth axis fst snd]; ring.
Qed.
Print Assumptions C81_row.
(** The Hubble parameter passed to the catalogue reader has no effect... *)
Theorem C81_hubble_ignored : forall src box h h', halo_catalogue src box h = halo_catalogue src box h'.
Proof. reflexivity. Qed.
Print Assumptions C81_hubble_ignored.
(** ... so masses and positions are those of a box of Mpc/h with the same number: compared with the box converted to Mpc/h, as
    computed but not used, masses are too large by h^-3 and positions by h^-1. *)
Theorem C81_hubble : forall src box h rows, h <> 0 -> halo_catalogue src box h = Some rows -> exists intended, option_map (map (halo_row critical (box * h))) (read_fof src) = Some intended /\
  map (fun r => nth 0 r 0 * h ^ 3) rows = map (fun r => nth 0 r 0) intended /\ forall a, (1 <= a <= 3)%nat -> map (fun r => nth a r 0 * h) rows = map (fun r => nth a r 0) intended.
Proof.
  intros src box h rows Hh H. unfold halo_catalogue in H. destruct (read_fof src) as [l|]; [|discriminate]. cbn [option_map] in *. injection H as <-. eexists. split; [reflexivity|]. rewrite !map_map. split; [|intros a Ha; rewrite !map_map]; apply map_ext; intro g; unfold halo_row; destruct (rpot g) as [[x y] z]; destruct (rcom g) as [[u v] w].
  - cbn [nth]. ring.
  - destruct a as [|[|[|[|a]]]]; try lia; cbn [nth]; ring.
Qed.
Print Assumptions C81_hubble.
(** The message printed while saving is right iff the reader is verbose or nothing was saved. *)
Theorem C81_save_message : forall verbose name, (snd (save_fof verbose name) = Saved <-> fst (save_fof verbose name) = true) <-> (verbose = true \/ fst (save_fof verbose name) = false).
Proof. intros verbose name. unfold save_fof. cbn [fst snd]. destruct verbose, (contains ".txt" (last5 name) || contains ".npy" (last5 name))%bool; cbn; split; intuition discriminate. Qed.
Print Assumptions C81_save_message.
Example C81_save_silent : save_fof false "halos.txt" = (true, UnknownExtension) /\ save_fof true "halos.npy" = (true, Saved) /\ save_fof true "halos.dat" = (false, UnknownExtension).
Proof. repeat split. Qed.

(** * Mass function *)
Lemma least_le : forall l v, In v l -> least l <= v.
Proof. intros l. induction l as [|w r IH]; intros v H; [destruct H|]. destruct r as [|u r]; [destruct H as [-> |[]]; cbn; lra|]. change (least (w :: u :: r)) with (Rmin w (least (u :: r))). destruct H as [-> |H]; [apply Rmin_l|]. eapply Rle_trans; [apply Rmin_r|]. apply IH, H. Qed.
Lemma largest_ge : forall l v, In v l -> v <= largest l.
Proof. intros l. induction l as [|w r IH]; intros v H; [destruct H|]. destruct r as [|u r]; [destruct H as [-> |[]]; cbn; lra|]. change (largest (w :: u :: r)) with (Rmax w (largest (u :: r))). destruct H as [-> |H]; [apply Rmax_l|]. eapply Rle_trans; [|apply Rmax_r]. apply IH, H. Qed.
Lemma bin_range : forall b xs x, (0 < b)%nat -> In x xs -> (bin b xs x < b)%nat.
Proof.
  intros n xs x Hn H. pose proof (least_le xs x H). pose proof (largest_ge xs x H). assert (LH : low xs <= x <= high xs /\ low xs < high xs) by (unfold low, high; destruct (Req_EM_T (least xs) (largest xs)); lra). destruct LH as [[A B] C].
  unfold bin. destruct (Req_EM_T x (high xs)); [lia|]. assert (P : 0 < INR n) by (apply lt_0_INR; exact Hn).
  set (w := (high xs - low xs) / INR n). assert (W : 0 < w) by (apply Rdiv_lt_0_compat; lra). set (q := (x - low xs) / w). assert (Q : 0 <= q < INR n).
  { unfold q. split; [apply Rmult_le_pos; [lra|left; apply Rinv_0_lt_compat, W]|]. apply (Rmult_lt_reg_r w); [exact W|]. unfold Rdiv. rewrite Rmult_assoc, Rinv_l, Rmult_1_r by lra. unfold w. replace (INR n * ((high xs - low xs) / INR n)) with (high xs - low xs) by (field; lra). lra. }
  destruct (base_Int_part q) as [E F]. rewrite INR_IZR_INZ in Q. assert (Int_part q < Z.of_nat n)%Z by (apply lt_IZR; lra). assert (-1 < Int_part q)%Z by (apply lt_IZR; lra). lia.
Qed.
Lemma count_all : forall {A} (l : list A) (f : A -> nat) n, (forall x, In x l -> (f x < n)%nat) -> list_sum (map (fun i => length (filter (fun x => Nat.eqb (f x) i) l)) (seq 0 n)) = length l.
Proof.
  intros A l f n H. induction l as [|x l IH].
  - cbn [filter length]. generalize (seq 0 n). intro s. induction s as [|a s IHs]; [reflexivity|]. cbn. exact IHs.
  - cbn [length]. rewrite <- (IH (fun y Hy => H y (or_intror Hy))). specialize (H x (or_introl eq_refl)). assert (K : forall s, NoDup s -> In (f x) s -> list_sum (map (fun i => length (filter (fun y => Nat.eqb (f y) i) (x :: l))) s) = S (list_sum (map (fun i => length (filter (fun y => Nat.eqb (f y) i) l)) s))).
    { clear. intros s N. induction N as [|a s N1 N IH]; intro I; [destruct I|]. cbn [map list_sum fold_right]. destruct I as [-> |I].
      - assert (E : map (fun i => length (filter (fun y => Nat.eqb (f y) i) (x :: l))) s = map (fun i => length (filter (fun y => Nat.eqb (f y) i) l)) s). { apply map_ext_in. intros i I. cbn [filter]. destruct (Nat.eqb_spec (f x) i); [subst; contradiction|reflexivity]. } rewrite E. cbn [filter]. rewrite Nat.eqb_refl. reflexivity.
      - specialize (IH I). unfold list_sum in IH. rewrite IH. cbn [filter]. destruct (Nat.eqb_spec (f x) a); [subst; contradiction|]. lia. }
    apply K; [apply seq_NoDup|apply in_seq; lia].
Qed.
(** The mass function counts every halo once per volume; each mass lies within the bin around the reported mass, which is the
    geometric mean of the bin's edges. *)
Theorem C81_hmf : forall box bins mass, (0 < bins)%nat -> 0 < box -> length (hmf box bins mass) = bins /\
  total (map snd (hmf box bins mass)) * box ^ 3 = INR (length mass) /\ (forall m v, In (m, v) (hmf box bins mass) -> 0 <= v).
Proof.
  intros box bins mass Hb Pb. unfold hmf. set (xs := map ln mass). assert (B : box ^ 3 <> 0) by (apply pow_nonzero; lra). split; [rewrite map_length, seq_length; reflexivity|]. split.
  - rewrite map_map. cbn [snd]. assert (E : total (map (fun i => INR (count bins xs i) / box ^ 3) (seq 0 bins)) * box ^ 3 = INR (list_sum (map (count bins xs) (seq 0 bins)))).
    { generalize (seq 0 bins). intro s. induction s as [|a s IH]; [cbn; ring|]. cbn [map total fold_right list_sum]. rewrite plus_INR. unfold total, list_sum in IH. rewrite <- IH. field. lra. }
    rewrite E. unfold count. rewrite (count_all xs (bin bins xs) bins); [unfold xs; rewrite map_length; reflexivity|]. intros x Hx. apply bin_range; assumption.
  - intros m v I. apply in_map_iff in I. destruct I as (i & E & _). injection E as _ <-. apply Rmult_le_pos; [apply pos_INR|left; apply Rinv_0_lt_compat; exact (pow_lt box 3 Pb)].
Qed.
Print Assumptions C81_hmf.
Theorem C81_hmf_mass : forall box bins mass i, (i < bins)%nat -> let xs := map ln mass in let m := fst (nth i (hmf box bins mass) (0, 0)) in
  m * m = exp (edge bins xs i) * exp (edge bins xs (S i)).
Proof.
  intros box bins mass i Hi xs m. unfold m, hmf. fold xs. set (f := fun i => (exp (edge bins xs (S i) / 2 + edge bins xs i / 2), INR (count bins xs i) / box ^ 3)). rewrite (nth_indep _ (0, 0) (f 0%nat)) by (rewrite map_length, seq_length; exact Hi). rewrite (map_nth f), seq_nth by exact Hi. unfold f. cbn [fst Nat.add]. rewrite <- !exp_plus. f_equal. lra.
Qed.
Print Assumptions C81_hmf_mass.
Example C81_hmf_mass_sat : exists (bins : nat) (i : nat), (i < bins)%nat.
Proof. exists 10%nat, 3%nat. repeat split; first [lra | lia | reflexivity | discriminate | congruence | auto]. Qed.
(** The bins in terms of the masses alone: equal widths in the logarithm between the smallest and the largest mass (half a unit to each side of a single
    mass); a halo is counted in the bin that holds its logarithm, the largest mass in the last. *)
Lemma least_in : forall l, l <> [] -> In (least l) l.
Proof. induction l as [|v r IH]; [congruence|]. intros _. destruct r as [|w r]; [left; reflexivity|]. change (least (v :: w :: r)) with (Rmin v (least (w :: r))). unfold Rmin. destruct (Rle_dec v (least (w :: r))); [left; reflexivity|right; apply IH; discriminate]. Qed.
Lemma largest_in : forall l, l <> [] -> In (largest l) l.
Proof. induction l as [|v r IH]; [congruence|]. intros _. destruct r as [|w r]; [left; reflexivity|]. change (largest (v :: w :: r)) with (Rmax v (largest (w :: r))). unfold Rmax. destruct (Rle_dec v (largest (w :: r))); [right; apply IH; discriminate|left; reflexivity]. Qed.
Lemma ln_le : forall x y, 0 < x -> x <= y -> ln x <= ln y.
Proof. intros x y P [L|E]; [left; apply ln_increasing; assumption|rewrite E; lra]. Qed.
Lemma filter_map_length : forall {A B} (g : A -> B) (f : B -> bool) l, length (filter f (map g l)) = length (filter (fun x => f (g x)) l).
Proof. intros A B g f l. induction l as [|x l IH]; [reflexivity|]. cbn. destruct (f (g x)); cbn; rewrite IH; reflexivity. Qed.
Lemma bin_iff : forall n a b x i, (0 < n)%nat -> a < b -> a <= x <= b -> (i < n)%nat -> let e k := a + INR k / INR n * (b - a) in
  (if Req_EM_T x b then (n - 1)%nat else Z.to_nat (Int_part ((x - a) / ((b - a) / INR n)))) = i <-> e i <= x /\ (x < e (S i) \/ (S i = n /\ x = b)).
Proof.
  intros n a b x i Hn AB [Xa Xb] Hi e. assert (P : 0 < INR n) by (apply lt_0_INR; exact Hn). assert (En : e n = b) by (unfold e; field; lra).
  assert (Mono : forall k l, (k <= l)%nat -> e k <= e l). { intros k l K. unfold e. apply Rplus_le_compat_l, Rmult_le_compat_r; [lra|]. apply Rmult_le_compat_r; [left; apply Rinv_0_lt_compat, P|apply le_INR, K]. }
  destruct (Req_EM_T x b) as [-> |N].
  - split.
    + intro E. split; [rewrite <- En; apply Mono; lia|right; split; [lia|reflexivity]].
    + intros (_ & [L|[E _]]); [|lia]. exfalso. assert (e (S i) <= e n) by (apply Mono; lia). lra.
  - set (w := (b - a) / INR n). assert (W : 0 < w) by (apply Rdiv_lt_0_compat; lra). assert (Ek : forall k, e k = a + INR k * w) by (intro k; unfold e, w; field; lra).
    set (q := (x - a) / w). assert (X : x = a + q * w) by (unfold q; field; lra). assert (Q : 0 <= q) by (unfold q; apply Rmult_le_pos; [lra|left; apply Rinv_0_lt_compat, W]).
    rewrite !Ek, X. destruct (base_Int_part q) as [E F]. assert (G : (-1 < Int_part q)%Z) by (apply lt_IZR; lra). rewrite S_INR, !INR_IZR_INZ. split.
    + intro I. assert (I' : Int_part q = Z.of_nat i) by lia. rewrite <- I'. split; [apply Rplus_le_compat_l, Rmult_le_compat_r; lra|]. left. apply Rplus_lt_compat_l, Rmult_lt_compat_r; lra.
    + intros (L & [U|[_ U]]); [|exfalso; apply N; rewrite X; exact U]. assert (L' : IZR (Z.of_nat i) <= q) by (apply (Rmult_le_reg_r w); lra). assert (U' : q < IZR (Z.of_nat i) + 1) by (apply (Rmult_lt_reg_r w); lra).
      assert (Int_part q < Z.of_nat i + 1)%Z by (apply lt_IZR; rewrite plus_IZR; lra). assert (Z.of_nat i < Int_part q + 1)%Z by (apply lt_IZR; rewrite plus_IZR; lra). lia.
Qed.
Theorem C81_hmf_bins : forall box bins mass lo hi, (0 < bins)%nat -> 0 < lo -> In lo mass -> In hi mass -> (forall m, In m mass -> lo <= m <= hi) ->
  let a := if Req_EM_T lo hi then ln lo - 1 / 2 else ln lo in let b := if Req_EM_T lo hi then ln lo + 1 / 2 else ln hi in
  forall i, (i < bins)%nat -> exists held : R -> bool,
    (forall m, In m mass -> (held m = true <-> a + INR i / INR bins * (b - a) <= ln m /\ (ln m < a + INR (S i) / INR bins * (b - a) \/ (S i = bins /\ ln m = b)))) /\
    nth i (hmf box bins mass) (0, 0) = (exp (a + (INR i + 1 / 2) / INR bins * (b - a)), INR (length (filter held mass)) / box ^ 3).
Proof.
  intros box bins mass lo hi Hb Plo Ilo Ihi R a b i Hi. set (xs := map ln mass). assert (NE : xs <> []) by (unfold xs; destruct mass; [destruct Ilo|discriminate]).
  assert (Eleast : least xs = ln lo). { apply Rle_antisym; [apply least_le, in_map, Ilo|]. pose proof (least_in xs NE) as I. apply in_map_iff in I. destruct I as (m & <- & I). apply ln_le; [exact Plo|apply R, I]. }
  assert (Elarge : largest xs = ln hi). { apply Rle_antisym; [|apply largest_ge, in_map, Ihi]. pose proof (largest_in xs NE) as I. apply in_map_iff in I. destruct I as (m & <- & I). apply ln_le; [pose proof (R m I); lra|apply R, I]. }
  pose proof (R hi Ihi) as LH. assert (El : low xs = a /\ high xs = b /\ a < b /\ a <= ln lo /\ ln hi <= b).
  { unfold low, high. rewrite Eleast, Elarge. unfold a, b. destruct (Req_EM_T lo hi) as [E|N].
    - rewrite <- E. destruct (Req_EM_T (ln lo) (ln lo)); [|congruence]. repeat split; lra.
    - assert (ln lo < ln hi) by (apply ln_increasing; lra). destruct (Req_EM_T (ln lo) (ln hi)); [lra|]. repeat split; lra. }
  destruct El as (El & Eh & AB & La & Lb). clearbody a b. assert (P : 0 < INR bins) by (apply lt_0_INR; exact Hb).
  exists (fun m => Nat.eqb (bin bins xs (ln m)) i). split.
  - intros m Im. rewrite Nat.eqb_eq. unfold bin. rewrite El, Eh. apply bin_iff; try assumption. pose proof (R m Im). split; [apply (Rle_trans _ (ln lo)); [exact La|apply ln_le; lra]|apply (Rle_trans _ (ln hi)); [apply ln_le; lra|exact Lb]].
  - unfold hmf. fold xs. set (f := fun i => (exp (edge bins xs (S i) / 2 + edge bins xs i / 2), INR (count bins xs i) / box ^ 3)). rewrite (nth_indep _ (0, 0) (f 0%nat)) by (rewrite map_length, seq_length; exact Hi).
    rewrite (map_nth f), seq_nth by exact Hi. unfold f. cbn [plus]. f_equal.
    + f_equal. unfold edge. rewrite El, Eh, S_INR. field. lra.
    + f_equal. f_equal. unfold count, xs. rewrite filter_map_length. reflexivity.
Qed.
Print Assumptions C81_hmf_bins.
Example C81_hmf_bins_sat : exists lo hi mass, 0 < lo /\ lo < hi /\ In lo mass /\ In hi mass /\ (forall m, In m mass -> lo <= m <= hi) /\ length mass = 3%nat.
Proof. exists 1, 8, [2; 1; 8]. repeat split; try lra; try (cbn; intuition lra). all: destruct H as [<- |[<- |[<- |[]]]]; lra. Qed.
