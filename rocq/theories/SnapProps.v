(** C101: coeval cubes from a directory of snapshots, and the readers of simulation files. *)
From Coq Require Import String.
From Coq Require Import List Arith ZArith QArith Qreals Reals Bool Lia Lqa Lra Permutation Sorting.Sorted RMicromega.
From Verif Require Import QLib RLib CoevalModel TempModel SnapModel.
From Verif Require NamesModel NamesProps ConstModel.
Import ListNotations.
Local Open Scope R_scope.

(** * Sorted redshifts *)
(** The redshifts listed are those in the names, in increasing order, whatever order the file system returns; an empty directory gives an empty list. *)
Theorem C101_zs : forall names l, get_zs_list names = Some l ->
  StronglySorted Rle l /\ (exists found, NamesModel.all_some (map NamesModel.name_z names) = Some found /\ Permutation l found) /\ length l = length names.
Proof.
  intros names l H. unfold get_zs_list, NamesModel.get_file_redshifts in H. destruct (NamesModel.all_some (map NamesModel.name_z names)) as [found|] eqn:E; [|discriminate]. cbn [option_map] in H.
  assert (L : l = NamesModel.sort found) by congruence. subst l. split; [apply NamesProps.sort_sorted|]. split; [exists found; split; [reflexivity|apply NamesProps.sort_perm]|].
  rewrite (Permutation_length (NamesProps.sort_perm found)). clear H. revert found E. induction names as [|n r IH]; intros found E; [cbn in E; injection E as <-; reflexivity|].
  cbn [map NamesModel.all_some] in E. destruct (NamesModel.name_z n) as [z|]; [|discriminate]. destruct (NamesModel.all_some (map NamesModel.name_z r)) as [f|]; [|discriminate]. cbn [option_map] in E. injection E as <-. cbn [length]. rewrite (IH f eq_refl). reflexivity.
Qed.
Print Assumptions C101_zs.
Theorem C101_zs_order : forall names names' l l', Permutation names names' -> get_zs_list names = Some l -> get_zs_list names' = Some l' -> l = l'.
Proof.
  intros names names' l l' P H H'. destruct (C101_zs _ _ H) as (S1 & (f & E & Q) & _). destruct (C101_zs _ _ H') as (S2 & (f' & E' & Q') & _).
  apply NamesProps.sorted_unique; [exact S1|exact S2|]. eapply Permutation_trans; [exact Q|]. eapply Permutation_trans; [|apply Permutation_sym, Q'].
  clear - P E E'. assert (K : forall o (f : list R), NamesModel.all_some o = Some f -> o = map Some f).
  { clear. induction o as [|[a|] o IH]; intros f E; cbn in E; [injection E as <-; reflexivity| |discriminate]. destruct (NamesModel.all_some o) as [g|]; [|discriminate]. injection E as <-. cbn. rewrite (IH g eq_refl). reflexivity. }
  apply K in E. apply K in E'. pose proof (Permutation_map NamesModel.name_z P) as M. rewrite E, E' in M. apply (Permutation_map (fun o => match o with Some a => a | None => 0 end)) in M. rewrite !map_map, !map_id in M. exact M.
Qed.
Print Assumptions C101_zs_order.
Example C101_zs_sat : exists l, get_zs_list [NamesModel.L "xfrac3d_9.500.bin"%string; NamesModel.L "xfrac3d_8.250.bin"%string] = Some l /\ length l = 2%nat.
Proof.
  unfold get_zs_list, NamesModel.get_file_redshifts. assert (E : exists a b, NamesModel.all_some (map NamesModel.name_z [NamesModel.L "xfrac3d_9.500.bin"%string; NamesModel.L "xfrac3d_8.250.bin"%string]) = Some [a; b]).
  { eexists. eexists. vm_compute. reflexivity. } destruct E as (a & b & E). rewrite E. cbn [option_map]. eexists. split; [reflexivity|]. rewrite (Permutation_length (NamesProps.sort_perm _)). reflexivity.
Qed.

(** * Coeval 21-cm cubes *)
Lemma mean_zero : forall l m, l <> [] -> m = mean l -> rsum (map (fun v => v - m) l) = 0.
Proof.
  intros l m NE E. replace (rsum (map (fun v => v - m) l)) with (rsum l - INR (length l) * m). { rewrite E. unfold mean. assert (INR (length l) <> 0) by (destruct l; [congruence|apply not_0_INR; discriminate]). field. assumption. }
  clear. induction l as [|v l IH]; [cbn; ring|]. cbn [map length]. rewrite S_INR. cbn [rsum fold_right]. fold (rsum l). fold (rsum (map (fun v => v - m) l)). rewrite <- IH. ring.
Qed.
(** The cube is the brightness temperature of the two blended cubes, cell by cell, and with [mean_subtract] it has mean zero and differs from the cube without by
    one constant. Both raise together. *)
Theorem C101_coeval : forall c xzs xcubes dzs dcubes z dt, coeval_21cm c xzs xcubes dzs dcubes z true false = Some dt ->
  exists x d, coeval_xfrac xzs xcubes z = Some x /\ coeval_xfrac dzs dcubes z = Some d /\ length dt = length x /\ length dt = length d /\
    (forall i, (i < length dt)%nat -> nth i dt 0 = mean_dt c (Q2R z) * (1 - Q2R (nth i x 0%Q)) * Q2R (nth i d 0%Q) / (if forallb (fun v => Qle_bool 0 v) d then rho_crit_0 c * OmegaB c else 1)).
Proof.
  intros c xzs xcubes dzs dcubes z dt H. unfold coeval_21cm in H. destruct (coeval_xfrac xzs xcubes z) as [x|]; [|discriminate]. destruct (coeval_xfrac dzs dcubes z) as [d|]; [|discriminate].
  unfold calc_dt in H. rewrite !map_length in H. destruct (Nat.eqb_spec (length x) (length d)) as [L|]; [|discriminate]. cbn [option_map] in H. assert (E : dt = dt_cells c (Q2R z) (combine (map Q2R d) (map Q2R x))) by congruence. clear H. subst dt.
  exists x, d. split; [reflexivity|]. split; [reflexivity|]. unfold dt_cells. rewrite map_length, combine_length, !map_length, L, Nat.min_id. split; [congruence|]. split; [reflexivity|]. intros i Hi.
  set (f := fun p => mean_dt c (Q2R z) * (1 - snd p) * fst p / rho_mean c (map fst (combine (map Q2R d) (map Q2R x)))).
  rewrite (nth_indep _ 0 (f (Q2R 0, Q2R 0))) by (rewrite map_length, combine_length, !map_length, L, Nat.min_id; exact Hi). rewrite (map_nth f), combine_nth by (rewrite !map_length; congruence). unfold f. cbn [fst snd]. rewrite !map_nth. f_equal.
  unfold rho_mean. replace (no_negative (map fst (combine (map Q2R d) (map Q2R x)))) with (forallb (fun v => Qle_bool 0 v) d); [reflexivity|].
  replace (map fst (combine (map Q2R d) (map Q2R x))) with (map Q2R d). 2: { clear - L. revert x L. induction d as [|v d IH]; intros x L; [reflexivity|]. destruct x as [|w x]; [discriminate|]. cbn. f_equal. apply IH. cbn in L. congruence. }
  clear. unfold no_negative. induction d as [|v d IH]; [reflexivity|]. cbn [map forallb]. rewrite <- IH. f_equal. destruct (Rle_dec 0 (Q2R v)) as [K|K].
  - apply Qle_bool_iff. apply Rle_Qle. rewrite RMicromega.Q2R_0. exact K.
  - destruct (Qle_bool 0 v) eqn:E; [|reflexivity]. exfalso. apply K. apply Qle_bool_iff in E. apply Qle_Rle in E. rewrite RMicromega.Q2R_0 in E. exact E.
Qed.
Print Assumptions C101_coeval.
Theorem C101_mean_subtract : forall c xzs xcubes dzs dcubes z, match coeval_21cm c xzs xcubes dzs dcubes z true false, coeval_21cm c xzs xcubes dzs dcubes z true true with
  | Some dt, Some dt' => length dt' = length dt /\ rsum dt' = 0 /\ exists m, forall i, (i < length dt)%nat -> nth i dt' 0 = nth i dt 0 - m
  | None, None => True
  | _, _ => False
  end.
Proof.
  intros. unfold coeval_21cm. destruct (coeval_xfrac xzs xcubes z) as [x|]; [|exact I]. destruct (coeval_xfrac dzs dcubes z) as [d|]; [|exact I]. destruct (calc_dt c (Q2R z) (map Q2R x) (map Q2R d)) as [dt|]; [|exact I]. cbn [option_map].
  split; [apply map_length|]. split; [destruct dt; [reflexivity|apply mean_zero; [discriminate|reflexivity]]|]. exists (mean dt). intros i Hi. rewrite (nth_indep _ 0 ((fun v => v - mean dt) 0)) by (rewrite map_length; exact Hi). rewrite (map_nth (fun v => v - mean dt)). reflexivity.
Qed.
Print Assumptions C101_mean_subtract.
(** Any other interpolation raises, for both cubes and for the velocity. *)
Theorem C101_interpolation : forall c xzs xcubes dzs dcubes z ms opens n, coeval_21cm c xzs xcubes dzs dcubes z false ms = None /\ coeval_overdens dzs dcubes z false = None /\ coeval_vel opens dzs n z false = Raised ValueError.
Proof. intros. repeat split. Qed.
Print Assumptions C101_interpolation.
Example C101_coeval_sat : exists dt, coeval_21cm (Cosmo (1/4) (3/4) (7/10) 10 1 (1/20) 3) [9; 8]%Q [[1; 0]; [0; 1]]%Q [9; 8]%Q [[1; 2]; [3; 4]]%Q (17 # 2) true false = Some dt /\ length dt = 2%nat.
Proof. eexists. split; [reflexivity|reflexivity]. Qed.

(** * Overdensity *)
(** The overdensity has mean zero, is at least minus one where the density is not negative, and ignores the unit of density. *)
Theorem C101_overdens : forall dens o, overdens dens = Some o -> length o = length dens /\ rsum o = 0 /\ ((forall d, In d dens -> 0 <= d) -> forall v, In v o -> -1 <= v) /\
  (forall i, (i < length dens)%nat -> (1 + nth i o 0) * mean dens = nth i dens 0) /\ (forall s, s <> 0 -> overdens (map (Rmult s) dens) = Some o).
Proof.
  intros dens o H. unfold overdens in H. destruct (Req_EM_T (mean dens) 0) as [|N]; [discriminate|]. assert (E : o = map (fun d => d / mean dens - 1) dens) by congruence. clear H. subst o.
  assert (NE : dens <> []) by (intro E; apply N; rewrite E; unfold mean; cbn; unfold Rdiv; ring). assert (NI : INR (length dens) <> 0) by (destruct dens; [congruence|apply not_0_INR; discriminate]).
  split; [apply map_length|]. split; [|split; [|split]].
  - assert (K : forall l, rsum (map (fun d => d / mean dens - 1) l) = rsum l / mean dens - INR (length l)). { induction l as [|v l IH]; [cbn; field; exact N|]. cbn [map length]. rewrite S_INR. cbn [rsum fold_right]. fold (rsum l). fold (rsum (map (fun d => d / mean dens - 1) l)). rewrite IH. field. exact N. }
    rewrite K. assert (E : rsum dens = mean dens * INR (length dens)) by (unfold mean; field; exact NI). rewrite E. field. exact N.
  - intros D v I. apply in_map_iff in I. destruct I as (d & <- & I). assert (0 <= mean dens). { unfold mean. apply Rmult_le_pos; [apply rsum_nonneg; exact D|left; apply Rinv_0_lt_compat; pose proof (pos_INR (length dens)); lra]. }
    assert (0 <= d / mean dens) by (apply Rmult_le_pos; [apply D, I|left; apply Rinv_0_lt_compat; lra]). lra.
  - intros i Hi. rewrite (nth_indep _ 0 ((fun d => d / mean dens - 1) 0)) by (rewrite map_length; exact Hi). rewrite (map_nth (fun d => d / mean dens - 1)). field. exact N.
  - intros s Hs. unfold overdens. assert (M : mean (map (Rmult s) dens) = s * mean dens). { unfold mean. rewrite map_length. replace (rsum (map (Rmult s) dens)) with (s * rsum dens) by (clear; induction dens as [|v l IH]; [cbn; ring|]; cbn [map rsum fold_right]; fold (rsum l); fold (rsum (map (Rmult s) l)); rewrite <- IH; ring). field. exact NI. }
    rewrite M. destruct (Req_EM_T (s * mean dens) 0) as [Z|]; [apply Rmult_integral in Z; tauto|]. f_equal. rewrite map_map. apply map_ext. intro d. field. split; assumption.
Qed.
Print Assumptions C101_overdens.
(** For every list of files: whatever [coeval_overdens] returns comes from the blended density and so has mean zero. *)
Theorem C101_coeval_overdens : forall dzs dcubes z o, coeval_overdens dzs dcubes z true = Some o -> exists d, coeval_xfrac dzs dcubes z = Some d /\ length o = length d /\ rsum o = 0 /\ forall i, (i < length d)%nat -> (1 + nth i o 0) * mean (map Q2R d) = Q2R (nth i d 0%Q).
Proof.
  intros dzs dcubes z o H. unfold coeval_overdens in H. destruct (coeval_xfrac dzs dcubes z) as [d|]; [|discriminate]. destruct (C101_overdens _ _ H) as (L & S & _ & E & _). rewrite map_length in *. exists d. repeat split; try assumption. intros i Hi. rewrite (E i Hi).
  rewrite (nth_indep _ 0 (Q2R 0%Q)) by (rewrite map_length; exact Hi). apply map_nth.
Qed.
Print Assumptions C101_coeval_overdens.
Example C101_overdens_sat : overdens [1; 3] = Some [-1/2; 1/2].
Proof. unfold overdens, mean. cbn [rsum fold_right length]. change (INR 2) with 2. destruct (Req_EM_T ((1 + (3 + 0)) / 2) 0) as [E|N]; [exfalso; lra|]. cbn [map]. apply (f_equal Some). apply (f_equal2 cons); [lra|]. apply (f_equal2 cons); [lra|reflexivity]. Qed.

(** * Velocity cubes *)
(** [coeval_vel] never returns: whatever the files are, some exception is raised, and with readable files on both sides of the redshift it is an AttributeError. *)
Theorem C101_vel_never : forall opens vzs n z linear v, coeval_vel opens vzs n z linear <> Returned v.
Proof.
  intros opens vzs n z linear v. assert (G : forall i, exists e, get_vel opens (length vzs) n i = Raised e). { intro i. unfold get_vel. destruct (i <? length vzs)%nat; [|eauto]. destruct (i <? n)%nat; [|eauto]. destruct (opens i); eauto. }
  unfold coeval_vel. destruct linear; [|discriminate]. destruct (present vzs z); [discriminate|]. destruct (below vzs z); [discriminate|]. destruct (above vzs z); [discriminate|]. destruct (G (low_index vzs z)) as (e & E). rewrite E. discriminate.
Qed.
Print Assumptions C101_vel_never.
Theorem C101_vel_raises : forall opens vzs n z, (forall i, opens i = true) -> length vzs = n ->
  coeval_vel opens vzs n z true = Raised (if existsb (fun x => Qeq_bool x z) vzs then TypeError else if existsb (fun x => Qltb x z) vzs && existsb (fun x => Qltb z x) vzs then AttributeError else ValueError).
Proof.
  intros opens vzs n z O L. unfold coeval_vel, present. destruct (existsb (fun x => Qeq_bool x z) vzs); [reflexivity|].
  assert (F : forall (f : Q -> bool) l, existsb f l = match filter f l with [] => false | _ => true end). { clear. intros f l. induction l as [|x l IH]; [reflexivity|]. cbn. destruct (f x); [reflexivity|exact IH]. }
  rewrite !F. unfold below, above. assert (Am : forall l, l <> [] -> (argmax l < length l)%nat). { clear. induction l as [|x l IH]; [congruence|]. intros _. destruct l as [|w l]; [cbn; destruct (Qle_bool x x) eqn:E; [lia|]; assert (Qle_bool x x = true) by (apply Qle_bool_iff; apply Qle_refl); congruence|]. cbn [argmax length]. cbn [argmax length] in IH. specialize (IH ltac:(discriminate)). match goal with |- ((if ?b then _ else _) < _)%nat => destruct b end; lia. }
  assert (Fl : (length (filter (fun x => Qltb x z) vzs) <= length vzs)%nat) by (clear; induction vzs as [|x l IH]; [cbn; lia|]; cbn; destruct (Qltb x z); cbn; lia). unfold low_index, below.
  destruct (filter (fun x => Qltb x z) vzs) as [|a l] eqn:E; [reflexivity|]. destruct (filter (fun x => Qltb z x) vzs); [reflexivity|]. specialize (Am (a :: l) ltac:(discriminate)). unfold get_vel.
  replace (argmax (a :: l) <? length vzs)%nat with true by (symmetry; apply Nat.ltb_lt; lia). replace (argmax (a :: l) <? n)%nat with true by (symmetry; apply Nat.ltb_lt; lia). rewrite O. reflexivity.
Qed.
Print Assumptions C101_vel_raises.
Example C101_vel_raises_sat : exists (opens : nat -> bool) (vzs : list Q) n, (forall i, opens i = true) /\ length vzs = n.
Proof. exists (fun _ => true), [9; 8]%Q, 2%nat. split; reflexivity. Qed.
Example C101_vel_sat : coeval_vel (fun _ => true) [9; 8]%Q 2 (17 # 2) true = Raised AttributeError.
Proof. reflexivity. Qed.

(** * Mean subtraction slice by slice *)
Lemma subtract_other : forall a b s dt x y k, ~ In k s -> fold_left (subtract_slice a b) s dt x y k = dt x y k.
Proof. intros a b s. induction s as [|i s IH]; intros dt x y k N; [reflexivity|]. cbn [fold_left]. rewrite IH by (intro; apply N; right; assumption). unfold subtract_slice. destruct (Nat.eqb_spec k i) as [-> |]; [exfalso; apply N; left; reflexivity|reflexivity]. Qed.
Lemma subtract_in : forall a b s dt x y k, NoDup s -> In k s -> fold_left (subtract_slice a b) s dt x y k = dt x y k - slice_mean a b dt k.
Proof.
  intros a b s. induction s as [|i s IH]; intros dt x y k N I; [destruct I|]. inversion N as [|? ? N1 N2]. subst. cbn [fold_left]. destruct I as [<- |I].
  - rewrite subtract_other by assumption. unfold subtract_slice. rewrite Nat.eqb_refl. reflexivity.
  - assert (NE : k <> i) by (intro; subst; contradiction). rewrite IH by assumption. unfold subtract_slice. destruct (Nat.eqb_spec k i); [contradiction|]. f_equal. unfold slice_mean. f_equal. f_equal. apply map_ext. intros (u, v). cbn [fst snd]. destruct (Nat.eqb_spec k i); [contradiction|reflexivity].
Qed.
(** Each slice across the third axis ends with mean zero, differs from the slice before by one constant, and only the slices of the cube change. *)
Theorem C101_slices : forall a b n dt k, (0 < a)%nat -> (0 < b)%nat -> (k < n)%nat ->
  rsum (map (fun p => subtract_slices a b n dt (fst p) (snd p) k) (list_prod (seq 0 a) (seq 0 b))) = 0 /\
  (exists m, forall x y, subtract_slices a b n dt x y k = dt x y k - m) /\
  (rsum (map (fun p => dt (fst p) (snd p) k) (list_prod (seq 0 a) (seq 0 b))) = 0 -> forall x y, subtract_slices a b n dt x y k = dt x y k).
Proof.
  intros a b n dt k Ha Hb Hk. assert (E : forall x y, subtract_slices a b n dt x y k = dt x y k - slice_mean a b dt k) by (intros x y; apply subtract_in; [apply seq_NoDup|apply in_seq; lia]).
  assert (NZ : INR (a * b) <> 0) by (apply not_0_INR; nia). split; [|split].
  - rewrite (map_ext _ (fun p => dt (fst p) (snd p) k - slice_mean a b dt k)) by (intro; apply E).
    pose proof (mean_zero (map (fun p => dt (fst p) (snd p) k) (list_prod (seq 0 a) (seq 0 b))) (slice_mean a b dt k)) as M. rewrite map_map in M. apply M.
    + intro C. apply (f_equal (@length R)) in C. rewrite map_length, prod_length, !seq_length in C. cbn [length] in C. nia.
    + unfold mean, slice_mean. rewrite map_length, prod_length, !seq_length. reflexivity.
  - exists (slice_mean a b dt k). exact E.
  - intros Z x y. rewrite E. unfold slice_mean. rewrite Z. field. exact NZ.
Qed.
Print Assumptions C101_slices.
Example C101_slices_sat : exists (a : nat) (b : nat) (n : nat) (k : nat), (0 < a)%nat /\ (0 < b)%nat /\ (k < n)%nat.
Proof. exists 4%nat, 5%nat, 6%nat, 2%nat. repeat split; first [lra | lia | reflexivity | discriminate | congruence | auto]. Qed.
Theorem C101_slices_again : forall a b n dt x y k, (0 < a)%nat -> (0 < b)%nat -> (k < n)%nat -> subtract_slices a b n (subtract_slices a b n dt) x y k = subtract_slices a b n dt x y k.
Proof. intros a b n dt x y k Ha Hb Hk. apply (C101_slices a b n (subtract_slices a b n dt) k Ha Hb Hk). apply (C101_slices a b n dt k Ha Hb Hk). Qed.
Print Assumptions C101_slices_again.
Example C101_slices_again_sat : exists (a : nat) (b : nat) (n : nat) (k : nat), (0 < a)%nat /\ (0 < b)%nat /\ (k < n)%nat.
Proof. exists 4%nat, 5%nat, 6%nat, 2%nat. repeat split; first [lra | lia | reflexivity | discriminate | congruence | auto]. Qed.
(** A constant cube becomes zero, and subtracting the mean of the whole cube is something else: a ramp along the third axis vanishes too. *)
Theorem C101_slices_ramp : forall a b n (f : nat -> R) x y k, (0 < a)%nat -> (0 < b)%nat -> (k < n)%nat -> subtract_slices a b n (fun _ _ k => f k) x y k = 0.
Proof.
  intros a b n f x y k Ha Hb Hk. unfold subtract_slices. rewrite subtract_in by (try apply seq_NoDup; apply in_seq; lia). unfold slice_mean. rewrite rsum_const, prod_length, !seq_length. field. apply not_0_INR; nia.
Qed.
Print Assumptions C101_slices_ramp.
Example C101_slices_ramp_sat : exists (a : nat) (b : nat) (n : nat) (k : nat), (0 < a)%nat /\ (0 < b)%nat /\ (k < n)%nat.
Proof. exists 4%nat, 5%nat, 6%nat, 2%nat. repeat split; first [lra | lia | reflexivity | discriminate | congruence | auto]. Qed.

(** * 21cmFAST files *)
Lemma pyround_near : forall x n, Rabs (x - IZR n) < 1 / 2 -> pyround x = n.
Proof.
  intros x n H. apply Rabs_def2 in H. unfold pyround. destruct (base_Int_part (x + 1 / 2)) as [A B]. assert (K : Int_part (x + 1 / 2) = n).
  { assert (Int_part (x + 1 / 2) < n + 1)%Z by (apply lt_IZR; rewrite plus_IZR; lra). assert (n < Int_part (x + 1 / 2) + 1)%Z by (apply lt_IZR; rewrite plus_IZR; lra). lia. }
  rewrite K. destruct (Req_EM_T (x + 1 / 2) (IZR n)); [exfalso; lra|reflexivity].
Qed.
Lemma pyround_below : forall x n, x + 1 / 2 < IZR n -> (pyround x < n)%Z.
Proof. intros x n H. unfold pyround. destruct (base_Int_part (x + 1 / 2)) as [A B]. assert (Int_part (x + 1 / 2) < n)%Z by (apply lt_IZR; lra). destruct (Req_EM_T _ _); [destruct (Z.even _)|]; lia. Qed.
Lemma power_cube : forall n, (0 < n)%nat -> Rpower (INR (n ^ 3)) (333333 / 1000000) = INR n * exp (- (ln (INR n) / 1000000)).
Proof.
  intros n Hn. assert (P : 0 < INR n) by (apply lt_0_INR; exact Hn). unfold Rpower. rewrite pow_INR. replace (ln (INR n ^ 3)) with (3 * ln (INR n)) by (cbn [pow]; rewrite Rmult_1_r, !ln_mult by (try apply Rmult_lt_0_compat; assumption); ring).
  replace (333333 / 1000000 * (3 * ln (INR n))) with (ln (INR n) + - (ln (INR n) / 1000000)) by field. rewrite exp_plus, exp_ln by exact P. reflexivity.
Qed.
Lemma ln_upper : forall x, 0 < x -> x <= 40000 -> ln x < 12.
Proof.
  intros x P H. rewrite <- (ln_exp 12). apply ln_increasing; [exact P|]. apply (Rle_lt_trans _ 40000); [exact H|].
  assert (E : 11 / 10 < exp (1 / 10)) by (apply (Rle_lt_trans _ (1 + 1 / 10)); [lra|apply exp_ineq1; lra]). replace 12 with (INR 120 * (1 / 10)) by (rewrite INR_IZR_INZ; cbn [Z.of_nat Pos.of_succ_nat Pos.succ]; field). assert (EP : forall k y, exp (INR k * y) = exp y ^ k). { clear. induction k as [|k IH]; intro y; [cbn; rewrite Rmult_0_l; apply exp_0|]. rewrite S_INR, Rmult_plus_distr_r, Rmult_1_l, exp_plus, IH. cbn [pow]. ring. }
  rewrite EP. apply (Rlt_le_trans _ ((11 / 10) ^ 120)); [|apply pow_incr; lra]. change 120%nat with (30 * 4)%nat. rewrite pow_mult. apply (Rlt_le_trans _ (17 ^ 4)); [lra|]. apply pow_incr. split; [lra|]. lra.
Qed.
Lemma ln_lower : forall x, 60000 <= x -> 9 <= ln x.
Proof.
  intros x H. rewrite <- (ln_exp 9). assert (E : exp 9 <= 3 ^ 9). { replace 9 with (INR 9 * 1) by (rewrite INR_IZR_INZ; cbn; ring). assert (EP : forall k y, exp (INR k * y) = exp y ^ k). { clear. induction k as [|k IH]; intro y; [cbn; rewrite Rmult_0_l; apply exp_0|]. rewrite S_INR, Rmult_plus_distr_r, Rmult_1_l, exp_plus, IH. cbn [pow]. ring. } rewrite EP. apply pow_incr. split; [left; apply exp_pos|apply exp_le_3]. }
  destruct (Req_dec (exp 9) x) as [<- |N]; [lra|]. left. apply ln_increasing; [apply exp_pos|]. assert (3 ^ 9 = 19683) by ring. lra.
Qed.
Lemma dim_cube : forall n, (Z.of_nat n <= 40000)%Z -> dim (n ^ 3) = n.
Proof.
  intros n H. unfold dim. destruct (Nat.eqb_spec (n ^ 3) 0) as [Z|NZ]; [destruct n; [reflexivity|]; exfalso; revert Z; apply Nat.pow_nonzero; discriminate|].
  assert (Hn : (0 < n)%nat) by (destruct n; [cbn in NZ; lia|lia]). rewrite power_cube by exact Hn. assert (P : 1 <= INR n) by (apply (le_INR 1); lia). assert (U : INR n <= 40000) by (rewrite INR_IZR_INZ; apply IZR_le; lia).
  set (x := ln (INR n) / 1000000). assert (X0 : 0 <= x). { unfold x. apply Rmult_le_pos; [|lra]. rewrite <- ln_1. destruct P as [P|P]; [left; apply ln_increasing; lra|rewrite <- P; lra]. }
  assert (X1 : x <= 12 / 1000000). { unfold x. pose proof (ln_upper (INR n) ltac:(lra) U). lra. }
  rewrite (pyround_near _ (Z.of_nat n)); [lia|]. rewrite <- INR_IZR_INZ. assert (E1 : 1 - x <= exp (- x)). { destruct (Req_dec x 0) as [-> |N]; [rewrite Ropp_0, exp_0; lra|]. left. pose proof (exp_ineq1 (- x) ltac:(lra)). lra. }
  assert (E2 : exp (- x) <= 1). { rewrite <- exp_0. destruct (Req_dec x 0) as [-> |N]; [rewrite Ropp_0; lra|]. left. apply exp_increasing. lra. }
  replace (INR n * exp (- x) - INR n) with (- (INR n * (1 - exp (- x)))) by ring. rewrite Rabs_Ropp, Rabs_right by (apply Rle_ge, Rmult_le_pos; lra).
  apply (Rle_lt_trans _ (40000 * (12 / 1000000))); [|lra]. apply Rmult_le_compat; lra.
Qed.
Lemma dim_large : forall n, (60000 <= Z.of_nat n)%Z -> (dim (n ^ 3) < n)%nat.
Proof.
  intros n H. unfold dim. destruct (Nat.eqb_spec (n ^ 3) 0) as [Z|NZ]; [exfalso; revert Z; apply Nat.pow_nonzero; lia|]. rewrite power_cube by lia. assert (L : 60000 <= INR n) by (rewrite INR_IZR_INZ; apply IZR_le; lia).
  set (x := ln (INR n) / 1000000). assert (X : 9 / 1000000 <= x) by (unfold x; pose proof (ln_lower (INR n) L); lra).
  assert (E : exp (- x) <= 1 - 89 / 10000000). { rewrite exp_Ropp. pose proof (exp_ineq1 x ltac:(lra)) as G. apply (Rle_trans _ (/ (1 + 9 / 1000000))); [apply Rinv_le_contravar; lra|]. apply (Rmult_le_reg_l (1 + 9 / 1000000)); [lra|]. rewrite Rinv_r by lra. lra. }
  assert (B : INR n * exp (- x) + 1 / 2 < IZR (Z.of_nat n)). { rewrite <- INR_IZR_INZ. assert (INR n * exp (- x) <= INR n * (1 - 89 / 10000000)) by (apply Rmult_le_compat_l; lra). lra. }
  pose proof (pyround_below _ _ B). lia.
Qed.
(** A file with n^3 numbers is read as a cube of side n in C order, for n up to 40000... *)
Theorem C101_fast : forall {A} (d : A) (data : list A) n, length data = (n ^ 3)%nat -> (Z.of_nat n <= 40000)%Z -> exists cube, read_21cmfast d data = Some (n, cube) /\ forall i j k, (i < n)%nat -> (j < n)%nat -> (k < n)%nat -> nth_error data (n * n * i + n * j + k) = Some (cube i j k).
Proof.
  intros A d data n L H. unfold read_21cmfast. rewrite L, (dim_cube n H), Nat.eqb_refl. eexists. split; [reflexivity|]. intros i j k Hi Hj Hk. cbv beta. replace ((i * n + j) * n + k)%nat with (n * n * i + n * j + k)%nat by ring. apply nth_error_nth'. rewrite L. cbn [Nat.pow]. rewrite Nat.mul_1_r.
  assert (n * j + k < n * n)%nat by nia. nia.
Qed.
Print Assumptions C101_fast.
(** ... anything else that is read is a cube too: the side to the third power is the number of values; other files raise... *)
Theorem C101_fast_only : forall {A} (d : A) (data : list A) n cube, read_21cmfast d data = Some (n, cube) -> length data = (n ^ 3)%nat.
Proof. intros A d data n cube H. unfold read_21cmfast in H. destruct (Nat.eqb_spec (dim (length data) ^ 3) (length data)) as [E|]; [|discriminate]. injection H as <- _. symmetry. exact E. Qed.
Print Assumptions C101_fast_only.
(** ... but the exponent is 0.333333, not one third: every cube of side 60000 or more raises. *)
Theorem C101_fast_large_refuted : forall {A} (d : A) (data : list A) n, length data = (n ^ 3)%nat -> (60000 <= Z.of_nat n)%Z -> read_21cmfast d data = None.
Proof.
  intros A d data n L H. unfold read_21cmfast. rewrite L. destruct (Nat.eqb_spec (dim (n ^ 3) ^ 3) (n ^ 3)) as [E|]; [|reflexivity]. exfalso. pose proof (dim_large n H) as D. set (m := dim (n ^ 3)) in *. clearbody m. clear - D E. assert (m ^ 3 < n ^ 3)%nat by (apply Nat.pow_lt_mono_l; [discriminate|exact D]). lia.
Qed.
Print Assumptions C101_fast_large_refuted.
Example C101_fast_large_refuted_sat : exists (data : list nat) n, length data = (n ^ 3)%nat /\ (60000 <= Z.of_nat n)%Z.
Proof. exists (repeat 0%nat (Z.to_nat 60000 ^ 3)), (Z.to_nat 60000). split; [apply repeat_length|lia]. Qed.
Example C101_fast_sat : exists cube, read_21cmfast 0%nat (seq 0 8) = Some (2%nat, cube) /\ cube 1%nat 0%nat 1%nat = 5%nat.
Proof. destruct (C101_fast 0%nat (seq 0 8) 2 eq_refl ltac:(lia)) as (c & E & F). exists c. split; [exact E|]. pose proof (F 1%nat 0%nat 1%nat ltac:(lia) ltac:(lia) ltac:(lia)) as G. cbn in G. congruence. Qed.

(** * C2-Ray files *)
(** A kind of file is read only when it is 'xfrac' or 'dens'; velocities are never read, whatever is passed as the density file. *)
Theorem C101_c2ray : forall {A} t dfile (xi dens : outcome A) v, read_c2ray t dfile xi dens = Returned v <-> (t = Xfrac /\ xi = Returned v) \/ (t = Dens /\ dens = Returned v).
Proof. intros A t dfile xi dens v. destruct t; cbn; try (destruct dfile); split; intuition (try discriminate; try congruence). Qed.
Print Assumptions C101_c2ray.
Theorem C101_c2ray_velocity_refuted : forall {A} (xi dens : outcome A), read_c2ray Vel DString xi dens = Raised AttributeError /\ read_c2ray Vel DNone xi dens = Raised AssertionError /\ read_c2ray Other DString xi dens = Raised AssertionError.
Proof. intros. repeat split. Qed.
Print Assumptions C101_c2ray_velocity_refuted.
(** GRIZZLY files are read as ionised fractions, like C2-Ray files of that type, whatever their type. *)
Theorem C101_grizzly : forall {A} t dfile (xi dens : outcome A), read_grizzly xi = read_c2ray Xfrac dfile xi dens /\ (forall v, read_grizzly xi = Returned v -> read_c2ray t dfile xi dens = Returned v -> t = Xfrac \/ (t = Dens /\ dens = Returned v)).
Proof. intros A t dfile xi dens. split; [reflexivity|]. intros v G E. apply C101_c2ray in E. destruct E as [[T _]|T]; [left; exact T|right; exact T]. Qed.
Print Assumptions C101_grizzly.

(** * Halo temperature *)
(** The signal of a cell is the mean signal times its halo mass over the mean baryon mass of a cell; the helium fraction and the proton mass cancel. *)
Theorem C101_halo : forall c mp Ob rhoc n mhalo box z Yp dt, 0 < mp -> 0 < Ob -> 0 < rhoc -> 0 < box -> calc_dt_halo c mp Ob rhoc n mhalo box z Yp = Some dt ->
  length dt = length mhalo /\ (forall i, (i < length mhalo)%nat -> nth i dt 0 * (Ob * rhoc * (box / INR n) ^ 3) = mean_dt c z * nth i mhalo 0) /\
  (forall Yp' mp', Yp' <> 1 -> 0 < mp' -> calc_dt_halo c mp' Ob rhoc n mhalo box z Yp' = Some dt).
Proof.
  intros c mp Ob rhoc n mhalo box z Yp dt Pm Po Pr Pb H. assert (K : forall mp Yp, 0 < mp -> 1 - Yp <> 0 -> INR n <> 0 -> forall m, mean_dt c z * (m / (box / INR n) ^ 3 / (1 / (1 - Yp)) / mp / (Ob * rhoc / (1 / (1 - Yp)) / mp)) = mean_dt c z * m / (Ob * rhoc * (box / INR n) ^ 3)).
  { clear - Po Pr Pb. intros mp Yp Pm NY NN m. assert (box / INR n <> 0) by (intro E; apply (Rmult_integral_contrapositive box (/ INR n)); [split; [lra|apply Rinv_neq_0_compat, NN]|exact E]). assert (NV : (box / INR n) ^ 3 <> 0) by (apply pow_nonzero; assumption). set (V := (box / INR n) ^ 3) in *. clearbody V. set (q := 1 - Yp) in *. clearbody q. field. repeat split; lra. }
  unfold calc_dt_halo in H. destruct (Req_EM_T (1 - Yp) 0) as [|NY]; [discriminate|]. destruct (Nat.eqb_spec n 0) as [|Nn]; [discriminate|]. assert (NN : INR n <> 0) by (apply not_0_INR; exact Nn).
  assert (E : dt = map (fun m => mean_dt c z * m / (Ob * rhoc * (box / INR n) ^ 3)) mhalo). { assert (E : dt = map (fun m => mean_dt c z * (m / (box / INR n) ^ 3 / (1 / (1 - Yp)) / mp / (Ob * rhoc / (1 / (1 - Yp)) / mp))) mhalo) by congruence. rewrite E. apply map_ext. intro m. apply K; assumption. }
  clear H. subst dt. split; [apply map_length|]. split.
  - intros i Hi. set (D := Ob * rhoc * (box / INR n) ^ 3). assert (ND : D <> 0). { unfold D. assert (0 < INR n) by (apply lt_0_INR; lia). assert (0 < (box / INR n) ^ 3) by (apply pow_lt, Rdiv_lt_0_compat; assumption). assert (0 < Ob * rhoc) by (apply Rmult_lt_0_compat; assumption). assert (0 < Ob * rhoc * (box / INR n) ^ 3) by (apply Rmult_lt_0_compat; assumption). lra. }
    set (f := fun m => mean_dt c z * m / D). rewrite (nth_indep _ 0 (f 0)) by (rewrite map_length; exact Hi). rewrite (map_nth f). unfold f. field. exact ND.
  - intros Yp' mp' NY' Pm'. unfold calc_dt_halo. destruct (Req_EM_T (1 - Yp') 0) as [E|NYp]; [exfalso; lra|]. destruct (Nat.eqb_spec n 0); [contradiction|]. f_equal. apply map_ext. intro m. apply K; assumption.
Qed.
Print Assumptions C101_halo.
(** The mean over a cube of n^3 cells is the mean signal times the fraction of the box's baryons in the halo masses; the signal is linear in the masses. *)
Theorem C101_halo_mean : forall c mp Ob rhoc n mhalo box z Yp dt, 0 < mp -> 0 < Ob -> 0 < rhoc -> 0 < box -> length mhalo = (n ^ 3)%nat -> calc_dt_halo c mp Ob rhoc n mhalo box z Yp = Some dt ->
  mean dt = mean_dt c z * (rsum mhalo / (Ob * rhoc * box ^ 3)).
Proof.
  intros c mp Ob rhoc n mhalo box z Yp dt Pm Po Pr Pb L H. destruct (C101_halo c mp Ob rhoc n mhalo box z Yp dt Pm Po Pr Pb H) as (Ld & E & _).
  assert (Nn : INR n <> 0). { unfold calc_dt_halo in H. destruct (Req_EM_T (1 - Yp) 0); [discriminate|]. destruct (Nat.eqb_spec n 0); [discriminate|]. apply not_0_INR. assumption. }
  set (D := Ob * rhoc * (box / INR n) ^ 3) in *. assert (S : rsum dt * D = mean_dt c z * rsum mhalo).
  { clearbody D. clear - Ld E. revert mhalo Ld E. induction dt as [|v dt IH]; intros m Ld E; destruct m as [|w m]; try discriminate; [cbn; ring|]. cbn [rsum fold_right]. fold (rsum dt). fold (rsum m). rewrite Rmult_plus_distr_r, (IH m); [|cbn in Ld; congruence|intros i Hi; apply (E (S i)); cbn; lia].
    pose proof (E 0%nat ltac:(cbn; lia)) as E0. cbn [nth] in E0. rewrite E0. ring. }
  assert (V : D * INR n ^ 3 = Ob * rhoc * box ^ 3) by (unfold D; field; exact Nn). assert (NV : Ob * rhoc * box ^ 3 <> 0). { assert (0 < box ^ 3) by (apply pow_lt, Pb). assert (0 < Ob * rhoc) by (apply Rmult_lt_0_compat; assumption). assert (0 < Ob * rhoc * box ^ 3) by (apply Rmult_lt_0_compat; assumption). lra. }
  assert (ND : D <> 0) by (intro Z; apply NV; rewrite <- V, Z; ring). unfold mean. rewrite Ld, L, pow_INR. rewrite <- V. assert (rsum dt = mean_dt c z * rsum mhalo / D) as -> by (rewrite <- S; field; exact ND). field. split; assumption.
Qed.
Print Assumptions C101_halo_mean.
Theorem C101_halo_raises : forall c mp Ob rhoc n mhalo box z Yp, calc_dt_halo c mp Ob rhoc n mhalo box z Yp = None <-> Yp = 1 \/ n = 0%nat.
Proof.
  intros. unfold calc_dt_halo. destruct (Req_EM_T (1 - Yp) 0) as [E|N]; [split; [left; lra|reflexivity]|]. destruct (Nat.eqb_spec n 0) as [->|Nn]; [split; [right; reflexivity|reflexivity]|]. split; [discriminate|]. intros [E|E]; [exfalso; lra|contradiction].
Qed.
Print Assumptions C101_halo_raises.
Example C101_halo_sat : exists dt, calc_dt_halo (Cosmo (1/4) (3/4) (7/10) 10 1 (1/20) 3) 1 (1/20) 2 1 [5] 10 7 (1/4) = Some dt.
Proof. unfold calc_dt_halo. destruct (Req_EM_T (1 - 1/4) 0) as [E|]; [exfalso; lra|]. eexists. reflexivity. Qed.

(** * Velocities *)
(** The velocity of a cell is eight times the momentum over the density, in the unit of the file's redshift: it ignores the common unit of momentum and density,
    and vanishes for a file whose redshift is unknown (recorded as -1). *)
Theorem C101_kms : forall v z raw density, density <> 0 -> ConstModel.tscale v <> 0 ->
  kms v z raw density * density * ConstModel.tscale v * 10 ^ 5 = 8 * raw * ConstModel.lscale v * (1 + z) /\ (forall s, s <> 0 -> kms v z (s * raw) (s * density) = kms v z raw density) /\ kms v (-1) raw density = 0.
Proof.
  intros v z raw density N T. unfold kms, kmsrho8, ConstModel.velconvert. repeat split.
  - field. repeat split; assumption.
  - intros s Hs. field. repeat split; assumption.
  - field. split; assumption.
Qed.
Print Assumptions C101_kms.
Example C101_halo_mean_sat : exists (c : cosmo) (mp : R) (Ob : R) (rhoc : R) (n : nat) (mhalo : list R) (box : R) (z : R) (Yp : R) (dt : list R), 0 < mp /\ 0 < Ob /\ 0 < rhoc /\ 0 < box /\ length mhalo = (n ^ 3)%nat /\ calc_dt_halo c mp Ob rhoc n mhalo box z Yp = Some dt.
Proof. destruct C101_halo_sat as [dt E]. exists (Cosmo (1/4) (3/4) (7/10) 10 1 (1/20) 3), 1, (1/20), 2, 1%nat, [5], 10, 7, (1/4), dt. repeat split; try lra; try reflexivity. exact E. Qed.
Example C101_fast_only_sat : exists (d : nat) (data : list nat) n cube, read_21cmfast d data = Some (n, cube).
Proof. destruct C101_fast_sat as (c & E & _). exists 0%nat, (seq 0 8), 2%nat, c. exact E. Qed.
