(** More of C58: the whole of [get_lightcone_subvolume]. *)
From Coq Require Import List Arith ZArith QArith Qabs Bool Lia Lqa.
From Verif Require Import LcModel LcSpec LcProofs LcProps SubvolModel.
Import ListNotations.
Local Open Scope Q_scope.

(** "You must give exactly one" of the depths is not checked: with both, the one in Mpc is
    used and the other ignored; only with neither does the call fail for that reason. *)
Theorem C58_depths : forall nu0 LB D Z lc zs cz mhz mpc odd sub fov verbose,
  get_lightcone_subvolume nu0 LB D Z lc zs cz mhz (Some mpc) odd sub fov verbose
  = get_lightcone_subvolume nu0 LB D Z lc zs cz None (Some mpc) odd sub fov verbose
  /\ get_lightcone_subvolume nu0 LB D Z lc zs cz None None odd sub fov verbose = None.
Proof. intros. split; reflexivity. Qed.
Print Assumptions C58_depths.

(** The sides that are returned: the field of view twice, and the depth. A depth in Mpc comes
    back unchanged, however many slices were cut; a depth in MHz gives the distance between
    the redshifts of the two end frequencies. *)
Theorem C58_dims : forall nu0 LB D Z lc zs cz mhz mpc odd sub fov verbose out,
  get_lightcone_subvolume nu0 LB D Z lc zs cz mhz mpc odd sub fov verbose = Some out ->
  exists d, box_dims out = (match fov with Some f => f | None => LB end, match fov with Some f => f | None => LB end, d) /\
  (forall m, mpc = Some m -> d == m) /\
  (forall m, mpc = None -> mhz = Some m ->
     d = D (nu0 / (nu0 / (1 + cz) - m / 2) - 1) - D (nu0 / (nu0 / (1 + cz) + m / 2) - 1)).
Proof.
  intros nu0 LB D Z lc zs cz mhz mpc odd sub fov verbose out. unfold get_lightcone_subvolume, ends.
  destruct mpc as [m|]; [|destruct mhz as [m|]; [|discriminate]];
    destruct (subvolume_range _ _ _ _ _) as [[a b]|]; try discriminate; intros H; injection H as <-; cbn [box_dims]; eexists;
    (split; [reflexivity|]); split; intros m' E; try discriminate.
  - injection E as <-. field.
  - intros E'. injection E' as <-. reflexivity.
Qed.
Print Assumptions C58_dims.

Lemma cut_nth {A} a b (l : list A) k : nth_error (cut a b l) k = if (k <? b - a)%nat then nth_error l (a + k) else None.
Proof.
  unfold cut. destruct (Nat.ltb_spec k (b - a)).
  - rewrite <- (firstn_skipn a l) at 2. destruct (le_lt_dec a (length l)) as [L|L].
    + rewrite nth_error_app2; rewrite firstn_length_le by exact L; [|lia].
      replace (a + k - a)%nat with k by lia. revert k H. generalize (b - a)%nat. generalize (skipn a l).
      induction l0 as [|x l0 IH]; intros n k H; [destruct n, k; reflexivity|].
      destruct n; [lia|]. destruct k; [reflexivity|]. cbn [firstn nth_error]. apply IH. lia.
    + rewrite skipn_all2 by lia. rewrite firstn_nil, app_nil_r. rewrite firstn_all2 by lia.
      transitivity (@None A); [destruct k; reflexivity|]. symmetry. apply nth_error_None. lia.
  - apply nth_error_None. rewrite firstn_length. lia.
Qed.

Lemma qsum_sub l m : qsum (map (fun x => x - m) l) == qsum l - inject_Z (Z.of_nat (length l)) * m.
Proof.
  induction l as [|x l IH]; cbn [map qsum fold_right length]; [unfold inject_Z; cbn; ring|].
  fold (qsum (map (fun x => x - m) l)). fold (qsum l). rewrite IH, Nat2Z.inj_succ. unfold Z.succ. rewrite inject_Z_plus. cbn. ring.
Qed.

(** What is returned: consecutive slices with their redshifts. It starts at the slice whose
    redshift is nearest to the low end, and stops before the one nearest to the high end, or
    just after it if an odd number is asked for and needed. With [subtract_mean] each slice
    has its own mean subtracted, so that it has mean 0; otherwise it is copied. *)
Theorem C58_slices : forall nu0 LB D Z lc zs cz mhz mpc odd sub fov verbose out low_z high_z,
  chain (fun x y => x < y) zs -> length lc = length zs ->
  match mpc, mhz with
  | Some m, _ => low_z = Z (D (nu0 / (nu0 / (1 + cz)) - 1) - m / 2) /\ high_z = Z (D (nu0 / (nu0 / (1 + cz)) - 1) + m / 2)
  | None, Some m => low_z = nu0 / (nu0 / (1 + cz) + m / 2) - 1 /\ high_z = nu0 / (nu0 / (1 + cz) - m / 2) - 1
  | None, None => True
  end -> low_z <= high_z ->
  get_lightcone_subvolume nu0 LB D Z lc zs cz mhz mpc odd sub fov verbose = Some out ->
  exists first last za zl,
    nth_error zs first = Some za /\ (forall x, In x zs -> Qabs (za - low_z) <= Qabs (x - low_z)) /\
    nth_error zs last = Some zl /\ (forall x, In x zs -> Qabs (zl - high_z) <= Qabs (x - high_z)) /\
    (first <= last)%nat /\
    (let n := length (sub_redshifts out) in
     length (subbox out) = n /\
     (odd = false -> n = (last - first)%nat) /\
     (odd = true -> Nat.odd n = true /\ (n = (last - first)%nat \/ n = S (last - first))) /\
     (forall k, (k < n)%nat -> nth_error (sub_redshifts out) k = nth_error zs (first + k) /\
        exists s s', nth_error lc (first + k) = Some s /\ nth_error (subbox out) k = Some s' /\ length s' = length s /\
          (sub = false -> s' = s) /\
          (sub = true -> s <> [] -> qsum s' == 0 /\ exists m, forall i x, nth_error s i = Some x -> nth_error s' i = Some (x - m)))).
Proof.
  intros nu0 LB D Z lc zs cz mhz mpc odd sub fov verbose out low high C Ln Hends Hlh H.
  unfold get_lightcone_subvolume in H.
  assert (Hr : exists a b, subvolume_range zs low high odd verbose = Some (a, b) /\
     sub_redshifts out = cut a b zs /\ subbox out = (if sub then map center_slice (cut a b lc) else cut a b lc)).
  { unfold ends, nu_to_z, z_to_nu in H. destruct mpc as [m|]; [|destruct mhz as [m|]; [|discriminate]]; destruct Hends as [-> ->];
      match type of H with context [subvolume_range ?z ?l ?h ?o ?v] => destruct (subvolume_range z l h o v) as [[a b]|] eqn:E end;
      try discriminate; injection H as <-; exists a, b; cbn [sub_redshifts subbox]; repeat split; reflexivity. }
  destruct Hr as (a & b & Er & E1 & E2).
  pose proof (C58_subvolume_range zs low high odd verbose a b C Hlh Er) as (L & Ho & Ea & Eb).
  assert (N : zs <> []).
  { intros ->. discriminate. }
  destruct (nearest_spec zs low N) as (za & Xa & Ya & _). destruct (nearest_spec zs high N) as (zl & Xl & Yl & _).
  pose proof (nearest_mono zs low high N C Hlh) as M. pose proof (nearest_lt zs high N) as B.
  exists (nearest zs low), (nearest zs high), za, zl.
  do 5 (split; [assumption|]). cbv zeta.
  assert (Lz : length (cut a b zs) = (b - a)%nat).
  { unfold cut. rewrite firstn_length, skipn_length. lia. }
  assert (Lc : length (cut a b lc) = (b - a)%nat).
  { unfold cut. rewrite firstn_length, skipn_length. lia. }
  rewrite E1, E2, Lz. rewrite <- Ea.
  split; [destruct sub; rewrite ?map_length; exact Lc|].
  split; [intros ->; destruct Eb as [->|[K _]]; [reflexivity|discriminate]|].
  split.
  { intros O. split; [now apply Ho|]. destruct Eb as [->|[_ ->]]; [left|right]; lia. }
  intros k Hk. rewrite cut_nth. replace (k <? b - a)%nat with true by (symmetry; now apply Nat.ltb_lt). split; [reflexivity|].
  destruct (nth_error lc (a + k)) as [s|] eqn:Es.
  2:{ apply nth_error_None in Es. lia. }
  assert (Ec : nth_error (cut a b lc) k = Some s) by (rewrite cut_nth; replace (k <? b - a)%nat with true by (symmetry; now apply Nat.ltb_lt); exact Es).
  exists s, (if sub then center_slice s else s). split; [reflexivity|]. split; [destruct sub; [now apply map_nth_error|exact Ec]|].
  split; [destruct sub; [unfold center_slice; now rewrite map_length|reflexivity]|].
  split; [intros ->; reflexivity|]. intros -> Ns. split.
  - unfold center_slice. rewrite qsum_sub. unfold slice_mean. field.
    destruct s; [congruence|]. cbn [length]. unfold inject_Z, Qeq. cbn. lia.
  - exists (slice_mean s). intros i x Hx. unfold center_slice. now apply (map_nth_error (fun x => x - slice_mean s)).
Qed.
Print Assumptions C58_slices.
Example C58_slices_sat : exists (lc : list (list Q)) zs, chain (fun x y => x < y) zs /\ length lc = length zs.
Proof. exists [[1; 3]; [2; 4]; [5; 5]], [8; 9; 10]. split; [|reflexivity]. intros [|[|[|k]]] x y A B; cbn in A, B; try discriminate; injection A as <-; injection B as <-; reflexivity. Qed.

(** Every slice inside the asked range is returned, except possibly the one nearest to its
    high end. *)
Theorem C58_covers : forall zs low_z high_z odd verbose a b k z,
  chain (fun x y => x < y) zs -> low_z <= high_z ->
  subvolume_range zs low_z high_z odd verbose = Some (a, b) ->
  nth_error zs k = Some z -> low_z <= z <= high_z ->
  (a <= k < b)%nat \/ (k = b /\ forall x, In x zs -> Qabs (z - high_z) <= Qabs (x - high_z)).
Proof.
  intros zs low high odd verbose a b k z C L Er Ek [B1 B2].
  pose proof (C58_subvolume_range zs low high odd verbose a b C L Er) as (_ & _ & Ea & Eb).
  assert (N : zs <> []) by (intros ->; discriminate).
  destruct (nearest_spec zs low N) as (za & Xa & Ya & _). destruct (nearest_spec zs high N) as (zl & Xl & Yl & _).
  assert (K1 : (a <= k)%nat).
  { destruct (le_lt_dec a k) as [|G]; [assumption|exfalso]. rewrite Ea in G.
    pose proof (chain_lt zs C k _ z za G Ek Xa) as Lt. specialize (Ya z (nth_error_In _ _ Ek)).
    rewrite (Qabs_pos (z - low)), (Qabs_pos (za - low)) in Ya; lra. }
  assert (K2 : (k <= nearest zs high)%nat).
  { destruct (le_lt_dec k (nearest zs high)) as [|G]; [assumption|exfalso].
    pose proof (chain_lt zs C _ k zl z G Xl Ek) as Lt. specialize (Yl z (nth_error_In _ _ Ek)).
    rewrite (Qabs_neg (z - high)), (Qabs_neg (zl - high)) in Yl; lra. }
  destruct (Nat.eq_dec k b) as [->|Nk].
  - right. split; [reflexivity|]. destruct Eb as [Eb|[_ Eb]]; [|lia].
    rewrite <- Eb, Ek in Xl. injection Xl as <-. exact Yl.
  - left. lia.
Qed.
Print Assumptions C58_covers.
Example C58_covers_sat : exists (zs : list Q) (low_z : Q) (high_z : Q) (odd : bool) (verbose : bool) (a : nat) (b : nat) (k : nat) (z : Q), (chain (fun x y => x < y) zs) /\ low_z <= high_z /\ subvolume_range zs low_z high_z odd verbose = Some (a, b) /\ nth_error zs k = Some z /\ low_z <= z <= high_z.
Proof. eexists [7; 8; 9; 10], (15#2), (19#2), false, false, _, _, 1%nat, _. split; [intros [|[|[|[|k]]]] x y A B; cbn in A, B; try discriminate; injection A as <-; injection B as <-; reflexivity|]. split; [discriminate|]. split; [vm_compute; reflexivity|]. split; [reflexivity|]. split; discriminate. Qed.

Example C58_call_sat : exists s,
  get_lightcone_subvolume 1420 714 (fun z => 1000 * z) (fun d => d / 1000) [[1; 3]; [2; 4]; [5; 5]; [0; 6]; [1; 1]] [8; 9; 10; 11; 12]
    10 None (Some 1700) true true None true = Some s
  /\ sub_redshifts s = [9; 10; 11] /\ map (map Qred) (subbox s) = [[-1; 1]; [0; 0]; [-3; 3]].
Proof. eexists. split; [vm_compute; reflexivity|]. split; [reflexivity|]. reflexivity. Qed.
