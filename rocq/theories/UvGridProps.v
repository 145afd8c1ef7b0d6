(** Properties C04-C06: gridding of uv tracks. *)
From Coq Require Import List Arith ZArith QArith Lia Bool ZifyBool.
From Verif Require Import PyBase PyBaseProofs UvGridModel UvGridSpec UvGridProofs.
Import ListNotations.
Local Open Scope nat_scope.

Definition ex_bs : list baseline :=
  [((3#2), (-1), 0); (0, 0, 0); ((-7#3), 2, 1); (40, 1, 5); ((-2), (-2), 0)]%Q.

(** C04: the call never raises, the map is n x n, and its entries add up to the
    number of in-range baselines. *)
Theorem C04_uv_grid_conserves :
  forall n theta bs, exists m,
    grid_uv_tracks false n theta bs = Some m
    /\ length m = n /\ Forall (fun r => length r = n) m
    /\ (total m == inject_Z (Z.of_nat (visible n theta bs)))%Q.
Proof.
  intros n theta bs. eexists. split; [apply grid_eq|].
  destruct (table2_shape n (fun i j => scale false (hits (shift n) n theta bs (Z.of_nat i) (Z.of_nat j)))) as [H1 H2].
  split; [exact H1|]. split; [exact H2|].
  rewrite total_scale, sum2_hits. reflexivity.
Qed.
Print Assumptions C04_uv_grid_conserves.

Example C04_uv_grid_conserves_sat : visible 8 1 ex_bs = 4 /\ visible 4 1 ex_bs = 2.
Proof. vm_compute. auto. Qed.

(** C04, with mirrored baselines: both halves are counted with weight 1/2. *)
Theorem C04_uv_grid_conserves_mirror :
  forall n theta bs, exists m,
    grid_uv_tracks true n theta bs = Some m
    /\ length m = n /\ Forall (fun r => length r = n) m
    /\ (total m == (inject_Z (Z.of_nat (visible n theta bs))
                    + inject_Z (Z.of_nat (visible n theta (map bneg bs)))) / 2)%Q.
Proof.
  intros n theta bs. eexists. split; [apply grid_eq|].
  destruct (table2_shape n (fun i j => scale true (hits (shift n) n theta (bs ++ map bneg bs) (Z.of_nat i) (Z.of_nat j)))) as [H1 H2].
  split; [exact H1|]. split; [exact H2|].
  rewrite total_scale, sum2_hits. unfold scale, all_baselines, visible.
  rewrite filter_app, app_length, Nat2Z.inj_add, inject_Z_plus. reflexivity.
Qed.
Print Assumptions C04_uv_grid_conserves_mirror.

Example C04_uv_grid_mirror_sat :
  visible 4 1 ex_bs = 2 /\ visible 4 1 (map bneg ex_bs) = 2.
Proof. vm_compute. auto. Qed.

(** C04: no entry is negative. *)
Theorem C04_uv_grid_nonneg :
  forall mirror n theta bs m i j q,
    grid_uv_tracks mirror n theta bs = Some m -> entry m i j = Some q -> (0 <= q)%Q.
Proof.
  intros mirror n theta bs m i j q H Hq.
  rewrite grid_eq in H.
  match type of H with Some ?t = _ => assert (E : m = t) by congruence end.
  rewrite E in Hq. unfold entry in Hq.
  destruct (nth_error _ i) as [r|] eqn:Er; [|discriminate].
  apply nth_error_In in Er, Hq. unfold table2 in Er.
  apply in_map_iff in Er as (a & <- & _). apply in_map_iff in Hq as (b & <- & _).
  unfold scale. destruct mirror; unfold Qle, Qdiv, Qmult; cbn -[Z.mul Z.of_nat]; lia.
Qed.
Print Assumptions C04_uv_grid_nonneg.
Example C04_uv_grid_nonneg_sat : exists (mirror : bool) (n : nat) (theta : Q) (bs : list baseline) (m : list (list Q)) (i : nat) (j : nat) (q : Q), grid_uv_tracks mirror n theta bs = Some m /\ entry m i j = Some q.
Proof. eexists true, 8, 1%Q, ex_bs, _, 6, 2, _. split; [vm_compute; reflexivity|vm_compute; reflexivity]. Qed.

(** C04: the daily map adds up to the mean over the time slices of the number of
    in-range baselines. *)
Theorem C04_uv_daily_total :
  forall n theta T rot,
    0 < T -> exists m,
    uv_daily false n theta T rot = Some m /\
    (total m == sum_slices T (fun t => inject_Z (Z.of_nat (visible n theta (rot t))))
                / inject_Z (Z.of_nat T))%Q.
Proof.
  intros n theta T rot HT. destruct (daily_eq false n theta T rot HT) as (f & E & _).
  exists (table2 n f). split; [exact E|]. exact (daily_total false n theta T rot _ E).
Qed.
Print Assumptions C04_uv_daily_total.

Example C04_uv_daily_total_sat :
  (sum_slices 3 (fun t => inject_Z (Z.of_nat (visible 4 (inject_Z (Z.of_nat t)) ex_bs))) == 4)%Q.
Proof. vm_compute. reflexivity. Qed.

(** C05, even grids: pixel (i, j) holds the number of in-range baselines with
    (x mod n, y mod n) = (i, j). *)
Theorem C05_uv_grid_pixel_even :
  forall n theta bs m i j,
    Nat.even n = true -> grid_uv_tracks false n theta bs = Some m -> i < n -> j < n ->
    entry m i j = Some (inject_Z (Z.of_nat (hits 0 n theta bs (Z.of_nat i) (Z.of_nat j)))).
Proof.
  intros n theta bs m i j Ev H Hi Hj. rewrite grid_eq in H.
  match type of H with Some ?t = _ => assert (E : m = t) by congruence end.
  rewrite E, entry_table2 by assumption. unfold shift. rewrite Ev. reflexivity.
Qed.
Print Assumptions C05_uv_grid_pixel_even.
Example C05_uv_grid_pixel_even_sat : exists (n : nat) (theta : Q) (bs : list baseline) (m : list (list Q)) (i : nat) (j : nat), Nat.even n = true /\ grid_uv_tracks false n theta bs = Some m /\ i < n /\ j < n.
Proof. eexists 8, 1%Q, ex_bs, _, 6, 2. split; [reflexivity|]. split; [vm_compute; reflexivity|lia]. Qed.

(** C05, odd grids: the pixel is off by one in both directions. *)
Theorem C05_uv_grid_pixel_odd :
  forall n theta bs m i j,
    Nat.odd n = true -> grid_uv_tracks false n theta bs = Some m -> i < n -> j < n ->
    entry m i j = Some (inject_Z (Z.of_nat (hits (-1) n theta bs (Z.of_nat i) (Z.of_nat j)))).
Proof.
  intros n theta bs m i j Ev H Hi Hj. rewrite grid_eq in H.
  match type of H with Some ?t = _ => assert (E : m = t) by congruence end.
  rewrite E, entry_table2 by assumption. unfold shift.
  rewrite <- Nat.negb_odd, Ev. reflexivity.
Qed.
Print Assumptions C05_uv_grid_pixel_odd.
Example C05_uv_grid_pixel_odd_sat : exists (n : nat) (theta : Q) (bs : list baseline) (m : list (list Q)) (i : nat) (j : nat), Nat.odd n = true /\ grid_uv_tracks false n theta bs = Some m /\ i < n /\ j < n.
Proof. eexists 7, 1%Q, ex_bs, _, 6, 6. split; [reflexivity|]. split; [vm_compute; reflexivity|lia]. Qed.

(** C05, with mirrored baselines: the pixel holds half the number of in-range baselines that
    fall into it plus half the number of those whose opposite does. *)
Theorem C05_uv_grid_pixel_mirror :
  forall n theta bs m i j,
    grid_uv_tracks true n theta bs = Some m -> i < n -> j < n ->
    exists q, entry m i j = Some q /\
      (q == (inject_Z (Z.of_nat (hits (if Nat.even n then 0 else -1) n theta bs (Z.of_nat i) (Z.of_nat j)))
           + inject_Z (Z.of_nat (hits (if Nat.even n then 0 else -1) n theta (map bneg bs) (Z.of_nat i) (Z.of_nat j)))) / 2)%Q.
Proof.
  intros n theta bs m i j H Hi Hj. rewrite grid_eq in H.
  match type of H with Some ?t = _ => assert (E : m = t) by congruence end.
  rewrite E, entry_table2 by assumption. eexists. split; [reflexivity|].
  unfold scale, shift, all_baselines, hits. rewrite filter_app, app_length, Nat2Z.inj_add, inject_Z_plus. reflexivity.
Qed.
Print Assumptions C05_uv_grid_pixel_mirror.
Example C05_uv_grid_pixel_mirror_sat : exists m, grid_uv_tracks true 8 1%Q ex_bs = Some m /\ entry m 6 2 = Some (1 # 2)%Q.
Proof. eexists. split; vm_compute; reflexivity. Qed.

Example C05_uv_grid_pixel_sat :
  hits 0 8 1 ex_bs 6 2 = 1 /\ hits 0 8 1 ex_bs 0 0 = 1 /\ hits (-1) 7 1 ex_bs 6 6 = 1
  /\ hits (-1) 7 1 ex_bs 0 0 = 0.
Proof. vm_compute. auto. Qed.

(** C05: so for every odd grid the zero-length baseline misses the DC pixel. *)
Theorem C05_uv_grid_odd_dc_refuted :
  forall n theta m, Nat.odd n = true -> 1 < n ->
    grid_uv_tracks false n theta [(0, 0, 0)%Q] = Some m ->
    entry m 0 0 = Some 0%Q /\ entry m (n - 1) (n - 1) = Some 1%Q.
Proof.
  intros n theta m Ho Hn H.
  rewrite !(C05_uv_grid_pixel_odd n theta [(0, 0, 0)%Q] m) by (assumption || lia).
  assert (E : forall i j, hits (-1) n theta [(0, 0, 0)%Q] (Z.of_nat i) (Z.of_nat j)
            = if (Z.of_nat n - 1 =? Z.of_nat i)%Z && (Z.of_nat n - 1 =? Z.of_nat j)%Z then 1 else 0).
  { intros i j.
    assert (X : gx theta (0, 0, 0)%Q = 0%Z) by (unfold gx, bu; simpl; apply (round_half_even_Qeq _ 0); ring).
    assert (Y : gy theta (0, 0, 0)%Q = 0%Z) by (unfold gy, bv; simpl; apply (round_half_even_Qeq _ 0); ring).
    unfold hits. cbn [filter]. rewrite X, Y.
    assert (R : in_range_b n 0 = true) by (rewrite in_range_b_bound; unfold in_bound; lia).
    rewrite R. cbn [andb].
    replace ((0 + -1) mod Z.of_nat n)%Z with (Z.of_nat n - 1)%Z.
    2:{ rewrite <- (Z.mod_add (0 + -1) 1) by lia. symmetry. rewrite Z.mod_small; lia. }
    destruct (_ && _); reflexivity. }
  rewrite !E. split.
  - replace (Z.of_nat n - 1 =? Z.of_nat 0)%Z with false by lia. reflexivity.
  - replace (Z.of_nat n - 1 =? Z.of_nat (n - 1))%Z with true by lia. reflexivity.
Qed.
Print Assumptions C05_uv_grid_odd_dc_refuted.
Example C05_uv_grid_odd_dc_refuted_sat : exists (n : nat) (theta : Q) (m : list (list Q)), Nat.odd n = true /\ 1 < n /\ grid_uv_tracks false n theta [(0, 0, 0)%Q] = Some m.
Proof. eexists 7, 1%Q, _. split; [reflexivity|]. split; [lia|]. vm_compute; reflexivity. Qed.

(** C05: the older implementation places (x mod n, y mod n) for every n. *)
Theorem C05_uv_coverage_pixel :
  forall n theta bs, exists m,
    get_uv_coverage n theta bs = Some m /\
    forall i j, i < n -> j < n ->
      entry m i j = Some (hits3 n (theta / 2)%Q bs (Z.of_nat i) (Z.of_nat j)).
Proof.
  intros n theta bs. eexists. split; [apply coverage_eq|].
  intros i j Hi Hj. now rewrite entry_table2.
Qed.
Print Assumptions C05_uv_coverage_pixel.

Example C05_uv_coverage_pixel_sat :
  hits3 7 1 ex_bs 0 0 = 1 /\ hits3 7 1 ex_bs 5 2 = 1.
Proof. vm_compute. auto. Qed.

(** C05: each cell of the daily map is the mean over the slices. *)
Theorem C05_uv_daily_pixel :
  forall n theta T rot, 0 < T -> exists m,
    uv_daily false n theta T rot = Some m /\
    forall i j, i < n -> j < n -> exists q, entry m i j = Some q /\
      (q == sum_slices T (fun t => inject_Z (Z.of_nat
              (hits (if Nat.even n then 0 else -1)%Z n theta (rot t) (Z.of_nat i) (Z.of_nat j))))
            / inject_Z (Z.of_nat T))%Q.
Proof.
  intros n theta T rot HT. destruct (daily_eq false n theta T rot HT) as (f & E & Hf).
  exists (table2 n f). split; [exact E|]. intros i j Hi Hj.
  exists (f i j). split; [now apply entry_table2|]. exact (Hf i j).
Qed.
Print Assumptions C05_uv_daily_pixel.
Example C05_uv_daily_pixel_sat : exists (T : nat), 0 < T.
Proof. exists 10. lia. Qed.

(** C06: point symmetry with mirrored baselines. *)
Theorem C06_uv_grid_mirror_symmetric :
  forall n theta bs m i j,
    Nat.even n = true ->
    grid_uv_tracks true n theta bs = Some m ->
    i < n -> j < n -> i <> n / 2 -> j <> n / 2 ->
    entry m i j = entry m ((n - i) mod n) ((n - j) mod n).
Proof.
  intros n theta bs m i j Ev H Hi Hj Hi2 Hj2.
  apply Nat.even_spec in Ev as [k ->].
  assert (Hk : 2 * k / 2 = k) by (rewrite Nat.mul_comm; now apply Nat.div_mul).
  rewrite Hk in *. exact (mirror_symmetric k theta bs m i j H Hi Hj Hi2 Hj2).
Qed.
Print Assumptions C06_uv_grid_mirror_symmetric.

Example C06_uv_grid_mirror_symmetric_sat :
  exists m, grid_uv_tracks true 8 1 ex_bs = Some m
    /\ entry m 6 2 = Some (1#2)%Q /\ entry m 2 6 = Some (1#2)%Q /\ entry m 1 1 = Some (0#2)%Q.
Proof. eexists. split; [vm_compute; reflexivity|]. vm_compute. auto. Qed.

(** C06: the restriction to even grids and to pixels off the Nyquist row is needed. *)
Theorem C06_uv_grid_mirror_odd_refuted :
  exists bs m, grid_uv_tracks true 5 1 bs = Some m
    /\ entry m 1 1 <> entry m ((5 - 1) mod 5) ((5 - 1) mod 5).
Proof.
  exists [(1, 1, 0); (2, 2, 0)]%Q. eexists. split; [vm_compute; reflexivity|].
  vm_compute. discriminate.
Qed.
Print Assumptions C06_uv_grid_mirror_odd_refuted.

Theorem C06_uv_grid_mirror_nyquist_refuted :
  exists bs m, grid_uv_tracks true 4 1 bs = Some m
    /\ entry m 2 1 <> entry m ((4 - 2) mod 4) ((4 - 1) mod 4).
Proof.
  exists [((-2), 1, 0)]%Q. eexists. split; [vm_compute; reflexivity|].
  vm_compute. discriminate.
Qed.
Print Assumptions C06_uv_grid_mirror_nyquist_refuted.
