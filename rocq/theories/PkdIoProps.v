(** C105: particle files, halo files and power spectrum tables of pkdgrav. *)
From Coq Require Import String Ascii List Arith ZArith Reals Bool Lia Lra.
From Verif Require Import RLib BinModel BinProofs PkdModel PkdIoModel.
Import ListNotations.
Local Open Scope list_scope.
Local Open Scope nat_scope.

(** * Specification *)
(** A row of [n] four-byte words, and its bytes. *)
Definition row (n : nat) (r : list (list byte)) : Prop := length r = n /\ Forall (fun w => length w = 4) r.
Definition fits (z : Z) : Prop := (- 2 ^ 31 <= z < 2 ^ 31)%Z.
Definition be_bytes (z : Z) : list byte := rev (int32_bytes z).
Definition header_bytes (h : header) : list byte := time h ++ concat (map be_bytes [N h; Dims h; Ngas h; Ndark h; Nstar h; pad h]).
Definition body_bytes (rows : list (list (list byte))) : list byte := concat (map (@concat byte) rows).
(** The [i]-th word of a file. *)
Definition word (bs : list byte) (i : nat) : list byte := firstn 4 (skipn (4 * i) bs).

(** * Reading items *)
Definition piece (w : nat) (bs : list byte) (i : nat) : list byte := firstn w (skipn (w * i) bs).
Lemma skipn_skipn' {A} a b (l : list A) : skipn a (skipn b l) = skipn (b + a) l.
Proof. revert l. induction b as [|b IH]; intro l; [reflexivity|]. destruct l as [|x l]; cbn [skipn Nat.add]; [destruct a; reflexivity|apply IH]. Qed.
Lemma take_items_pieces w n bs : 0 < w -> let k := Nat.min n (length bs / w) in take_items w n bs = (map (piece w bs) (seq 0 k), skipn (w * k) bs).
Proof.
  intro W. cbv zeta. revert bs. induction n as [|n IH]; intro bs; cbn [take_items Nat.min]; [rewrite Nat.mul_0_r; reflexivity|].
  destruct (Nat.ltb_spec (length bs) w) as [L|L].
  - rewrite (Nat.div_small _ _ L). cbn. rewrite Nat.mul_0_r. reflexivity.
  - assert (D : length bs / w = S (length (skipn w bs) / w)).
    { rewrite skipn_length. replace (length bs) with ((length bs - w) + 1 * w) at 1 by lia. rewrite Nat.div_add by lia. lia. }
    rewrite D. cbn [Nat.min]. rewrite IH. cbn [seq map]. f_equal.
    + f_equal; [unfold piece; rewrite Nat.mul_0_r; reflexivity|]. rewrite <- seq_shift, map_map. apply map_ext. intro i. unfold piece. rewrite skipn_skipn'. do 2 f_equal. lia.
    + rewrite skipn_skipn'. f_equal. lia.
Qed.
Lemma piece_words n bs i : words n (piece (4 * n) bs i) = map (fun j => word bs (n * i + j)) (seq 0 n).
Proof.
  unfold words, piece, word. apply map_ext_in. intros j Hj. apply in_seq in Hj. rewrite skipn_firstn_comm, firstn_firstn, skipn_skipn'. f_equal; [lia|]. f_equal. lia.
Qed.
Lemma words_concat n r : row n r -> words n (concat r) = r.
Proof.
  intros [L F]. unfold words. subst n. revert F. induction r as [|w r IH]; intro F; [reflexivity|]. inversion F as [|? ? F1 F2]; subst. cbn [length seq map concat].
  apply f_equal2; [rewrite Nat.mul_0_r, skipn_O, firstn_app, F1, Nat.sub_diag, firstn_O, app_nil_r; apply firstn_all2; lia|].
  rewrite <- seq_shift, map_map. rewrite <- (IH F2) at 2. apply map_ext. intro i. f_equal. rewrite skipn_app, F1. rewrite skipn_all2 by lia. cbn [app]. f_equal. lia.
Qed.
Lemma row_length n r : row n r -> length (concat r) = 4 * n.
Proof. intros [L F]. rewrite (concat_length_const 4) by exact F. lia. Qed.

Lemma fromfile_at_rows n rows rest : Forall (row n) rows -> fromfile_at (4 * n) (Z.of_nat (length rows)) (body_bytes rows ++ rest) = (map (@concat byte) rows, rest).
Proof.
  intro F. unfold fromfile_at. assert (FL : Forall (fun i => length i = 4 * n) (map (@concat byte) rows)).
  { apply Forall_forall. intros i Hi. apply in_map_iff in Hi. destruct Hi as [r [<- Hr]]. apply row_length. rewrite Forall_forall in F. auto. }
  unfold body_bytes. rewrite <- (map_length (@concat byte) rows). rewrite fromfile_count by exact FL.
  destruct (Z.ltb_spec (Z.of_nat (length (map (@concat byte) rows))) 0); [lia|]. rewrite Z.ltb_irrefl. reflexivity.
Qed.
Lemma words_rows n rows : Forall (row n) rows -> map (words n) (map (@concat byte) rows) = rows.
Proof. intro F. rewrite map_map. rewrite <- (map_id rows) at 2. apply map_ext_in. intros r Hr. apply words_concat. rewrite Forall_forall in F. auto. Qed.
Lemma be_round z : fits z -> be_int (be_bytes z) = z.
Proof. intro H. unfold be_int, be_bytes. rewrite rev_involutive, int32_round. apply wrap32_small. exact H. Qed.
Lemma header_back h rest : length (time h) = 8 -> Forall fits [N h; Dims h; Ngas h; Ndark h; Nstar h; pad h] ->
  fromfile_at 32 1 (header_bytes h ++ rest) = ([header_bytes h], rest) /\ header_of (header_bytes h) = h.
Proof.
  intros L F. assert (LH : length (header_bytes h) = 32) by (unfold header_bytes; rewrite app_length, L; reflexivity). split.
  - unfold fromfile_at. replace (header_bytes h ++ rest) with (concat [header_bytes h] ++ rest) by (cbn [concat]; rewrite app_nil_r; reflexivity).
    pose proof (fromfile_count 32 [header_bytes h] rest ltac:(constructor; auto)) as E. change (Z.of_nat (length [header_bytes h])) with 1%Z in E. rewrite E. reflexivity.
  - unfold header_of, header_bytes. repeat match goal with H : Forall _ (_ :: _) |- _ => inversion H; clear H; subst end.
    assert (T : forall k, skipn (8 + k) (time h ++ concat (map be_bytes [N h; Dims h; Ngas h; Ndark h; Nstar h; pad h])) = skipn k (concat (map be_bytes [N h; Dims h; Ngas h; Ndark h; Nstar h; pad h]))).
    { intro k. rewrite skipn_app, skipn_all2 by lia. cbn [app]. f_equal. lia. }
    rewrite firstn_app, L, Nat.sub_diag, firstn_O, app_nil_r, firstn_all2 by lia. rewrite !T.
    cbn [map concat]. assert (B : forall z, exists a b c d, be_bytes z = [a; b; c; d]) by (intro z; unfold be_bytes, int32_bytes, le_bytes; cbn [seq map rev app]; eauto).
    assert (R4 : forall z, fits z -> be_int (be_bytes z) = z) by apply be_round.
    destruct h as [t a b c d e p]. cbn [N Dims Ngas Ndark Nstar pad time] in *.
    destruct (B a) as [? [? [? [? Ea]]]], (B b) as [? [? [? [? Eb]]]], (B c) as [? [? [? [? Ec]]]], (B d) as [? [? [? [? Ed]]]], (B e) as [? [? [? [? Ee]]]], (B p) as [? [? [? [? Ep]]]].
    rewrite Ea, Eb, Ec, Ed, Ee, Ep. cbn [app skipn firstn Nat.mul Nat.add]. rewrite <- Ea, <- Eb, <- Ec, <- Ed, <- Ee, <- Ep. rewrite !R4 by assumption. reflexivity.
Qed.

(** * Particles *)
(** A file written with as many rows as its header says is read back as it is, whatever follows. *)
Theorem C105_particles : forall h g d s rest, length (time h) = 8 -> Forall fits [N h; Dims h; Ngas h; Ndark h; Nstar h; pad h] ->
  Ngas h = Z.of_nat (length g) -> Ndark h = Z.of_nat (length d) -> Nstar h = Z.of_nat (length s) -> Forall (row 12) g -> Forall (row 9) d -> Forall (row 11) s ->
  read_particles (header_bytes h ++ body_bytes g ++ body_bytes d ++ body_bytes s ++ rest) = Returned (Particles h g d s).
Proof.
  intros h g d s rest L F G D S1 FG FD FS. unfold read_particles. destruct (header_back h (body_bytes g ++ body_bytes d ++ body_bytes s ++ rest) L F) as [E1 E2]. rewrite E1, E2, G, D, S1.
  rewrite (fromfile_at_rows gas_words g _ FG), (fromfile_at_rows dark_words d _ FD), (fromfile_at_rows star_words s _ FS).
  rewrite (words_rows gas_words g FG), (words_rows dark_words d FD), (words_rows star_words s FS). reflexivity.
Qed.
Print Assumptions C105_particles.
(** Only a file shorter than its header raises. *)
Theorem C105_particles_raise : forall bs, (exists e, read_particles bs = Raised e) <-> length bs < 32.
Proof.
  intro bs. unfold read_particles, fromfile_at, fromfile. cbn [Z.ltb Z.compare]. rewrite take_items_pieces by lia. change (Z.to_nat 1) with 1. cbn [fst].
  destruct (Nat.lt_ge_cases (length bs) 32) as [L|L].
  - rewrite (Nat.div_small _ _ L). cbn. split; eauto.
  - assert (1 <= length bs / 32) by (apply Nat.div_le_lower_bound; lia). rewrite Nat.min_l by assumption. cbn [seq map length Z.of_nat Z.ltb Z.compare Pos.of_succ_nat Pos.compare Pos.compare_cont].
    split; [|lia]. intros [e E]. destruct (if (Ngas (header_of (piece 32 bs 0)) <? 0)%Z then _ else _) as [i r]. destruct (Ngas _ <? 0)%Z; [|destruct (_ <? Ngas _)%Z];
    repeat (match type of E with context [let '(_, _) := ?x in _] => destruct x end; try discriminate E).
Qed.
Print Assumptions C105_particles_raise.
(** How many rows are read when the file is cut short or a count is negative, and which words they are: a count that
    cannot be met is met as far as whole rows go, without an error, and nothing is left for the sections after it. *)
Lemma fromfile_at_pieces w c bs : 0 < w -> let have := length bs / w in
  fromfile_at w c bs = if (c <? 0)%Z then (map (piece w bs) (seq 0 have), skipn (w * have) bs)
    else if (Z.of_nat have <? c)%Z then (map (piece w bs) (seq 0 have), []) else (map (piece w bs) (seq 0 (Z.to_nat c)), skipn (w * Z.to_nat c) bs).
Proof.
  intro W. cbv zeta. unfold fromfile_at, fromfile. destruct (Z.ltb_spec c 0) as [L|L].
  - rewrite take_items_pieces, Nat.min_id by exact W. reflexivity.
  - rewrite take_items_pieces by exact W. rewrite map_length, seq_length. destruct (Z.ltb_spec (Z.of_nat (length bs / w)) c) as [A|A].
    + rewrite Nat.min_r by lia. destruct (Z.ltb_spec (Z.of_nat (length bs / w)) c); [reflexivity|lia].
    + rewrite Nat.min_l by lia. destruct (Z.ltb_spec (Z.of_nat (Z.to_nat c)) c); [lia|reflexivity].
Qed.
Theorem C105_short : forall bs p, read_particles bs = Returned p -> let have := (length bs - 32) / 48 in let c := Ngas (head p) in
  length (gas p) = (if (c <? 0)%Z then have else Nat.min have (Z.to_nat c)) /\
  (forall i j, i < length (gas p) -> j < 12 -> nth j (nth i (gas p) []) [] = word bs (8 + 12 * i + j)) /\
  ((Z.of_nat (length (gas p)) < c)%Z -> dark p = [] /\ star p = []).
Proof.
  intros bs [h0 g0 d0 s0] E. cbn [head gas dark star]. cbv zeta. assert (L : 32 <= length bs). { destruct (Nat.lt_ge_cases (length bs) 32) as [X|X]; [|exact X]. apply C105_particles_raise in X. destruct X as [e X]. congruence. }
  unfold read_particles in E. rewrite (fromfile_at_pieces 32 1 bs) in E by lia. assert (1 <= length bs / 32) by (apply Nat.div_le_lower_bound; lia).
  cbn [Z.ltb Z.compare] in E. destruct (Z.ltb_spec (Z.of_nat (length bs / 32)) 1); [lia|]. change (Z.to_nat 1) with 1 in E. cbn [seq map] in E. rewrite Nat.mul_1_r in E.
  remember (skipn 32 bs) as tl eqn:TL. assert (LT : length tl = length bs - 32) by (rewrite TL; apply skipn_length).
  set (hd := header_of (piece 32 bs 0)) in E. change (4 * gas_words) with 48 in E. rewrite (fromfile_at_pieces 48 (Ngas hd)) in E by lia. rewrite LT in E.
  set (have := (length bs - 32) / 48) in *.
  assert (G : exists r, (if (Ngas hd <? 0)%Z then (map (piece 48 tl) (seq 0 have), skipn (48 * have) tl) else if (Z.of_nat have <? Ngas hd)%Z then (map (piece 48 tl) (seq 0 have), []) else (map (piece 48 tl) (seq 0 (Z.to_nat (Ngas hd))), skipn (48 * Z.to_nat (Ngas hd)) tl))
    = (map (piece 48 tl) (seq 0 (if (Ngas hd <? 0)%Z then have else Nat.min have (Z.to_nat (Ngas hd)))), r) /\ ((Ngas hd <? 0)%Z = false -> (Z.of_nat have < Ngas hd)%Z -> r = [])).
  { destruct (Z.ltb_spec (Ngas hd) 0); [eexists; split; [reflexivity|discriminate]|]. destruct (Z.ltb_spec (Z.of_nat have) (Ngas hd)).
    - eexists. split; [|reflexivity]. rewrite Nat.min_l by lia. reflexivity.
    - eexists. split; [rewrite Nat.min_r by lia; reflexivity|]. lia. }
  destruct G as [r [G R0]]. rewrite G in E. clearbody hd. remember (map (words gas_words) (map (piece 48 tl) (seq 0 (if (Ngas hd <? 0)%Z then have else Nat.min have (Z.to_nat (Ngas hd)))))) as gg eqn:GG.
  destruct (fromfile_at (4 * dark_words) (Ndark hd) r) as [d r2] eqn:D. destruct (fromfile_at (4 * star_words) (Nstar hd) r2) as [s r3] eqn:S1. injection E as <- <- <- <-.
  rewrite GG, !map_length, seq_length. split; [reflexivity|]. set (k := if (Ngas hd <? 0)%Z then have else Nat.min have (Z.to_nat (Ngas hd))). split.
  - intros i j I J. rewrite map_map. set (f := fun x => words gas_words (piece 48 tl x)). rewrite (nth_indep _ [] (f 0)) by (rewrite map_length, seq_length; exact I). rewrite map_nth, seq_nth by exact I. unfold f. cbn [Nat.add].
    change 48 with (4 * gas_words). rewrite piece_words. set (g := fun j => word tl (gas_words * i + j)). rewrite (nth_indep _ [] (g 0)) by (rewrite map_length, seq_length; exact J). rewrite map_nth, seq_nth by exact J.
    unfold g, word. rewrite TL, skipn_skipn'. do 2 f_equal. unfold gas_words. lia.
  - intro X. assert (C0 : (Ngas hd <? 0)%Z = false) by (apply Z.ltb_ge; lia). assert (K : k = Nat.min have (Z.to_nat (Ngas hd))) by (unfold k; rewrite C0; reflexivity). rewrite K in X. assert (r = []) by (apply R0; [exact C0|lia]). subst r.
    assert (N0 : forall w c, 0 < w -> fromfile_at w c [] = ([], [])).
    { intros w c W. rewrite fromfile_at_pieces by exact W. cbn [length]. rewrite Nat.div_0_l by lia. cbn [seq map]. rewrite Nat.mul_0_r. destruct (c <? 0)%Z eqn:C1; [reflexivity|]. destruct (Z.ltb_spec (Z.of_nat 0) c); [reflexivity|]. replace c with 0%Z by (apply Z.ltb_ge in C1; lia). cbn [Z.to_nat seq map]. rewrite Nat.mul_0_r. reflexivity. }
    rewrite N0 in D by (cbn; lia). injection D as <- <-. rewrite N0 in S1 by (cbn; lia). injection S1 as <- <-. split; reflexivity.
Qed.
Print Assumptions C105_short.

(** * Haloes *)
(** A halo file is read in records of 112 bytes; what is left over is ignored. Word [j] of halo [i] is word [28 i + j] of the file. *)
Theorem C105_haloes : forall bs, length (read_records bs) = length bs / 112 /\ forall i j, i < length bs / 112 -> j < 28 -> nth j (nth i (read_records bs) []) [] = word bs (28 * i + j).
Proof.
  intro bs. unfold read_records, fromfile. cbn [Z.ltb Z.compare]. change (4 * fof_words) with 112. rewrite take_items_pieces, Nat.min_id by lia. cbn [fst]. rewrite map_map. split; [rewrite map_length, seq_length; reflexivity|].
  intros i j I J. set (f := fun x => words fof_words (piece 112 bs x)). rewrite (nth_indep _ [] (f 0)) by (rewrite map_length, seq_length; exact I). rewrite map_nth, seq_nth by exact I. unfold f. cbn [Nat.add].
  change 112 with (4 * fof_words). rewrite piece_words. set (g := fun j => word bs (fof_words * i + j)). rewrite (nth_indep _ [] (g 0)) by (rewrite map_length, seq_length; exact J). rewrite map_nth, seq_nth by exact J. reflexivity.
Qed.
Print Assumptions C105_haloes.
Lemma word_nth ws i : Forall (fun w => length w = 4) ws -> i < length ws -> word (concat ws) i = nth i ws [].
Proof.
  unfold word. revert i. induction ws as [|w ws IH]; intros i F L; [cbn in L; lia|]. inversion F as [|? ? F1 F2]; subst. cbn [concat]. destruct i as [|i].
  - rewrite Nat.mul_0_r, skipn_O, firstn_app, F1, Nat.sub_diag, firstn_O, app_nil_r. apply firstn_all2, Nat.eq_le_incl. exact F1.
  - rewrite skipn_app, skipn_all2 by (apply Nat.le_trans with 4; [apply Nat.eq_le_incl; exact F1|lia]). cbn [app nth]. rewrite F1. replace (4 * S i - 4) with (4 * i) by lia. apply IH; [exact F2|cbn in L; lia].
Qed.
(** The rows made of it: mass, and position modulo nothing. *)
Theorem C105_rows : forall f4 rhoc box recs, Forall (row 28) recs ->
  array_fof rhoc box (Some (read_fof_file f4 (body_bytes recs))) =
  Some (map (fun r => [rhoc * box ^ 3 * f4 (nth 24 r []); (f4 (nth 0 r []) + f4 (nth 7 r [])) * box; (f4 (nth 1 r []) + f4 (nth 8 r [])) * box; (f4 (nth 2 r []) + f4 (nth 9 r [])) * box]%R) recs).
Proof.
  intros f4 rhoc box recs F. unfold array_fof, read_fof_file, read_records. cbn [option_map]. f_equal. change (4 * fof_words) with 112. unfold body_bytes. rewrite fromfile_all.
  - cbn [fst]. change (map (words fof_words) (map (@concat byte) recs)) with (map (words 28) (map (@concat byte) recs)). rewrite words_rows by exact F. rewrite map_map. apply map_ext. intro r. reflexivity.
  - lia.
  - apply Forall_forall. intros i Hi. apply in_map_iff in Hi. destruct Hi as [r [<- Hr]]. rewrite (row_length 28); [reflexivity|]. rewrite Forall_forall in F. auto.
Qed.
Print Assumptions C105_rows.
Example C105_rows_sat : exists (recs : list (list (list byte))), Forall (row 28) recs.
Proof. exists [repeat [0; 0; 0; 0]%Z 28]. constructor; [|constructor]. split; [reflexivity|]. apply Forall_forall. intros w H. apply repeat_spec in H. subst w. reflexivity. Qed.
(** Files written with the fields that are left out (six words more per halo): the number of haloes is off by the ratio of the
    sizes, and only every seventeenth halo read starts where one was written. *)
Lemma concat_nth n (recs : list (list (list byte))) k : Forall (row n) recs -> 0 < n -> k < n * length recs -> nth k (concat recs) [] = nth (k mod n) (nth (k / n) recs []) [].
Proof.
  intros F N0. revert k. induction F as [|r recs [L _] F IH]; intros k K; [cbn in K; lia|]. cbn [concat]. destruct (Nat.lt_ge_cases k n) as [A|A].
  - rewrite app_nth1 by lia. rewrite Nat.mod_small, Nat.div_small by exact A. reflexivity.
  - rewrite app_nth2 by lia. rewrite L, IH by (cbn [length] in K; lia). replace k with ((k - n) + 1 * n) at 3 4 by lia. rewrite Nat.mod_add, Nat.div_add by lia. rewrite Nat.add_1_r. reflexivity.
Qed.
Lemma concat_concat {A} (l : list (list (list A))) : concat (map (@concat A) l) = concat (concat l).
Proof. induction l as [|x l IH]; [reflexivity|]. cbn [map concat]. rewrite IH, concat_app. reflexivity. Qed.
Theorem C105_extra_fields_refuted : forall recs, Forall (row 34) recs -> let bs := body_bytes recs in
  length (read_records bs) = 34 * length recs / 28 /\
  (forall i j, i < length (read_records bs) -> j < 28 -> nth j (nth i (read_records bs) []) [] = nth ((28 * i + j) mod 34) (nth ((28 * i + j) / 34) recs []) []) /\
  forall i, (28 * i) mod 34 = 0 <-> i mod 17 = 0.
Proof.
  intros recs F bs. assert (LB : length bs = 136 * length recs).
  { unfold bs, body_bytes. rewrite (concat_length_const 136); [rewrite map_length; lia|]. apply Forall_forall. intros i Hi. apply in_map_iff in Hi. destruct Hi as [r [<- Hr]]. rewrite (row_length 34); [reflexivity|]. rewrite Forall_forall in F. auto. }
  destruct (C105_haloes bs) as [L W]. rewrite L, LB. assert (D : 136 * length recs / 112 = 34 * length recs / 28).
  { replace (136 * length recs) with (34 * length recs * 4) by lia. replace 112 with (28 * 4) by lia. apply Nat.div_mul_cancel_r; lia. }
  split; [exact D|]. split.
  - intros i j I J. rewrite W by (rewrite ?LB; lia). assert (LC : length (concat recs) = 34 * length recs). { rewrite (concat_length_const 34); [lia|]. eapply Forall_impl; [|exact F]. intros r [X _]. exact X. }
    assert (K : 28 * i + j < 34 * length recs). { rewrite D in I. assert (28 * (34 * length recs / 28) <= 34 * length recs) by (apply Nat.mul_div_le; lia). lia. }
    unfold bs, body_bytes. rewrite concat_concat, word_nth; [|apply Forall_concat; eapply Forall_impl; [|exact F]; intros r [_ X]; exact X|lia]. apply (concat_nth 34); [exact F|lia|exact K].
  - intro i. split; intro H.
    + apply Nat.mod_divides in H; [|lia]. destruct H as [c H]. apply Nat.mod_divides; [lia|]. exists (11 * c - 9 * i). lia.
    + apply Nat.mod_divides in H; [|lia]. destruct H as [c ->]. replace (28 * (17 * c)) with (14 * c * 34) by lia. apply Nat.mod_mul. lia.
Qed.
Print Assumptions C105_extra_fields_refuted.
Example C105_extra_fields_refuted_sat : exists (recs : list (list (list byte))), Forall (row 34) recs.
Proof. exists [repeat [0; 0; 0; 0]%Z 34]. constructor; [|constructor]. split; [reflexivity|]. apply Forall_forall. intros w H. apply repeat_spec in H. subst w. reflexivity. Qed.

(** * Velocities *)
Local Open Scope R_scope.
Theorem C105_velocity : forall box z, box <> 0 -> vel_fac box (Some z) = vel_fac 1 None * box * (1 + z) /\ vel_fac box None = vel_fac box (Some 0).
Proof. intros box z B. unfold vel_fac, light_speed_sim. split; field; exact B. Qed.
Print Assumptions C105_velocity.
Example C105_velocity_sat : exists (box : R), box <> 0.
Proof. exists 100. repeat split; first [lra | lia | reflexivity | discriminate | congruence | auto]. Qed.

(** * Power spectra *)
Lemma pow10_log x : 0 < x -> Rpower 10 (log10 x) = x.
Proof. intro X. unfold Rpower, log10. replace (ln x / ln 10 * ln 10) with (ln x) by (field; apply Rgt_not_eq; rewrite <- ln_1; apply ln_increasing; lra). apply exp_ln. exact X. Qed.
(** The entries that count for entry [i]: the last [w] up to it. *)
Definition last_entries (w : nat) (l : list R) (i : nat) : list R := firstn (S i - (S i - w)) (skipn (S i - w) l).
Lemma last_entries_length w l i : (i < length l)%nat -> length (last_entries w l i) = Nat.min w (S i).
Proof. intro H. unfold last_entries. rewrite firstn_length, skipn_length. lia. Qed.
Lemma last_entries_map {B} (f : B -> R) w (l : list B) i : firstn (S i - (S i - w)) (skipn (S i - w) (map f l)) = map f (firstn (S i - (S i - w)) (skipn (S i - w) l)).
Proof. rewrite skipn_map, firstn_map. reflexivity. Qed.
Lemma last_entries_in w l i x : In x (last_entries w l i) -> In x l.
Proof. unfold last_entries. intro H. rewrite <- (firstn_skipn (S i - w) l). apply in_app_iff. right. rewrite <- (firstn_skipn (S i - (S i - w)) (skipn (S i - w) l)). apply in_app_iff. auto. Qed.
Lemma smooth_nth w pp i : (i < length pp)%nat -> nth i (smooth w pp) 0 = Rpower 10 (rsum (map log10 (last_entries w pp i)) / INR (length (last_entries w pp i))).
Proof.
  intro H. unfold smooth, rolling. rewrite map_map, map_length. set (f := fun x => Rpower 10 (window_mean w (map log10 pp) x)). rewrite (nth_indep _ 0 (f 0%nat)) by (rewrite map_length, seq_length; exact H).
  rewrite map_nth, seq_nth by exact H. unfold f, window_mean. cbn [Nat.add]. cbv zeta. rewrite last_entries_map, map_length. reflexivity.
Qed.
Definition product (l : list R) : R := fold_right Rmult 1 l.
Lemma rpower_sum l : Forall (fun x => 0 < x) l -> Rpower 10 (rsum (map log10 l)) = product l.
Proof.
  induction 1 as [|x l X F IH]; cbn [map product fold_right]; [unfold Rpower, rsum; cbn [fold_right]; rewrite Rmult_0_l; apply exp_0|]. unfold rsum in *. cbn [fold_right]. rewrite Rpower_plus, IH, pow10_log by exact X. reflexivity.
Qed.
(** A smoothed entry is the geometric mean of the entries up to it, as many as the window holds. *)
Theorem C105_geometric_mean : forall w pp i, (1 <= w)%nat -> Forall (fun x => 0 < x) pp -> (i < length pp)%nat ->
  0 < nth i (smooth w pp) 0 /\ nth i (smooth w pp) 0 ^ Nat.min w (S i) = product (last_entries w pp i).
Proof.
  intros w pp i W F H. rewrite smooth_nth by exact H. split; [apply exp_pos|]. rewrite <- (last_entries_length w pp i H). set (l := last_entries w pp i).
  assert (LP : (0 < length l)%nat) by (unfold l; rewrite last_entries_length by exact H; lia).
  rewrite <- Rpower_pow by apply exp_pos. rewrite Rpower_mult. rewrite <- rpower_sum.
  - f_equal. field. apply not_0_INR. lia.
  - apply Forall_forall. intros x Hx. apply last_entries_in in Hx. rewrite Forall_forall in F. auto.
Qed.
Print Assumptions C105_geometric_mean.
Example C105_geometric_mean_sat : exists (w : nat) (pp : list R) (i : nat), (1 <= w)%nat /\ (Forall (fun x => 0 < x) pp) /\ (i < length pp)%nat.
Proof. exists 3%nat, [1; 2; 4]%R, 1%nat. split; [lia|]. split; [repeat constructor; lra|cbn; lia]. Qed.
Lemma smooth_length w pp : length (smooth w pp) = length pp.
Proof. unfold smooth, rolling. rewrite !map_length, seq_length. reflexivity. Qed.
(** Hence the length and the first entry stay, a window of one changes nothing, bounds are kept and factors pass through. *)
Lemma last_entries_one pp i : (i < length pp)%nat -> last_entries 1 pp i = [nth i pp 0].
Proof.
  intro H. unfold last_entries. replace (S i - (S i - 1))%nat with 1%nat by lia. replace (S i - 1)%nat with i by lia. revert pp H. induction i as [|i IH]; intros [|x pp] H; cbn in H; try lia; [reflexivity|]. cbn [skipn nth]. apply IH. lia.
Qed.
Theorem C105_smooth : forall w pp, (1 <= w)%nat -> Forall (fun x => 0 < x) pp ->
  length (smooth w pp) = length pp /\ nth 0 (smooth w pp) 0 = nth 0 pp 0 /\ (w = 1%nat -> smooth w pp = pp) /\
  (forall a b, 0 < a -> Forall (fun x => a <= x <= b) pp -> Forall (fun x => a <= x <= b) (smooth w pp)) /\
  (forall c, 0 < c -> smooth w (map (Rmult c) pp) = map (Rmult c) (smooth w pp)).
Proof.
  intros w pp W F. assert (L10 : 0 < ln 10) by (rewrite <- ln_1; apply ln_increasing; lra).
  split; [apply smooth_length|]. split; [|split; [|split]].
  - destruct pp as [|x pp]; [reflexivity|]. rewrite smooth_nth by (cbn; lia). replace (last_entries w (x :: pp) 0) with [x].
    + inversion F; subst. cbn [map length INR]. unfold rsum. cbn [fold_right]. rewrite Rplus_0_r. unfold Rdiv. rewrite Rinv_1, Rmult_1_r. apply pow10_log. assumption.
    + unfold last_entries. replace (1 - w)%nat with 0%nat by lia. reflexivity.
  - intros ->. apply (nth_ext _ _ 0 0); [apply smooth_length|]. intros i I. rewrite smooth_length in I. rewrite smooth_nth, last_entries_one by exact I. cbn [map length INR]. unfold rsum. cbn [fold_right]. rewrite Rplus_0_r. unfold Rdiv. rewrite Rinv_1, Rmult_1_r.
    apply pow10_log. rewrite Forall_forall in F. apply F, nth_In. exact I.
  - intros a b A B. apply Forall_forall. intros y Hy. apply (In_nth _ _ 0) in Hy. destruct Hy as [i [I <-]]. rewrite smooth_length in I. rewrite smooth_nth by exact I. set (l := last_entries w pp i).
    assert (LP : (0 < length l)%nat) by (unfold l; rewrite last_entries_length by exact I; lia). assert (LR : 0 < INR (length l)) by (apply lt_0_INR; exact LP).
    assert (BL : forall x, In x l -> a <= x <= b) by (intros x Hx; apply last_entries_in in Hx; rewrite Forall_forall in B; auto). assert (AB : a <= b). { destruct l as [|x l']; [cbn in LP; lia|]. specialize (BL x (or_introl eq_refl)). lra. }
    assert (M : forall u v, 0 < u -> u <= v -> log10 u <= log10 v). { intros u v U V. unfold log10. apply Rmult_le_compat_r; [left; apply Rinv_0_lt_compat; exact L10|]. destruct V as [V| ->]; [left; apply ln_increasing; lra|lra]. }
    assert (S1 : INR (length l) * log10 a <= rsum (map log10 l) <= INR (length l) * log10 b).
    { clear - BL M A. induction l as [|x l IH]; [cbn; lra|]. cbn [length map]. rewrite S_INR. unfold rsum in *. cbn [fold_right]. destruct (IH (fun y Hy => BL y (or_intror Hy))) as [I1 I2]. destruct (BL x (or_introl eq_refl)) as [B1 B2]. pose proof (M a x A B1). pose proof (M x b ltac:(lra) B2). lra. }
    assert (S2 : log10 a <= rsum (map log10 l) / INR (length l) <= log10 b).
    { split; apply (Rmult_le_reg_r (INR (length l))); try exact LR; unfold Rdiv; rewrite Rmult_assoc, Rinv_l, Rmult_1_r by lra; lra. }
    rewrite <- (pow10_log a), <- (pow10_log b) by lra. split; apply Rle_Rpower; lra.
  - intros c C. apply (nth_ext _ _ 0 0); [rewrite map_length, !smooth_length, map_length; reflexivity|]. intros i I. rewrite smooth_length, map_length in I.
    rewrite (nth_indep (map (Rmult c) _) 0 (c * 0)) by (rewrite map_length, smooth_length; exact I). rewrite map_nth, !smooth_nth by (rewrite ?map_length; exact I).
    unfold last_entries. rewrite last_entries_map, map_length. fold (last_entries w pp i). set (l := last_entries w pp i).
    assert (LP : (0 < length l)%nat) by (unfold l; rewrite last_entries_length by exact I; lia). assert (LR : 0 < INR (length l)) by (apply lt_0_INR; exact LP).
    assert (FP : forall x, In x l -> 0 < x) by (intros x Hx; apply last_entries_in in Hx; rewrite Forall_forall in F; auto).
    assert (E : rsum (map log10 (map (Rmult c) l)) = INR (length l) * log10 c + rsum (map log10 l)).
    { clear - FP C L10. induction l as [|x l IH]; [cbn; ring|]. cbn [length map]. rewrite S_INR. unfold rsum in *. cbn [fold_right]. rewrite (IH (fun y Hy => FP y (or_intror Hy))). assert (LM : log10 (c * x) = log10 c + log10 x) by (unfold log10; rewrite ln_mult by (auto using in_eq); field; lra). rewrite LM. ring. }
    rewrite E. replace ((INR (length l) * log10 c + rsum (map log10 l)) / INR (length l)) with (log10 c + rsum (map log10 l) / INR (length l)) by (field; lra). rewrite Rpower_plus, pow10_log by exact C. reflexivity.
Qed.
Print Assumptions C105_smooth.
Example C105_smooth_sat : exists (w : nat) (pp : list R), (1 <= w)%nat /\ Forall (fun x => 0 < x) pp.
Proof. exists 3%nat, [1; 2; 4]%R. split; [lia|repeat constructor; lra]. Qed.

(** ** The header *)
(** The text after the last mark. *)
Lemma prefix_app a b : prefix a (append a b) = true.
Proof. induction a as [|c a IH]; [destruct b; reflexivity|]. cbn. destruct (ascii_dec c c); [exact IH|congruence]. Qed.
Lemma substring_all b : substring 0 (String.length b) b = b.
Proof. induction b as [|c b IH]; [reflexivity|]. cbn [String.length substring]. rewrite IH. reflexivity. Qed.
Lemma after_last_mark a b : after_last b = None -> after_last (append a (append "z=" b)) = Some b.
Proof.
  intro H. induction a as [|c a IH].
  - change (append "" (append "z=" b)) with (String "z" (String "=" b)). cbn [after_last]. rewrite H. assert (P : prefix "z=" (String "=" b) = false) by reflexivity. rewrite P.
    assert (Q : prefix "z=" (String "z" (String "=" b)) = true) by (cbn; destruct b; reflexivity). rewrite Q. cbn [String.length Nat.sub]. rewrite Nat.sub_0_r. f_equal. cbn [substring]. apply substring_all.
  - change (append (String c a) (append "z=" b)) with (String c (append a (append "z=" b))). cbn [after_last]. rewrite IH. reflexivity.
Qed.
Lemma after_last_split s t : after_last s = Some t -> after_last t = None /\ exists a, s = append a (append "z=" t).
Proof.
  revert t. induction s as [|c s IH]; intros t H; [discriminate|]. cbn [after_last] in H. destruct (after_last s) as [u|] eqn:E.
  - injection H as <-. destruct (IH u eq_refl) as [A [a B]]. split; [exact A|]. exists (String c a). rewrite B. reflexivity.
  - destruct (prefix "z=" (String c s)) eqn:P; [|discriminate]. injection H as <-. cbn [prefix] in P. destruct (ascii_dec "z" c) as [<-|]; [|discriminate]. destruct s as [|d s]; [cbn in P; discriminate P|]. cbn [prefix] in P. destruct (ascii_dec "=" d) as [<-|]; [|discriminate].
    cbn [String.length Nat.sub]. rewrite Nat.sub_0_r. assert (S0 : substring 1 (String.length s) (String "=" s) = s) by apply substring_all. rewrite S0. split.
    + cbn [after_last] in E. destruct (after_last s); [discriminate|reflexivity].
    + exists EmptyString. reflexivity.
Qed.
Theorem C105_mark : forall s t, after_last s = Some t <-> (exists a, s = append a (append "z=" t)) /\ forall a b, t <> append a (append "z=" b).
Proof.
  intros s t. split.
  - intro H. destruct (after_last_split s t H) as [A [a B]]. split; [eauto|]. intros a' b ->. clear - A. revert b A. induction a' as [|c a' IH]; intros b A.
    + change (append "" (append "z=" b)) with (String "z" (String "=" b)) in A. cbn [after_last] in A. destruct (after_last b); [discriminate|]. cbn in A. destruct b; discriminate.
    + change (append (String c a') (append "z=" b)) with (String c (append a' (append "z=" b))) in A. cbn [after_last] in A. apply (IH b). destruct (after_last (append a' (append "z=" b))); [discriminate|reflexivity].
  - intros [[a ->] N0]. apply after_last_mark. destruct (after_last t) as [u|] eqn:E; [|reflexivity]. exfalso. destruct (after_last_split t u E) as [_ [a' B]]. exact (N0 a' u B).
Qed.
Print Assumptions C105_mark.
(** The redshift kept is that of the last comment that has one. *)
Lemma redshift_app parse z l l' : redshift parse z (l ++ l') = match redshift parse z l with Returned z' => redshift parse z' l' | Raised e => Raised e end.
Proof. revert z. induction l as [|x l IH]; intro z; [reflexivity|]. cbn [redshift app]. destruct (after_last x) as [t|]; [destruct (parse t); [apply IH|reflexivity]|apply IH]. Qed.
Lemma redshift_none parse z l : Forall (fun x => after_last x = None) l -> redshift parse z l = Returned z.
Proof. induction 1 as [|x l X F IH]; [reflexivity|]. cbn [redshift]. rewrite X. exact IH. Qed.
Lemma redshift_raises parse z l : (exists e, redshift parse z l = Raised e) <-> exists x t, In x l /\ after_last x = Some t /\ parse t = None.
Proof.
  revert z. induction l as [|x l IH]; intro z; cbn [redshift].
  - split; [intros [e X]; discriminate|intros [x [t [[] _]]]].
  - destruct (after_last x) as [t|] eqn:A; [destruct (parse t) as [v|] eqn:P|].
    + rewrite IH. split; [intros [y [u [H1 H2]]]; exists y, u; cbn; auto|]. intros [y [u [[<-|H1] H2]]]; [destruct H2; congruence|eauto].
    + split; [intros _; exists x, t; cbn; auto|eauto].
    + rewrite IH. split; [intros [y [u [H1 H2]]]; exists y, u; cbn; auto|]. intros [y [u [[<-|H1] H2]]]; [destruct H2; congruence|eauto].
Qed.
Theorem C105_redshift : forall parse l1 x l2 t v, (forall y u, In y l1 -> after_last y = Some u -> parse u <> None) -> after_last x = Some t -> parse t = Some v -> Forall (fun y => after_last y = None) l2 ->
  redshift parse None (l1 ++ x :: l2) = Returned (Some v).
Proof.
  intros parse l1 x l2 t v H A P F. rewrite redshift_app. destruct (redshift parse None l1) as [z|e] eqn:E.
  - cbn [redshift]. rewrite A, P. apply redshift_none. exact F.
  - exfalso. destruct (proj1 (redshift_raises parse None l1) (ex_intro _ e E)) as [y [u [H1 [H2 H3]]]]. exact (H y u H1 H2 H3).
Qed.
Print Assumptions C105_redshift.
(** When a table is refused; otherwise the table itself is kept as read, and only what is returned is resampled and smoothed. *)
Theorem C105_table : forall parse spline lines rows ks window,
  ((exists e, read_pk parse spline lines rows ks window = Raised e) <->
    (length rows < 2)%nat \/ (exists x t, In x (comments lines) /\ after_last x = Some t /\ parse t = None) \/ window = Some 0%nat) /\
  forall r, read_pk parse spline lines rows ks window = Returned r ->
    stored_k r = map fst rows /\ stored_P r = map snd rows /\ stored_header r = comments lines /\
    k_out r = match ks with Some k => k | None => map fst rows end /\
    (ks = None -> P_out r = match window with Some w => smooth w (map snd rows) | None => map snd rows end).
Proof.
  intros parse spline lines rows ks window. unfold read_pk. destruct (Nat.ltb_spec (length rows) 2) as [L|L].
  - split; [split; [auto|eauto]|discriminate].
  - pose proof (redshift_raises parse None (comments lines)) as RR. destruct (redshift parse None (comments lines)) as [z|e] eqn:E.
    + split.
      * destruct window as [[|w]|].
        -- split; [auto|eauto].
        -- split; [intros [e X]; discriminate|]. intros [X|[X|X]]; [lia| |discriminate]. apply RR in X. destruct X; discriminate.
        -- split; [intros [e X]; discriminate|]. intros [X|[X|X]]; [lia| |discriminate]. apply RR in X. destruct X; discriminate.
      * intros r H. destruct window as [[|w]|]; [discriminate| |]; injection H as <-; cbn [stored_k stored_P stored_header k_out P_out]; repeat split; intros ->; reflexivity.
    + split; [|discriminate]. split; [|eauto]. intros _. right. left. apply RR. eauto.
Qed.
Print Assumptions C105_table.
Example C105_sat : row 12 (repeat [0%Z; 0%Z; 128%Z; 63%Z] 12) /\ fits 5 /\ row 34 (repeat [1%Z; 2%Z; 3%Z; 4%Z] 34) /\ after_last "# step 12 z=9.5" = Some "9.5"%string /\
  comments ["# a "; "1 2"; "#b"]%string = ["# a"; "#b"]%string /\ last_entries 2 [1; 2; 3] 2 = [2; 3] /\ (exists p, read_particles (repeat 0%Z 40) = Returned p /\ gas p = []).
Proof.
  split; [split; [reflexivity|apply Forall_forall; intros w H; apply repeat_spec in H; subst; reflexivity]|]. split; [unfold fits; lia|].
  split; [split; [reflexivity|apply Forall_forall; intros w H; apply repeat_spec in H; subst; reflexivity]|]. split; [reflexivity|]. split; [reflexivity|]. split; [reflexivity|]. eexists. split; reflexivity.
Qed.
