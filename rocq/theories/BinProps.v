(** Properties of the binary file readers and writers (C10-C13, C55). *)
From Coq Require Import List Arith ZArith QArith Lia Bool.
From Verif Require Import BinModel BinSpec BinProofs.
Import ListNotations.
Local Open Scope nat_scope.

Ltac some_inv E E' :=
  match type of E with Some ?t = Some ?b =>
    assert (E' : b = t)
      by (exact (eq_sym (f_equal (fun q => match q with Some x => x | None => t end) E))) end.

(** Float types used in the examples: 8-bit integers, and fixed point numbers. *)
Definition byte_codec : codec Z := {| width := 1; enc := fun v => [v]; dec := fun l => hd 0%Z l; dflt := 0%Z |}.
Definition fix_codec (w : nat) : codec Q :=
  {| width := w; enc := fun q => le_bytes w (Qnum q * 256 / Zpos (Qden q))%Z;
     dec := fun l => (le_value l # 256)%Q; dflt := 0%Q |}.
Definition ex3 : array Z := {| shape := [2; 3; 1]; get := fun ix => Z.of_nat (ravel [2; 3; 1] ix) |}.

(** ** C10 *)

(** save_cbin then read_cbin with the right number of dimensions gives the array
    back, in both orders, exactly when the array has at most three dimensions. *)
Theorem C10_cbin_round_trip : forall V (c : codec V) (o : order) (a : array V),
  dims_fit (shape a) -> all_representable c a ->
  ((exists b, read_cbin c o (length (shape a)) false (save_cbin c o a) = Some b /\ same_array b a)
   <-> length (shape a) <= 3).
Proof.
  intros V c o a Hf Hr. split.
  - intros (b & E & Hs & _). rewrite <- Hs.
    unfold read_cbin, reshapeZ in E. destruct (read_ints _ _) as [h r].
    unfold nat_dims, reshape in E.
    destruct (forallb _ _); [|discriminate].
    match type of E with (if ?t then _ else _) = _ => destruct t end; [|discriminate].
    assert (X : shape b = map Z.to_nat (firstn 3 h)).
    { some_inv E E'. rewrite E'. destruct o; reflexivity. }
    rewrite X, map_length. apply firstn_le_length.
  - intros Hd. now apply cbin_round_trip.
Qed.
Print Assumptions C10_cbin_round_trip.

(** A raw file is read back as the same array exactly when the array is a cube. *)
Theorem C10_raw_round_trip : forall V (c : codec V) (o : order) (a : array V),
  0 < width c -> all_representable c a ->
  ((exists b, read_raw_binary c o (save_raw_binary c o a) = Some b /\ same_array b a)
   <-> exists n, shape a = [n; n; n]).
Proof.
  intros V c o a Hw Hr. rewrite raw_reads by (try apply rep_len; assumption). cbn zeta. split.
  - intros (b & E & Hs & _). exists (round_cbrt (prod (shape a))). unfold reshape in E.
    match type of E with (if ?t then _ else _) = _ => destruct t end; [|discriminate].
    some_inv E E'.
    rewrite <- Hs at 1. rewrite E'. destruct o; reflexivity.
  - intros [n Hn].
    assert (R : round_cbrt (prod (shape a)) = n).
    { rewrite Hn. unfold prod; cbn [fold_right]. rewrite <- (round_cbrt_cube n) at 4. f_equal. ring. }
    rewrite R, <- Hn. now apply reshape_codec.
Qed.
Print Assumptions C10_raw_round_trip.

(** Otherwise reading raises when the number of values is not a perfect cube, and
    silently returns a cube of another shape, with the values in file order, when it is. *)
Theorem C10_raw_other_shapes : forall V (c : codec V) (o : order) (a : array V),
  0 < width c -> all_representable c a ->
  (read_raw_binary c o (save_raw_binary c o a) = None <-> ~ exists n, prod (shape a) = n * n * n)
  /\ forall b, read_raw_binary c o (save_raw_binary c o a) = Some b ->
       exists n, shape b = [n; n; n] /\ n * n * n = prod (shape a) /\ flatten o b = flatten o a.
Proof.
  intros V c o a Hw Hr. rewrite raw_reads by (try apply rep_len; assumption). cbn zeta.
  set (n := round_cbrt (prod (shape a))).
  assert (P3 : prod [n; n; n] = n * n * n) by (unfold prod; cbn [fold_right]; ring).
  assert (ML : length (map (fun v => dec c (enc c v)) (flatten o a)) = prod (shape a))
    by (now rewrite map_length, flatten_length).
  assert (ME : map (fun v => dec c (enc c v)) (flatten o a) = flatten o a).
  { rewrite <- (map_id (flatten o a)) at 2. apply map_ext_in. intros v Hv.
    apply in_flatten in Hv as (ix & Hix & ->). apply (Hr ix Hix). }
  unfold reshape. rewrite ML, P3. destruct (Nat.eqb_spec (prod (shape a)) (n * n * n)) as [E|E].
  - split.
    + split; [discriminate|]. intros H. exfalso. apply H. now exists n.
    + intros b Eb. assert (E' := f_equal (fun q => match q with Some x => x | None => b end) Eb).
      cbn beta iota in E'. rewrite ME in E'. exists n. rewrite <- E'.
      split; [destruct o; reflexivity|]. split; [now symmetry|].
      assert (LL : length (flatten o a) = prod [n; n; n]) by (rewrite flatten_length, P3; exact E).
      clear -LL. revert LL. generalize (flatten o a) as l. generalize [n; n; n] as s. intros s l LL.
      assert (G : forall s', length l = prod s' -> map (fun ix => nth (ravel s' ix) l (dflt c)) (indices s') = l).
      { intros s' L'. apply nth_ext with (d := dflt c) (d' := dflt c).
        - now rewrite map_length, indices_length.
        - intros k Hk. rewrite map_length, indices_length in Hk.
          destruct (nth_error (indices s') k) as [ix|] eqn:Ek.
          2:{ apply nth_error_None in Ek. rewrite indices_length in Ek. lia. }
          assert (K : ravel s' ix = k).
          { assert (V' : valid s' ix) by (apply indices_in; eapply nth_error_In; exact Ek).
            pose proof (nth_indices s' ix V') as N.
            assert (ND : NoDup (indices s')).
            { clear. induction s' as [|m s' IH]; cbn [indices]; [constructor; [intros []|constructor]|].
              generalize (seq_NoDup m 0). generalize (seq 0 m) as q. induction q as [|x q IHq]; intros ND; cbn [flat_map]; [constructor|].
              inversion ND as [|? ? Nx NDq]; subst.
              assert (NM : NoDup (map (cons x) (indices s'))).
              { clear -IH. induction IH as [|y l Ny _ IHl]; cbn [map]; constructor; [|exact IHl].
                intros H. apply in_map_iff in H as (z & Ez & Hz). injection Ez as ->. contradiction. }
              assert (APP : forall (l1 l2 : list (list nat)), NoDup l1 -> NoDup l2 -> (forall z, In z l1 -> ~ In z l2) -> NoDup (l1 ++ l2)).
              { clear. induction l1 as [|u l1 IH1]; intros l2 N1 N2 D; cbn [app]; [exact N2|].
                inversion N1; subst. constructor.
                - intros H. apply in_app_or in H as [H|H]; [contradiction|]. apply (D u (or_introl eq_refl) H).
                - apply IH1; [assumption..|]. intros z Hz. apply D. now right. }
              apply APP; [exact NM|now apply IHq|].
              intros z Hz Hz2. apply in_map_iff in Hz as (t & <- & _).
              apply in_flat_map in Hz2 as (x' & Hx' & H). apply in_map_iff in H as (t' & Et & _).
              injection Et as -> _. contradiction. }
            rewrite NoDup_nth_error in ND. apply ND; [rewrite indices_length; now apply ravel_lt|].
            rewrite N, Ek. reflexivity. }
          rewrite <- K at 2. apply nth_error_nth. rewrite nth_error_map, Ek. cbn [option_map].
          reflexivity. }
      destruct o; cbn [flatten transpose shape get].
      * now apply G.
      * transitivity (map (fun ix => nth (ravel (rev s) ix) l (dflt c)) (indices (rev s))).
        -- apply map_ext. intros ix. now rewrite rev_involutive.
        -- apply G. now rewrite prod_rev.
  - split; [|discriminate]. split; [|reflexivity]. intros _ [m Hm]. apply E.
    assert (n = m) by (unfold n; rewrite Hm; apply round_cbrt_cube). subst m. exact Hm.
Qed.
Print Assumptions C10_raw_other_shapes.

Example C10_sat :
  dims_fit (shape ex3) /\ all_representable byte_codec ex3 /\ 0 < width byte_codec
  /\ save_cbin byte_codec OF ex3 = [2;0;0;0; 3;0;0;0; 1;0;0;0; 0;3;1;4;2;5]%Z
  /\ option_map shape (read_cbin byte_codec OF 3 false (save_cbin byte_codec OF ex3)) = Some [2; 3; 1]
  /\ read_raw_binary byte_codec OC (save_raw_binary byte_codec OC ex3) = None
  /\ option_map shape (read_raw_binary byte_codec OC
       (save_raw_binary byte_codec OC {| shape := [4; 2; 1]; get := fun ix => Z.of_nat (ravel [4; 2; 1] ix) |}))
     = Some [2; 2; 2].
Proof.
  repeat split; try (cbn; lia); try (repeat constructor; cbn; lia).
Qed.

(** ** C11 *)

(** Whatever DensityFile.write_to_file writes from a raw density is read back as the
    same array; it is written exactly for three-dimensional arrays, and giving a cgs
    density always raises. *)
Theorem C11_density_round_trip : forall V (c : codec V) (a : array V),
  0 < width c -> dims_fit (shape a) -> all_representable c a ->
  (length (shape a) = 3 ->
     exists bs b, write_density c (Some a) None false = Some bs
       /\ read_density c false bs = Some b /\ same_array b a)
  /\ (length (shape a) <> 3 -> forall old, write_density c (Some a) None old = None)
  /\ (forall raw cgs old, write_density c raw (Some cgs) old = None).
Proof.
  intros V c a Hw Hf Hr. split; [|split].
  - intros H3. unfold write_density. rewrite H3, Nat.eqb_refl.
    eexists. 
    destruct (density_round_trip c a (concat (map int32_bytes (zdims (shape a))) ++ tofile c (flatten OC (transpose a))) Hw Hf Hr) as (b & E & S).
    { unfold write_density. now rewrite H3, Nat.eqb_refl. }
    exists b. split; [reflexivity|]. split; assumption.
  - intros H3 old. unfold write_density. apply Nat.eqb_neq in H3. now rewrite H3.
  - intros [?|] cgs old; reflexivity.
Qed.
Print Assumptions C11_density_round_trip.

(** Clumping files have the same layout; a clumping array that is not
    three-dimensional leaves an empty file, which cannot be read. *)
Theorem C11_clumping_round_trip : forall V (c : codec V) (a : array V),
  0 < width c -> dims_fit (shape a) -> all_representable c a ->
  (length (shape a) = 3 ->
     exists b, read_density c false (write_clumping c a) = Some b /\ same_array b a)
  /\ (length (shape a) <> 3 -> write_clumping c a = [] /\ read_density c false (write_clumping c a) = None).
Proof.
  intros V c a Hw Hf Hr. split; intros H3.
  - apply density_round_trip; try assumption.
    unfold write_density, write_clumping. now rewrite H3, Nat.eqb_refl.
  - unfold write_clumping. apply Nat.eqb_neq in H3. rewrite H3. split; reflexivity.
Qed.
Print Assumptions C11_clumping_round_trip.

(** In the old headerless format only 203^3 cells can be read back; cubes of that
    size round trip and every other number of cells raises. *)
Theorem C11_old_format : forall V (c : codec V) (a : array V),
  0 < width c -> all_representable c a -> length (shape a) = 3 ->
  exists bs, write_density c (Some a) None true = Some bs /\
    ((exists b, read_density c true bs = Some b /\ same_array b a) <-> shape a = [203; 203; 203])
    /\ (read_density c true bs = None <-> prod (shape a) <> prod [203; 203; 203]).
Proof.
  intros V c a Hw Hr H3. unfold write_density. rewrite H3, Nat.eqb_refl. eexists. split; [reflexivity|].
  unfold read_density. cbn [app]. rewrite flatten_F, read_floats_all; [|assumption|lia|now apply rep_len].
  assert (ML : length (map (fun v => dec c (enc c v)) (flatten OF a)) = prod (shape a))
    by (now rewrite map_length, flatten_length).
  remember [203; 203; 203] as s203 eqn:E203. clear E203.
  split; [split|split].
  - intros (b & E & Hs & _). unfold reshape in E.
    match type of E with (if ?t then _ else _) = _ => destruct t end; [|discriminate].
    some_inv E E'.
    rewrite <- Hs. now rewrite E'.
  - intros <-. now apply reshape_codec.
  - unfold reshape. rewrite ML. destruct (Nat.eqb_spec (prod (shape a)) (prod s203)); [discriminate|auto].
  - intros H. unfold reshape. rewrite ML. apply Nat.eqb_neq in H. now rewrite H.
Qed.
Print Assumptions C11_old_format.

Example C11_sat :
  all_representable byte_codec ex3 /\ length (shape ex3) = 3
  /\ write_density byte_codec (Some ex3) None false = Some [2;0;0;0; 3;0;0;0; 1;0;0;0; 0;3;1;4;2;5]%Z
  /\ option_map (fun b => map (get b) (indices [2; 3; 1]))
        (read_density byte_codec false [2;0;0;0; 3;0;0;0; 1;0;0;0; 0;3;1;4;2;5]%Z)
     = Some [0; 1; 2; 3; 4; 5]%Z
  /\ write_density byte_codec (Some {| shape := [2; 2]; get := fun _ => 1%Z |}) None false = None.
Proof. repeat split. Qed.

(** ** C12 *)

(** Same binary_format and old_format: the mesh comes back, and the ionized fraction in
    every cell, if the neutral flags agree, or one minus it, if they differ. *)
Theorem C12_xfrac_round_trip : forall (c32 c64 : codec Q) (old neutral neutral' binary : bool) (xi : array Q),
  let c := if old then c32 else c64 in
  0 < width c -> length (shape xi) = 3 -> dims_fit (shape xi) ->
  (forall ix, valid (shape xi) ix ->
     representableQ c (if neutral then (1 - get xi ix)%Q else get xi ix)) ->
  exists bs b, write_xfrac c32 c64 old neutral binary xi = Some bs
    /\ read_xfrac c32 c64 old neutral' binary bs = Some b
    /\ shape b = shape xi
    /\ forall ix, valid (shape xi) ix ->
         (get b ix == if Bool.eqb neutral neutral' then get xi ix else 1 - get xi ix)%Q.
Proof.
  intros c32 c64 old ntr ntr' bin xi c Hw H3 Hf Hr.
  destruct (write_xfrac c32 c64 old ntr bin xi) as [bs|] eqn:E.
  2:{ unfold write_xfrac in E. destruct (shape xi) as [|? [|? [|? [|? ?]]]]; discriminate. }
  destruct (xfrac_round_trip c32 c64 old ntr ntr' bin xi bs Hw H3 Hf Hr E) as (b & Eb & Hs & Hg).
  exists bs, b. split; [reflexivity|]. split; [exact Eb|].
  destruct (Bool.eqb ntr ntr'); cbn [shape get] in *; (split; [exact Hs|]);
    intros ix Hix; apply Hg; rewrite Hs; exact Hix.
Qed.
Print Assumptions C12_xfrac_round_trip.

(** Reading with the other old_format flag (the other float size) always raises. *)
Theorem C12_wrong_precision_raises : forall (c32 c64 : codec Q) (old neutral neutral' binary : bool) (xi : array Q) bs,
  width c32 = 4 -> width c64 = 8 -> length (shape xi) = 3 -> dims_fit (shape xi) -> 0 < prod (shape xi) ->
  (forall v, length (enc (if old then c32 else c64) v) = width (if old then c32 else c64)) ->
  write_xfrac c32 c64 old neutral binary xi = Some bs ->
  read_xfrac c32 c64 (negb old) neutral' binary bs = None.
Proof. intros. eapply xfrac_size_mismatch; eauto. Qed.
Print Assumptions C12_wrong_precision_raises.

Definition exq : array Q := {| shape := [2; 1; 2]; get := fun ix => (Z.of_nat (ravel [2; 1; 2]%nat ix) # 4)%Q |}.
Example C12_sat :
  0 < width (fix_codec 8) /\ length (shape exq) = 3 /\ dims_fit (shape exq)
  /\ (forall ix, valid (shape exq) ix -> representableQ (fix_codec 8) (1 - get exq ix)%Q)
  /\ width (fix_codec 4) = 4 /\ 0 < prod (shape exq)
  /\ (forall v, length (enc (fix_codec 8) v) = width (fix_codec 8)).
Proof.
  split; [cbn; lia|]. split; [reflexivity|]. split; [repeat constructor; cbn; lia|].
  split; [|split; [reflexivity|split; [cbn; lia|reflexivity]]].
  intros ix H. apply indices_in in H. cbn in H.
  destruct H as [<-|[<-|[<-|[<-|[]]]]]; split; reflexivity.
Qed.

(** ** C13 *)

(** A momentum field of shape (3, nx, ny, nz) is read back unchanged, whatever mesh the
    object had before. Any other shape beginning with 3 empties the file. *)
Theorem C13_velocity_round_trip : forall V (c : codec V) mesh (a : array V) s,
  0 < width c -> shape a = 3 :: s -> dims_fit s -> all_representable c a ->
  (length s = 3 -> exists b, read_velocity c (write_velocity c mesh a) = Some b /\ same_array b a)
  /\ (length s <> 3 -> write_velocity c mesh a = [] /\ read_velocity c (write_velocity c mesh a) = None).
Proof.
  intros V c mesh a s Hw Hs Hf Hr. split; intros H3.
  - now apply velocity_round_trip with (s := s).
  - unfold write_velocity. rewrite Hs. apply Nat.eqb_neq in H3. rewrite H3. split; reflexivity.
Qed.
Print Assumptions C13_velocity_round_trip.

(** A field of any other shape is written under the mesh of the object (empty file
    if there is none); reading it back never returns it. *)
Theorem C13_other_shapes : forall V (c : codec V) mesh (a : array V),
  (forall s, shape a <> 3 :: s) ->
  ~ exists b, read_velocity c (write_velocity c mesh a) = Some b /\ same_array b a.
Proof.
  intros V c mesh a H (b & E & Hs & _).
  unfold read_velocity in E. destruct (read_ints 3 _) as [m r].
  destruct (length m =? 3); [|discriminate]. unfold reshapeZ in E.
  unfold nat_dims in E. destruct (forallb _ _); [|discriminate]. cbn [map] in E. unfold reshape in E.
  match type of E with (if ?t then _ else _) = _ => destruct t end; [|discriminate].
  some_inv E E'.
  apply (H (map Z.to_nat m)). rewrite <- Hs, E'. reflexivity.
Qed.
Print Assumptions C13_other_shapes.

Definition exv : array Z := {| shape := [3; 1; 2; 1]; get := fun ix => Z.of_nat (ravel [3; 1; 2; 1] ix) |}.
Example C13_sat :
  all_representable byte_codec exv /\ dims_fit [1; 2; 1]
  /\ write_velocity byte_codec None exv = [1;0;0;0; 2;0;0;0; 1;0;0;0; 0;2;4;1;3;5]%Z
  /\ write_velocity byte_codec None {| shape := [3; 2]; get := fun _ => 0%Z |} = [].
Proof. repeat split. repeat constructor; cbn; lia. Qed.

(** ** C55 *)

(** get_mesh_size on the files the package writes: the mesh of the readers for cbin,
    density and (record format) ionized fraction files. *)
Theorem C55_mesh_size : forall V (c : codec V) c32 c64 old ntr o (a : array V) (xi : array Q) bs bs',
  dims_fit (shape a) -> length (shape a) = 3 -> dims_fit (shape xi) -> length (shape xi) = 3 ->
  write_density c (Some a) None false = Some bs ->
  write_xfrac c32 c64 old ntr false xi = Some bs' ->
  get_mesh_size Fcbin (save_cbin c o a) = Some (zdims (shape a))
  /\ get_mesh_size Fdensity bs = Some (zdims (shape a))
  /\ get_mesh_size Fxfrac bs' = Some (zdims (shape xi)).
Proof.
  intros V c c32 c64 old ntr o a xi bs bs' Ha H3 Hx H3x E E'. split; [|split].
  - unfold get_mesh_size, save_cbin. now rewrite read_dims.
  - unfold write_density in E. rewrite H3, Nat.eqb_refl in E.
    some_inv E X. rewrite X.
    unfold get_mesh_size. now rewrite read_dims.
  - unfold write_xfrac in E'.
    destruct (shape xi) as [|x [|y [|z [|w s]]]] eqn:Es; try discriminate.
    some_inv E' X. rewrite X.
    unfold get_mesh_size. pose proof (wrap32_dims _ Hx) as W. cbn [zdims map app] in *.
    change 6 with (length [0; Z.of_nat x; Z.of_nat y; Z.of_nat z; 0; 0]%Z).
    rewrite read_ints_header. cbn [map fst skipn firstn]. now injection W as -> -> ->.
Qed.
Print Assumptions C55_mesh_size.

(** For a temperature file it returns only the first two of the three dimensions. *)
Theorem C55_temper_mesh_size : forall V (c : codec V) m1 m2 m3 (a : array V),
  dims_fit (shape a) -> length (shape a) = 3 ->
  get_mesh_size Ftemper (record_file c m1 m2 m3 a) = Some (firstn 2 (zdims (shape a))).
Proof.
  intros V c m1 m2 m3 a Hf H3. unfold get_mesh_size, record_file.
  destruct (shape a) as [|x [|y [|z [|w s]]]] eqn:Es; try discriminate.
  pose proof (wrap32_dims _ Hf) as W. cbn [zdims map app] in *.
  match goal with |- context [concat ?l ++ ?t] =>
    change (concat l) with (concat (map int32_bytes [m1; Z.of_nat x; Z.of_nat y])
      ++ concat (map int32_bytes [Z.of_nat z; m2; m3])) end.
  rewrite <- app_assoc.
  change (read_ints 3) with (read_ints (length [m1; Z.of_nat x; Z.of_nat y])).
  rewrite read_ints_header. cbn [map fst skipn firstn]. now injection W as -> -> _.
Qed.
Print Assumptions C55_temper_mesh_size.

(** A well-formed temperature file is read correctly exactly when the number of cells
    does not overflow the int32 product to a smaller non-negative number; otherwise
    the reader raises. *)
Theorem C55_temper_overflow : forall V (c : codec V) m1 m2 m3 (a : array V),
  0 < width c -> length (shape a) = 3 -> dims_fit (shape a) -> all_representable c a ->
  let cells := Z.of_nat (prod (shape a)) in
  let fits := (cells < 2 ^ 32 \/ 2 ^ 31 <= cells mod 2 ^ 32)%Z in
  ((exists b, read_temper c false false (record_file c m1 m2 m3 a) = Some b /\ same_array b a) <-> fits)
  /\ (~ fits -> read_temper c false false (record_file c m1 m2 m3 a) = None).
Proof.
  intros V c m1 m2 m3 a Hw H3 Hf Hr cells fits.
  destruct (temper_iff c m1 m2 m3 a Hw H3 Hf Hr) as [[A B] C]. fold cells in A, B, C.
  split; [split|].
  - intros H. specialize (A H). unfold fits. destruct A; [right|left]; lia.
  - intros H. apply B. destruct H; [right|left]; lia.
  - intros N. destruct (read_temper _ _ _ _) as [b|] eqn:E; [|reflexivity].
    exfalso. apply N. specialize (C (ex_intro _ b eq_refl)). unfold fits. destruct C; [right|left]; lia.
Qed.
Print Assumptions C55_temper_overflow.

(** Meshes on both sides: 250^3 is fine, 1626^3 fails, 1500^3 overflows harmlessly. *)
Example C55_sat :
  (let f n := (n * n * n < 2 ^ 32 \/ 2 ^ 31 <= (n * n * n) mod 2 ^ 32)%Z in f 250 /\ f 1500 /\ ~ f 1626)%Z
  /\ dims_fit [1626; 1626; 1626] /\ all_representable byte_codec ex3.
Proof.
  split; [|split; [repeat constructor; cbn; lia|repeat split]].
  cbv zeta. split; [left; reflexivity|]. split; [left; vm_compute; reflexivity|].
  intros [H|H]; vm_compute in H; [discriminate|]. now apply H.
Qed.
