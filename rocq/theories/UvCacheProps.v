(** Properties C01-C03: the uv-map cache. *)
From Coq Require Import String List Arith ZArith QArith Lia Bool.
From Verif Require Import PyBase UvCacheModel UvCacheSpec UvCacheProofs.
Import ListNotations.
Local Open Scope nat_scope.

(** A concrete call used in the satisfiability examples. *)
Definition ex_call : call :=
  {| ncells := 100; boxsize := 244; total_int_time := 6; int_time := 10;
     declination := -30; subarray_type := "AA4"%string; N_ant := 512 |}.
Definition ex_zs : list Q := [7; 15#2; 8; 17#2; 9]%Q.
(** A save file with the parameters and one map (key 7.500). *)
Definition ex_file : file Q := Good (params_dict (params_of ex_call) ++ [(KZ 7500, VMap (15#2)%Q)]).

(** C01: every entry of the returned dictionary is the specified one, whatever
    the scheduling options. *)
Theorem C01_uv_cache_content :
  forall (M : Type) (worker : Q -> M) a zs save njobs ckpt (f : file M) d evs k,
    uv_run worker a zs save njobs ckpt f = Returned d evs ->
    dget k d = expected_entry worker a zs save f k.
Proof. exact @uv_content. Qed.
Print Assumptions C01_uv_cache_content.

Example C01_uv_cache_content_sat :
  exists d evs, uv_run (fun z => z) ex_call ex_zs true 4 (Some 2%Z) ex_file = Returned d evs
    /\ List.length evs = 10 /\ dget (KZ 8500) d = Some (VMap (17#2)%Q).
Proof. eexists _, _; split; [vm_compute; reflexivity|vm_compute; auto]. Qed.

(** C01: the call raises exactly when the save file is torn or records another
    value for one of the parameters; it then touches nothing. *)
Theorem C01_uv_cache_raises_iff :
  forall (M : Type) (worker : Q -> M) a zs save njobs ckpt (f : file M),
    uv_run worker a zs save njobs ckpt f = Raised <-> save = true /\ ~ usable a f.
Proof. exact @uv_run_raised. Qed.
Print Assumptions C01_uv_cache_raises_iff.

Example C01_uv_cache_raises_sat :
  ~ usable {| ncells := 128; boxsize := 244; total_int_time := 6; int_time := 10;
              declination := -30; subarray_type := "AA4"%string; N_ant := 512 |} ex_file
  /\ usable ex_call ex_file.
Proof.
  split.
  - intros H. destruct (H Pncells (PNum 128) (or_introl eq_refl)) as [H'|(w & H' & E)];
      vm_compute in H'; [discriminate|]. injection H' as <-. vm_compute in E. discriminate.
  - apply (usable_iff ex_call). reflexivity.
Qed.

(** C01: result, final file and set of computed maps do not depend on [n_jobs]
    and [checkpoint] (no distinctness needed). *)
Theorem C01_uv_cache_schedule_independent :
  forall (M : Type) (worker : Q -> M) a zs save njobs ckpt njobs' ckpt' (f : file M),
    match uv_run worker a zs save njobs ckpt f, uv_run worker a zs save njobs' ckpt' f with
    | Raised, Raised => True
    | Returned d evs, Returned d' evs' =>
        d = d' /\ file_final (Returned d evs) f = file_final (Returned d' evs') f
        /\ computed (Returned d evs) = computed (Returned d' evs')
    | _, _ => False
    end.
Proof. exact @schedule_independent. Qed.
Print Assumptions C01_uv_cache_schedule_independent.

(** C01: the maps computed are exactly those of the requested redshifts whose key
    is not cached, and the final file holds the result (or is untouched when
    there was nothing to compute). *)
Theorem C01_uv_cache_computed :
  forall (M : Type) (worker : Q -> M) a zs save njobs ckpt (f : file M) d evs,
    uv_run worker a zs save njobs ckpt f = Returned d evs ->
    computed (Returned d evs)
    = filter (fun z => negb (dmem (zkey z) (starting_dict a save f))) zs.
Proof. exact @computed_spec. Qed.
Print Assumptions C01_uv_cache_computed.
Example C01_uv_cache_computed_sat : exists (M : Type) (worker : Q -> M) (a : call) (zs : list Q) (save : bool) (njobs : Z) (ckpt : option Z) (f : file M) (d : dict M) (evs : list (event M)), uv_run worker a zs save njobs ckpt f = Returned d evs.
Proof. eexists Q, (fun z => z), ex_call, ex_zs, true, 4%Z, (Some 2%Z), ex_file, _, _. vm_compute; reflexivity. Qed.

Theorem C01_uv_cache_final_file :
  forall (M : Type) (worker : Q -> M) a zs njobs ckpt (f : file M) d evs,
    uv_run worker a zs true njobs ckpt f = Returned d evs ->
    (computed (Returned d evs) = [] /\ file_final (Returned d evs) f = f)
    \/ (computed (Returned d evs) <> [] /\ file_final (Returned d evs) f = Good d).
Proof. exact @final_file. Qed.
Print Assumptions C01_uv_cache_final_file.
Example C01_uv_cache_final_file_sat : exists (M : Type) (worker : Q -> M) (a : call) (zs : list Q) (njobs : Z) (ckpt : option Z) (f : file M) (d : dict M) (evs : list (event M)), uv_run worker a zs true njobs ckpt f = Returned d evs.
Proof. eexists Q, (fun z => z), ex_call, ex_zs, 4%Z, (Some 2%Z), ex_file, _, _. vm_compute; reflexivity. Qed.

(** C01: a file written by a call with setup [a] is accepted by a later call exactly
    when the seven observation parameters agree. *)
Definition same_setup (a b : call) : Prop :=
  (ncells a == ncells b /\ boxsize a == boxsize b /\ total_int_time a == total_int_time b
   /\ int_time a == int_time b /\ declination a == declination b
   /\ subarray_type a = subarray_type b /\ N_ant a == N_ant b)%Q.

Theorem C01_uv_cache_other_setup_raises :
  forall (M : Type) (worker worker' : Q -> M) a zs njobs ckpt d evs a' zs' njobs' ckpt',
    uv_run worker a zs true njobs ckpt Absent = Returned d evs ->
    computed (Returned d evs) <> [] ->
    (uv_run worker' a' zs' true njobs' ckpt' (file_final (Returned d evs) Absent) = Raised
     <-> ~ same_setup a a').
Proof.
  intros M worker worker' a zs nj ck d evs a' zs' nj' ck' E NE.
  destruct (C01_uv_cache_final_file _ worker a zs nj ck Absent d evs E) as [[C _]|[_ F]]; [contradiction|].
  rewrite F, C01_uv_cache_raises_iff.
  assert (G : forall p v, In (p, v) (params_of a) -> dget (KParam p) d = Some (VPar v)).
  { intros p v Hin. rewrite (C01_uv_cache_content _ _ _ _ _ _ _ _ _ _ (KParam p) E).
    unfold expected_entry, starting_dict.
    replace (dget (KParam p) (params_dict (params_of a))) with (Some (@VPar M v)); [reflexivity|].
    cbn in Hin. intuition match goal with H : (_, _) = (_, _) |- _ => injection H as <- <- end; reflexivity. }
  assert (U : usable a' (Good d) <-> same_setup a a').
  { unfold usable, same_setup. cbn [params_of] in *. split.
    - intros H.
      assert (K : forall p v w, In (p, v) (params_of a) -> In (p, w) (params_of a') -> same_value v w).
      { intros p v w Hv Hw. destruct (H p w Hw) as [N|(x & Hx & Ex)]; rewrite (G p v Hv) in *; [discriminate|].
        now injection Hx as <-. }
      split; [|split; [|split; [|split; [|split; [|split]]]]];
        [ apply (K Pncells (PNum _) (PNum _)) | apply (K Pboxsize (PNum _) (PNum _))
        | apply (K Ptotal_int_time (PNum _) (PNum _)) | apply (K Pint_time (PNum _) (PNum _))
        | apply (K Pdeclination (PNum _) (PNum _)) | apply (K Psubarray_type (PStr _) (PStr _))
        | apply (K PN_ant (PNum _) (PNum _)) ]; cbn; tauto.
    - intros (H1 & H2 & H3 & H4 & H5 & H6 & H7) p v Hin. right.
      cbn in Hin.
      repeat (destruct Hin as [Hin|Hin];
        [injection Hin as <- <-; eexists; split; [apply G; cbn; tauto|cbn; assumption]|]).
      destruct Hin. }
  rewrite U. tauto.
Qed.
Print Assumptions C01_uv_cache_other_setup_raises.

Example C01_uv_cache_other_setup_sat :
  exists d evs, uv_run (fun z => z) ex_call ex_zs true 4 (Some 2%Z) Absent = Returned d evs
    /\ computed (Returned d evs) <> []
    /\ ~ same_setup ex_call {| ncells := 100; boxsize := 244; total_int_time := 6; int_time := 10;
             declination := -25; subarray_type := "AA4"%string; N_ant := 512 |}.
Proof.
  eexists _, _. split; [vm_compute; reflexivity|]. split; [vm_compute; discriminate|].
  intros H. vm_compute in H. intuition discriminate.
Qed.

(** C01: two redshifts share a key only if they differ by at most 0.001. *)
Theorem C01_uv_cache_key_resolution :
  forall z1 z2, zkey z1 = zkey z2 -> (z1 - z2 <= 1#1000 /\ z2 - z1 <= 1#1000)%Q.
Proof. exact zkey_near. Qed.
Print Assumptions C01_uv_cache_key_resolution.

Example C01_uv_cache_key_resolution_sat :
  zkey (70001#10000) = zkey (70002#10000) /\ zkey 7 <> zkey (70006#10000).
Proof. split; [reflexivity|discriminate]. Qed.

(** C02: after any number of crashes that did not hit a write, with any
    scheduling options in each run, a completed run gives the dictionary and
    the file of one uninterrupted run. *)
Theorem C02_uv_cache_crash_resume :
  forall (M : Type) (worker : Q -> M) a zs (f : file M) cs njobs ckpt njobs0 ckpt0 d0 ev0,
    distinct_keys zs ->
    uv_run worker a zs true njobs0 ckpt0 f = Returned d0 ev0 ->
    after_crashes worker a zs f cs <> Torn ->
    exists evs,
      uv_run worker a zs true njobs ckpt (after_crashes worker a zs f cs) = Returned d0 evs
      /\ file_final (Returned d0 evs) (after_crashes worker a zs f cs)
         = file_final (Returned d0 ev0) f.
Proof. exact @crash_resume. Qed.
Print Assumptions C02_uv_cache_crash_resume.

Example C02_uv_cache_crash_resume_sat :
  let cs := [ {| cr_njobs := 1; cr_ckpt := Some 2%Z; cr_steps := 5 |};
              {| cr_njobs := 4; cr_ckpt := Some 1%Z; cr_steps := 3 |} ] in
  distinct_keys ex_zs
  /\ (exists d0 ev0, uv_run (fun z => z) ex_call ex_zs true 4 None ex_file = Returned d0 ev0)
  /\ after_crashes (fun z => z) ex_call ex_zs ex_file cs <> Torn
  /\ after_crashes (fun z => z) ex_call ex_zs ex_file cs <> ex_file.
Proof.
  cbv zeta. split; [|split; [|split]].
  - repeat constructor; simpl; intuition discriminate.
  - eexists _, _. vm_compute. reflexivity.
  - vm_compute. discriminate.
  - vm_compute. discriminate.
Qed.

(** C02: what a crashed run had checkpointed is neither lost nor recomputed. *)
Theorem C02_uv_cache_checkpointed_kept :
  forall (M : Type) (worker : Q -> M) a zs (f : file M) cs g njobs ckpt,
    distinct_keys zs -> usable a f -> after_crashes worker a zs f cs = Good g ->
    exists d evs, uv_run worker a zs true njobs ckpt (Good g) = Returned d evs
      /\ (forall k v, dget k g = Some v -> dget k d = Some v)
      /\ (forall z, In z (computed (Returned d evs)) -> dget (zkey z) g = None).
Proof. exact @checkpointed_kept. Qed.
Print Assumptions C02_uv_cache_checkpointed_kept.

Example C02_uv_cache_checkpointed_kept_sat :
  usable ex_call (Absent : file Q) /\ distinct_keys ex_zs
  /\ exists g, after_crashes (fun z => z) ex_call ex_zs Absent
       [ {| cr_njobs := 1; cr_ckpt := Some 2%Z; cr_steps := 5 |} ] = Good g
     /\ dget (KZ 7500) g = Some (VMap (15#2)%Q) /\ dget (KZ 8000) g = None.
Proof.
  split; [exact I|]. split; [repeat constructor; simpl; intuition discriminate|].
  eexists. vm_compute. auto.
Qed.

(** C02: with [checkpoint = c > 0], a crash at any point loses at most [c]
    computed maps. *)
Theorem C02_uv_cache_lost_work_bound :
  forall (M : Type) (worker : Q -> M) a zs njobs c (f : file M) d evs k,
    (0 < c)%Z ->
    uv_run worker a zs true njobs (Some c) f = Returned d evs ->
    (Z.of_nat (unsaved (firstn k evs)) <= c)%Z.
Proof. exact @lost_work_bound. Qed.
Print Assumptions C02_uv_cache_lost_work_bound.
Example C02_uv_cache_lost_work_bound_sat : exists (M : Type) (worker : Q -> M) (a : call) (zs : list Q) (njobs : Z) (c : Z) (f : file M) (d : dict M) (evs : list (event M)), (0 < c)%Z /\ uv_run worker a zs true njobs (Some c) f = Returned d evs.
Proof. eexists Q, (fun z => z), ex_call, ex_zs, 4%Z, 2%Z, ex_file, _, _. split; [lia|vm_compute; reflexivity]. Qed.

Example C02_uv_cache_lost_work_sat :
  exists d evs, uv_run (fun z => z) ex_call ex_zs true 1 (Some 2%Z) (Absent : file Q) = Returned d evs
    /\ unsaved (firstn 2 evs) = 2.
Proof. eexists _, _; split; vm_compute; reflexivity. Qed.

(** C02 needs distinct keys: with two redshifts that print alike, the resumed
    run returns another map than the uninterrupted one. *)
Theorem C02_uv_cache_crash_resume_duplicates_refuted :
  exists (worker : Q -> Q) a zs cs d0 ev0 d1 ev1,
    uv_run worker a zs true 1 (Some 1%Z) Absent = Returned d0 ev0
    /\ after_crashes worker a zs Absent cs <> Torn
    /\ uv_run worker a zs true 1 (Some 1%Z) (after_crashes worker a zs Absent cs) = Returned d1 ev1
    /\ dget (KZ 7000) d0 <> dget (KZ 7000) d1.
Proof.
  exists (fun z => z), ex_call, [70001#10000; 70002#10000]%Q,
    [ {| cr_njobs := 1; cr_ckpt := Some 1%Z; cr_steps := 3 |} ].
  eexists _, _, _, _. split; [vm_compute; reflexivity|].
  split; [vm_compute; discriminate|]. split; [vm_compute; reflexivity|].
  vm_compute. discriminate.
Qed.
Print Assumptions C02_uv_cache_crash_resume_duplicates_refuted.

(** C03: a crash inside any write of any run leaves a torn file, and from then
    on every call with that file raises, whatever else happens. *)
Theorem C03_uv_cache_torn_write :
  forall (M : Type) (worker : Q -> M) a zs njobs ckpt (f : file M) d evs k,
    uv_run worker a zs true njobs ckpt f = Returned d evs ->
    nth_error evs k = Some ETrunc ->
    file_after (Returned d evs) (S k) f = Torn.
Proof. exact @torn_after_trunc. Qed.
Print Assumptions C03_uv_cache_torn_write.
Example C03_uv_cache_torn_write_sat : exists d evs k, uv_run (fun z => z) ex_call ex_zs true 1 (Some 2%Z) ex_file = Returned d evs /\ nth_error evs k = Some ETrunc.
Proof. eexists _, _, 2. split; [vm_compute; reflexivity|vm_compute; reflexivity]. Qed.

Theorem C03_uv_cache_torn_forever :
  forall (M : Type) (worker : Q -> M) a zs cs njobs ckpt,
    after_crashes worker a zs Torn cs = Torn
    /\ uv_run worker a zs true njobs ckpt Torn = Raised.
Proof. exact @torn_forever. Qed.
Print Assumptions C03_uv_cache_torn_forever.

(** C03: "what was checkpointed survives a crash at any point" is false. *)
Theorem C03_uv_cache_crash_safety_refuted :
  exists (worker : Q -> Q) a zs c g k v,
    (exists n, file_after (uv_run worker a zs true 1 (Some 1%Z) Absent) n Absent = Good g)
    /\ dget (zkey k) g = Some v
    /\ after_crashes worker a zs Absent [c] = Torn
    /\ uv_run worker a zs true 1 (Some 1%Z) (after_crashes worker a zs Absent [c]) = Raised
    /\ (exists n, n < cr_steps c /\
          file_after (uv_run worker a zs true (cr_njobs c) (cr_ckpt c) Absent) n Absent = Good g).
Proof.
  exists (fun z => z), ex_call, ex_zs, {| cr_njobs := 1; cr_ckpt := Some 1%Z; cr_steps := 5 |}.
  eexists _, 7%Q, _. split; [exists 3; vm_compute; reflexivity|].
  split; [vm_compute; reflexivity|]. split; [vm_compute; reflexivity|].
  split; [vm_compute; reflexivity|]. exists 3. split; [simpl; lia|vm_compute; reflexivity].
Qed.
Print Assumptions C03_uv_cache_crash_safety_refuted.
