(** C114: file objects used more than once. *)
From Coq Require Import String List Arith Bool Lia.
From Verif Require Import ObjModel.
Import ListNotations.
Local Open Scope nat_scope.

Section Props.
Context {V T : Type} (factor : nat -> V -> V) (velocity : T -> V -> V) (redshift : kind -> string -> T) (f32 : V -> V) (writable : string -> bool).
Notation read := (read factor velocity redshift).
Notation construct := (construct factor velocity redshift).
Notation step := (step factor velocity redshift f32 writable).
Notation run := (run factor velocity redshift f32 writable).
Notation obj := (obj V T).
Notation disk := (disk V).

(** * Specification *)
(** A mesh of three sizes at the head and as many numbers as it needs: one per cell, three for velocities; clumping factors not for an empty mesh. *)
Definition readable (k : kind) (f : file V) (x y w : nat) : Prop :=
  head f = Some [x; y; w] /\ length (body f) = (match k with Velocity => 3 | _ => 1 end) * (x * y * w) /\ (k = Clumping -> body f <> []).
(** What was called, and how it ended. *)
Fixpoint trace (k : kind) (s : obj * disk) (ps : list (op V)) : list (op V * result) :=
  match ps with [] => [] | p :: r => (p, fst (step k s p)) :: trace k (snd (step k s p)) r end.
Definition last_read (l : list (op V * result)) : option string :=
  fold_left (fun b e => match e with (Read n, Returned) => Some n | _ => b end) l None.

(** * Reading *)
(** A file that can be read gives every attribute anew, whatever the object held before. *)
Theorem C114_read : forall k (d : disk) o name f x y w, d name = Some f -> readable k f x y w ->
  let cells := match k with Velocity => [3; x; y; w] | _ => [x; y; w] end in
  let t := redshift k name in
  read k d o name = (Returned, Obj (Some name) (Some [x; y; w]) (Value (Arr cells (body f)))
    (match k with
     | Density => Some (Arr cells (map (factor x) (body f)))
     | Velocity => Some (Arr cells (map (velocity t) (body f)))
     | Clumping => derived o
     end) (Some t)).
Proof.
  intros k d o name f x y w E (H & L & C). cbv zeta. unfold ObjModel.read. rewrite E, H.
  assert (P : length (body f) =? product (shape k [x; y; w]) = true). { apply Nat.eqb_eq. rewrite L. destruct k; cbn; lia. }
  rewrite P. destruct k; cbn [shape]; try reflexivity.
  destruct (Nat.eqb_spec (length (body f)) 0) as [Z|Z]; [|reflexivity]. exfalso. apply (C eq_refl). destruct (body f); [reflexivity|discriminate].
Qed.
(** Anything else raises, but not before some attributes have changed: the name is the
    new one, redshift and derived field are those of before; if the head is fine the mesh
    is the new one and the data are a flat list of the new numbers. *)
Theorem C114_read_fails : forall k (d : disk) o name, (forall f x y w, d name = Some f -> ~ readable k f x y w) -> (forall f m, d name = Some f -> head f = Some m -> length m = 3) ->
  exists e o', read k d o name = (Raised e, o') /\ filename o' = Some name /\ derived o' = derived o /\ z o' = z o /\
    match d name with
    | Some f => match head f with
        | Some m => mesh o' = Some m /\ (body f <> [] -> data o' = Value (Arr [length (body f)] (body f)))
        | None => mesh o' = mesh o /\ data o' = data o end
    | None => mesh o' = mesh o /\ data o' = data o
    end.
Proof.
  intros k d o name B L. unfold ObjModel.read. destruct (d name) as [f|] eqn:E; [|do 2 eexists; split; [reflexivity|cbn; auto]].
  destruct (head f) as [m|] eqn:H; [|do 2 eexists; split; [reflexivity|cbn; auto]].
  pose proof (L f m eq_refl H) as L3. destruct m as [|x [|y [|w [|? ?]]]]; try discriminate.
  specialize (B f x y w eq_refl). unfold readable in B.
  destruct (Nat.eqb_spec (length (body f)) (product (shape k [x; y; w]))) as [P|P].
  - destruct k.
    + exfalso. apply B. split; [exact H|]. split; [rewrite P; cbn; lia|discriminate].
    + destruct (Nat.eqb_spec (length (body f)) 0) as [Z|Z].
      * do 2 eexists. split; [reflexivity|]. cbn. repeat split; auto. intro N. exfalso. apply N. destruct (body f); [reflexivity|discriminate].
      * exfalso. apply B. split; [exact H|]. split; [rewrite P; cbn; lia|]. intros _ N. rewrite N in Z. contradiction.
    + exfalso. apply B. split; [exact H|]. split; [rewrite P; cbn; lia|discriminate].
  - do 2 eexists. split; [reflexivity|]. cbn. auto.
Qed.
(** Without a name nothing is read; with one there is an object only if the file is readable. *)
Theorem C114_construct : forall k (d : disk) name,
  (name = None \/ name = Some ""%string -> construct k d name = (Returned, Some (fresh : obj))) /\
  (forall n, name = Some n -> n <> ""%string ->
     match construct k d name with
     | (Returned, Some o) => read k d fresh n = (Returned, o)
     | (Raised e, None) => exists o, read k d fresh n = (Raised e, o)
     | _ => False
     end).
Proof.
  intros k d name. split; [intros [-> | ->]; reflexivity|]. intros n -> N. unfold ObjModel.construct. destruct n as [|c n]; [contradiction|].
  destruct (read k d fresh (String c n)) as [[|e] o] eqn:E; [reflexivity|]. eexists. reflexivity.
Qed.

(** * Redshifts *)
Lemma read_z : forall k d o n, z (snd (read k d o n)) = match fst (read k d o n) with Returned => Some (redshift k n) | Raised _ => z o end.
Proof.
  intros k d o n. unfold ObjModel.read. destruct (d n) as [f|]; [|reflexivity]. destruct (head f) as [m|]; [|reflexivity].
  destruct (length (body f) =? product (shape k m)); [|reflexivity]. destruct k; try reflexivity. destruct (length (body f) =? 0); reflexivity.
Qed.
Lemma write_z : forall k s n raw cgs, z (fst (snd (step k s (Write n raw cgs)))) = z (fst s).
Proof.
  intros k [o d] n raw cgs. destruct k; cbn [ObjModel.step fst snd].
  - unfold write_density. destruct raw as [a|]; destruct cgs as [c|]; cbn -[mesh_of]; try reflexivity.
    + destruct (mesh_of Density a); [|reflexivity]. destruct (mesh_of Density c); reflexivity.
    + destruct (mesh_of Density a); reflexivity.
    + destruct (mesh_of Density c); reflexivity.
  - unfold write_plain. destruct raw as [a|]; [|reflexivity]. destruct (negb (writable n)); [reflexivity|]. destruct (keeps_mesh Clumping a); [destruct (mesh o); reflexivity|]. destruct (mesh_of Clumping a); reflexivity.
  - unfold write_plain. destruct raw as [a|]; [|reflexivity]. destruct (negb (writable n)); [reflexivity|]. destruct (keeps_mesh Velocity a); [destruct (mesh o); reflexivity|]. destruct (mesh_of Velocity a); reflexivity.
Qed.
(** Whatever was done, the redshift is the one in the name of the last file that was read
    to the end: neither writing nor a failed read changes it. *)
Theorem C114_redshift : forall k (d : disk) ps,
  z (fst (run k (fresh, d) ps)) = option_map (redshift k) (last_read (trace k (fresh, d) ps)).
Proof.
  intros k d ps. assert (G : forall ps s b, z (fst s) = option_map (redshift k) b ->
    z (fst (run k s ps)) = option_map (redshift k) (fold_left (fun b e => match e with (Read n, Returned) => Some n | _ => b end) (trace k s ps) b)).
  { clear ps. induction ps as [|p ps IH]; intros s b E; [exact E|]. cbn [trace fold_left ObjModel.run]. apply IH. destruct p as [n|n raw cgs].
    - cbn [ObjModel.step]. pose proof (read_z k (snd s) (fst s) n) as Z. destruct (read k (snd s) (fst s) n) as [r o]. cbn [fst snd] in *. rewrite Z. destruct r; [reflexivity|exact E].
    - rewrite write_z. exact E. }
  apply G. reflexivity.
Qed.
(** * Writing *)
(** After any call on a density file that returned, the field in g/cm^3, the mesh and the raw field belong together. *)
Theorem C114_density_consistent : forall (s : obj * disk) p, (forall n f m, snd s n = Some f -> head f = Some m -> length m = 3) -> fst (step Density s p) = Returned ->
  exists x y w vs, let o := fst (snd (step Density s p)) in
    mesh o = Some [x; y; w] /\ data o = Value (Arr [x; y; w] vs) /\ derived o = Some (Arr [x; y; w] (map (factor x) vs)).
Proof.
  intros [o d] p L. destruct p as [n|n raw cgs]; cbn [ObjModel.step fst snd] in *.
  - unfold ObjModel.read. destruct (d n) as [f|] eqn:E; [|discriminate]. destruct (head f) as [m|] eqn:H; [|discriminate].
    pose proof (L n f m E H) as L3. destruct m as [|x [|y [|w [|? ?]]]]; try discriminate.
    destruct (length (body f) =? product (shape Density [x; y; w])); [|discriminate]. intros _. exists x, y, w, (body f). cbn. auto.
  - unfold write_density. destruct raw as [a|]; destruct cgs as [c|]; cbn -[mesh_of].
    + destruct (mesh_of Density a); [|discriminate]. destruct (mesh_of Density c); discriminate.
    + unfold mesh_of. destruct a as [[|x [|y [|w [|? ?]]]] vs]; cbn; try discriminate. intros _. exists x, y, w, vs. auto.
    + destruct (mesh_of Density c); discriminate.
    + discriminate.
Qed.
(** Giving the field in g/cm^3 always raises, after the object took it over: the raw field
    and the file stay as they were. *)
Theorem C114_cgs_never_written : forall (o : obj) (d : disk) n raw c, exists e o',
  step Density (o, d) (Write n raw (Some c)) = (Raised e, (o', d)) /\ filename o' = filename o /\
  (raw = None -> data o' = data o /\ derived o' = Some c).
Proof.
  intros o d n raw c. cbn [ObjModel.step fst snd]. unfold write_density. destruct raw as [a|].
  - destruct (mesh_of Density a); [destruct (mesh_of Density c)|]; do 2 eexists; (split; [reflexivity|]); (split; [reflexivity|discriminate]).
  - destruct (mesh_of Density c); do 2 eexists; (split; [reflexivity|]); (split; [reflexivity|]); intros _; split; reflexivity.
Qed.
(** Writing velocities leaves the velocities in km/s and the redshift as they were: they
    belong to the last file that was read. *)
Theorem C114_velocity_derived : forall (s : obj * disk) n raw cgs, let o := fst (snd (step Velocity s (Write n raw cgs))) in
  derived o = derived (fst s) /\ z o = z (fst s) /\ fst (step Velocity s (Write n raw cgs)) = Returned.
Proof.
  intros [o d] n raw cgs. cbv zeta. rewrite write_z. cbn [ObjModel.step fst snd]. unfold write_plain. destruct raw as [a|]; [|auto]. destruct (negb (writable n)); [auto|].
  destruct (keeps_mesh Velocity a); [destruct (mesh o); auto|]. destruct (mesh_of Velocity a); auto.
Qed.
(** Writing without data destroys the data the object holds; no file changes. *)
Theorem C114_write_nothing : forall k (o : obj) (d : disk) n, k <> Density ->
  step k (o, d) (Write n None None) = (Returned, (Obj (filename o) (mesh o) NoneValue (derived o) (z o), d)) /\
  step Density (o, d) (Write n None None) = (Raised "AssertionError", (o, d)).
Proof. intros k o d n N. destruct k; [contradiction| |]; split; reflexivity. Qed.
(** A proper array reaches the file if it can be opened, and reading it back gives the
    same array in single precision; other files are untouched. If it cannot be opened the call returns all the same,
    and the object names a file that does not have its data. *)
Theorem C114_write : forall k (o : obj) (d : disk) n x y w vs, let cells := match k with Velocity => [3; x; y; w] | _ => [x; y; w] end in
  length vs = fold_right Nat.mul 1 cells -> (k = Clumping -> vs <> []) ->
  exists o' d', step k (o, d) (Write n (Some (Arr cells vs)) None) = (Returned, (o', d')) /\
    filename o' = Some n /\ data o' = Value (Arr cells vs) /\
    (writable n = true -> mesh o' = Some [x; y; w] /\ (forall n', n' <> n -> d' n' = d n') /\
       forall o2, exists o3, read k d' o2 n = (Returned, o3) /\ mesh o3 = Some [x; y; w] /\ data o3 = Value (Arr cells (map f32 vs))) /\
    (writable n = false -> d' = d).
Proof.
  intros k o d n x y w vs cells L C.
  assert (ST : forall g n', n' <> n -> store d n g n' = d n') by (intros g n' N; unfold store; destruct (String.eqb_spec n' n); [contradiction|reflexivity]).
  assert (RD : forall o2, exists o3, read k (store d n (contents f32 [x; y; w] (Arr cells vs))) o2 n = (Returned, o3) /\ mesh o3 = Some [x; y; w] /\ data o3 = Value (Arr cells (map f32 vs))).
  { intro o2. eexists. split.
    - apply (C114_read k _ o2 n (contents f32 [x; y; w] (Arr cells vs)) x y w); [unfold store; rewrite String.eqb_refl; reflexivity|].
      split; [reflexivity|]. cbn [contents body vals]. rewrite map_length. split; [rewrite L; unfold cells; destruct k; cbn; lia|]. intros K N. apply (C K). destruct vs; [reflexivity|discriminate].
    - cbn. split; [reflexivity|]. reflexivity. }
  destruct k; cbn [ObjModel.step fst snd].
  - cbn. do 2 eexists. split; [reflexivity|]. cbn. split; [reflexivity|]. split; [reflexivity|]. split; intro W; rewrite W; [|reflexivity]. split; [reflexivity|]. split; [apply ST|apply RD].
  - unfold write_plain. destruct (writable n) eqn:W; cbn; do 2 eexists; (split; [reflexivity|]); cbn; (split; [reflexivity|]); (split; [reflexivity|]); (split; [|try discriminate; reflexivity]); [|discriminate].
    intros _. split; [reflexivity|]. split; [apply ST|apply RD].
  - unfold write_plain. destruct (writable n) eqn:W; cbn; do 2 eexists; (split; [reflexivity|]); cbn; (split; [reflexivity|]); (split; [reflexivity|]); (split; [|try discriminate; reflexivity]); [|discriminate].
    intros _. split; [reflexivity|]. split; [apply ST|apply RD].
Qed.
(** An array of the wrong shape: densities raise before the file is touched; the other
    classes return and leave a file that cannot be read, unless the shape is one that
    keeps the mesh of the object. *)
Theorem C114_write_wrong_shape : forall k (o : obj) (d : disk) n a, writable n = true ->
  match k with Velocity => length (dims a) <> 4 /\ hd 0 (dims a) = 3 | _ => length (dims a) <> 3 /\ dims a <> [] end ->
  exists o' d', snd (step k (o, d) (Write n (Some a) None)) = (o', d') /\
    (k = Density -> fst (step k (o, d) (Write n (Some a) None)) = Raised "ValueError" /\ d' = d) /\
    (k <> Density -> fst (step k (o, d) (Write n (Some a) None)) = Returned /\ forall o2, exists e o3, read k d' o2 n = (Raised e, o3)).
Proof.
  intros k o d n a W B. destruct k; cbn [ObjModel.step fst snd].
  - assert (M : mesh_of Density a = None) by (unfold mesh_of; destruct (dims a) as [|? [|? [|? [|? ?]]]]; try reflexivity; cbn in B; lia).
    unfold write_density. rewrite M. do 2 eexists. split; [reflexivity|]. split; [intros _; split; reflexivity|contradiction].
  - assert (M : mesh_of Clumping a = None) by (unfold mesh_of; destruct (dims a) as [|? [|? [|? [|? ?]]]]; try reflexivity; cbn in B; lia).
    assert (K : keeps_mesh Clumping a = false) by (unfold keeps_mesh; destruct (dims a); [destruct B; contradiction|reflexivity]).
    unfold write_plain. rewrite W, K, M. cbn. do 2 eexists. split; [reflexivity|]. split; [discriminate|]. intros _. split; [reflexivity|]. intro o2.
    unfold ObjModel.read, store. rewrite String.eqb_refl. cbn. do 2 eexists. reflexivity.
  - assert (M : mesh_of Velocity a = None).
    { unfold mesh_of. destruct (dims a) as [|[|[|[|[|q]]]] r]; try reflexivity; cbn in B; try lia. destruct r as [|? [|? [|? [|? ?]]]]; try reflexivity. cbn in B. lia. }
    assert (K : keeps_mesh Velocity a = false). { unfold keeps_mesh. destruct (dims a) as [|q r]; [cbn in B; lia|]. cbn in B. destruct B as [_ ->]. reflexivity. }
    unfold write_plain. rewrite W, K, M. cbn. do 2 eexists. split; [reflexivity|]. split; [discriminate|]. intros _. split; [reflexivity|]. intro o2.
    unfold ObjModel.read, store. rewrite String.eqb_refl. cbn. do 2 eexists. reflexivity.
Qed.
End Props.
Print Assumptions C114_read.
Print Assumptions C114_read_fails.
Print Assumptions C114_construct.
Print Assumptions C114_redshift.
Print Assumptions C114_density_consistent.
Print Assumptions C114_cgs_never_written.
Print Assumptions C114_velocity_derived.
Print Assumptions C114_write_nothing.
Print Assumptions C114_write.
Print Assumptions C114_write_wrong_shape.

(** A density file is read, then a second one that is too short: the object has the second
    name, the numbers of the second file as a flat list, and the redshift and the physical field of the first. *)
Definition two_files : disk nat := fun n =>
  if String.eqb n "8.0n_all.dat" then Some (File (Some [1; 2; 1]) [5; 6]) else if String.eqb n "7.0n_all.dat" then Some (File (Some [1; 2; 1]) [9]) else None.
Definition by_name (k : kind) (n : string) : nat := if String.eqb n "8.0n_all.dat" then 8 else 7.
Example C114_sat : 
  fst (run (fun _ v => 10 * v) (fun t v => t * v) by_name (fun v => v) (fun _ => true) Density (fresh, two_files) [Read "8.0n_all.dat"; Read "7.0n_all.dat"]) =
    Obj (Some "7.0n_all.dat"%string) (Some [1; 2; 1]) (Value (Arr [1] [9])) (Some (Arr [1; 2; 1] [50; 60])) (Some 8) /\
  readable Density (File (Some [1; 2; 1]) [5; 6]) 1 2 1 /\ (forall x y w, ~ readable Density (File (Some [1; 2; 1]) [9]) x y w).
Proof.
  split; [reflexivity|]. split; [split; [reflexivity|split; [reflexivity|discriminate]]|]. intros x y w (H & L & _). cbn in H, L. injection H as <- <- <-. cbn in L. lia.
Qed.
