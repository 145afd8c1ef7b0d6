(** More of C114: objects of ionized fractions used more than once. *)
From Coq Require Import String List Arith Bool Lia.
From Verif Require Import XfObjModel.
Import ListNotations.
Local Open Scope nat_scope.

Section Props.
Context {V T F : Type} (header : bool -> F -> option (list nat)) (body : fmt -> F -> list V) (encode : fmt -> list nat -> list V -> F) (empty : F)
        (complement : V -> V) (redshift : string -> T) (writable : string -> bool).
Notation read := (read header body complement redshift).
Notation construct := (construct header body complement redshift).
Notation write := (write encode empty complement writable).
Notation step := (step header body encode empty complement redshift writable).
Notation run := (run header body encode empty complement redshift writable).
Notation obj := (obj V T).
Notation disk := (disk F).

(** What was called, and how it ended. *)
Fixpoint xtrace (s : obj * disk) (ps : list (op V)) : list (op V * result) :=
  match ps with [] => [] | p :: r => (p, fst (step s p)) :: xtrace (snd (step s p)) r end.
Definition last_read (l : list (op V * result)) : option string :=
  fold_left (fun b e => match e with (Read n _ _, Returned) => Some n | _ => b end) l None.

(** A file with a mesh and one number per cell gives every attribute anew, the ionized
    fraction being one minus the numbers for a file of neutral fractions. *)
Theorem C114_xfrac_read : forall (d : disk) (o : obj) name q neutral f x y w,
  d name = Some f -> header (binary q) f = Some [x; y; w] -> length (body q f) = x * y * w ->
  exists vs, read d o name q neutral = (Returned, Obj (Some name) (Some [x; y; w]) (Value (Arr [x; y; w] vs)) (Some (redshift name))) /\
    length vs = x * y * w /\ forall i v, nth_error (body q f) i = Some v -> nth_error vs i = Some (if neutral then complement v else v).
Proof.
  intros d o name q neutral f x y w E H L. exists (oriented complement neutral (body q f)).
  split; [|split].
  - unfold XfObjModel.read. rewrite E, H. assert (P : length (body q f) =? product [x; y; w] = true) by (apply Nat.eqb_eq; rewrite L; cbn; lia).
    now rewrite P.
  - unfold oriented. destruct neutral; [rewrite map_length|]; exact L.
  - intros i v Hv. unfold oriented. destruct neutral; [now apply map_nth_error|exact Hv].
Qed.
(** Otherwise it raises and leaves a mixture: the new name, the redshift of before, and, if
    the mesh could be read, the new mesh with the numbers as one flat list, not complemented
    even if they are neutral fractions. *)
Theorem C114_xfrac_read_fails : forall (d : disk) (o : obj) name q neutral,
  (forall f m, d name = Some f -> header (binary q) f = Some m -> length m = 3) ->
  (forall f x y w, d name = Some f -> header (binary q) f = Some [x; y; w] -> length (body q f) <> x * y * w) ->
  exists e o', read d o name q neutral = (Raised e, o') /\ filename o' = Some name /\ z o' = z o /\
    match d name with
    | Some f => match header (binary q) f with
        | Some m => mesh o' = Some m /\ xi o' = Value (Arr [length (body q f)] (body q f))
        | None => mesh o' = mesh o /\ xi o' = xi o end
    | None => mesh o' = mesh o /\ xi o' = xi o
    end.
Proof.
  intros d o name q neutral L B. unfold XfObjModel.read. destruct (d name) as [f|] eqn:E; [|do 2 eexists; split; [reflexivity|cbn; auto]].
  destruct (header (binary q) f) as [m|] eqn:H; [|do 2 eexists; split; [reflexivity|cbn; auto]].
  pose proof (L f m eq_refl H) as L3. destruct m as [|x [|y [|w [|? ?]]]]; try discriminate.
  specialize (B f x y w eq_refl H). destruct (Nat.eqb_spec (length (body q f)) (product [x; y; w])) as [P|P].
  - exfalso. apply B. rewrite P. cbn. lia.
  - do 2 eexists. split; [reflexivity|]. cbn. auto.
Qed.
(** Whatever was done, the redshift is the one in the name of the last file that was read
    to the end. *)
Theorem C114_xfrac_redshift : forall (d : disk) ps,
  z (fst (run (fresh, d) ps)) = option_map redshift (last_read (xtrace (fresh, d) ps)).
Proof.
  intros d ps. assert (G : forall ps s b, z (fst s) = option_map redshift b ->
    z (fst (run s ps)) = option_map redshift (fold_left (fun b e => match e with (Read n _ _, Returned) => Some n | _ => b end) (xtrace s ps) b)).
  { clear ps. induction ps as [|p ps IH]; intros s b E; [exact E|]. cbn [xtrace fold_left XfObjModel.run]. apply IH. destruct p as [n q neutral|n given q neutral].
    - cbn [XfObjModel.step]. unfold XfObjModel.read. destruct (snd s n) as [f|]; [|exact E]. destruct (header (binary q) f) as [m|]; [|exact E].
      destruct (length (body q f) =? product m); [reflexivity|exact E].
    - cbn [XfObjModel.step]. unfold XfObjModel.write. destruct (negb (writable n)); [exact E|]. destruct given as [[[|? [|? [|? [|? ?]]]] vs]|]; exact E. }
  apply G. reflexivity.
Qed.
(** Writing: in every case the object takes over the name and the array, also when nothing
    can be written. A three-dimensional array reaches the file; any other that has a shape,
    and None, raise after the file has been emptied. *)
Theorem C114_xfrac_write : forall (d : disk) (o : obj) name given q neutral, exists r o' d',
  step (o, d) (Write name given q neutral) = (r, (o', d')) /\
  filename o' = Some name /\ xi o' = (match given with Some a => Value a | None => NoneValue end) /\ z o' = z o /\
  (forall n, n <> name -> d' n = d n) /\
  (writable name = false -> r <> Returned /\ d' name = d name) /\
  (writable name = true ->
     (forall x y w vs, given = Some (Arr [x; y; w] vs) ->
        r = Returned /\ mesh o' = Some [x; y; w] /\ d' name = Some (encode q [x; y; w] (if neutral then map complement vs else vs))) /\
     (given = None \/ (exists a, given = Some a /\ dims a <> [] /\ length (dims a) <> 3) -> r <> Returned /\ mesh o' = mesh o /\ d' name = Some empty)).
Proof.
  intros d o name given q neutral. cbn [XfObjModel.step]. unfold XfObjModel.write. cbn [fst snd].
  assert (S1 : forall f n, n <> name -> store d name f n = d n).
  { intros f n N. unfold store. destruct (String.eqb_spec n name); [contradiction|reflexivity]. }
  assert (S2 : forall f, store d name f name = Some f) by (intros f; unfold store; now rewrite String.eqb_refl).
  destruct (writable name); cbn [negb].
  2:{ do 3 eexists. split; [reflexivity|]. cbn [filename xi z]. repeat split; auto; try discriminate. }
  destruct given as [[[|x [|y [|w [|t l]]]] vs]|]; cbn [dims vals]; do 3 eexists; (split; [reflexivity|]); cbn [filename xi z mesh];
    (split; [reflexivity|]); (split; [reflexivity|]); (split; [reflexivity|]); (split; [apply S1|]); (split; [discriminate|]); intros _;
    (split; [intros x' y' w' vs' E; try discriminate; try (injection E as -> -> -> ->; rewrite S2; auto)|]);
    (intros [E|(a & E & N1 & N2)]; [try discriminate|try discriminate; injection E as <-; cbn in N1, N2; try contradiction; try lia]);
    repeat split; auto; discriminate.
Qed.
(** Writing and reading back with the same flags gives the array in the precision of the
    file, whether or not both are told that the file holds neutral fractions; with different
    answers to that question it gives the complement. The hypotheses say what C12 proves of
    the bytes. *)
Theorem C114_xfrac_write_read : forall (round : bool -> V -> V) (d : disk) (o o2 : obj) name x y w vs q n1 n2,
  writable name = true -> length vs = x * y * w ->
  (forall m v, header (binary q) (encode q m v) = Some m) ->
  (forall m v, body q (encode q m v) = map (round (old_format q)) v) ->
  (forall v, In v vs -> complement (round (old_format q) (complement v)) = round (old_format q) v) ->
  (forall v, In v vs -> round (old_format q) (complement v) = complement (round (old_format q) v)) ->
  exists o', let d' := snd (snd (step (o, d) (Write name (Some (Arr [x; y; w] vs)) q n1))) in
    read d' o2 name q n2 = (Returned, o') /\
    xi o' = Value (Arr [x; y; w] (map (fun v => if eqb n1 n2 then round (old_format q) v else complement (round (old_format q) v)) vs)).
Proof.
  intros round d o o2 name x y w vs q n1 n2 W L Hh Hb Hc Hr. cbn [XfObjModel.step]. unfold XfObjModel.write. rewrite W. cbn [negb fst snd dims vals].
  assert (S2 : forall f, store d name f name = Some f) by (intros f; unfold store; now rewrite String.eqb_refl).
  unfold XfObjModel.read. rewrite S2, Hh, Hb.
  assert (P : length (map (round (old_format q)) (oriented complement n1 vs)) =? product [x; y; w] = true).
  { apply Nat.eqb_eq. unfold oriented. destruct n1; rewrite ?map_length, L; cbn; lia. }
  rewrite P. eexists. split; [reflexivity|]. cbn [xi]. f_equal. f_equal. unfold oriented.
  destruct n1, n2; cbn [eqb]; rewrite ?map_map; apply map_ext_in; intros v Hv; auto.
Qed.
End Props.
Print Assumptions C114_xfrac_read.
Print Assumptions C114_xfrac_read_fails.
Print Assumptions C114_xfrac_redshift.
Print Assumptions C114_xfrac_write.
Print Assumptions C114_xfrac_write_read.

(** A file of 2 by 1 by 1 percentages; a write of the wrong shape empties it, and the object keeps the redshift it had. *)
Local Open Scope string_scope.
Example C114_xfrac_sat :
  let header := fun (_ : bool) (f : list nat * list nat) => match fst f with [] => None | m => Some m end in
  let body := fun (_ : fmt) (f : list nat * list nat) => snd f in
  let encode := fun (_ : fmt) m v => (m, v) in
  let q := Fmt false false in
  let d := fun n => if String.eqb n "a" then Some ([2; 1; 1]%list, [30; 40]%list) else None in
  let s := run header body encode ([], []) (fun v => 100 - v) String.length (fun _ => true) (fresh, d)
             [Read "a" q true; Write "bc" (Some (Arr [2; 1; 1] [1; 2])) q true; Write "a" (Some (Arr [2] [1; 2])) q false] in
  fst s = Obj (Some "a") (Some [2; 1; 1]) (Value (Arr [2] [1; 2])) (Some 1) /\ snd s "a" = Some ([]%list, []%list) /\ snd s "bc" = Some ([2; 1; 1]%list, [99; 98]%list).
Proof. repeat split; reflexivity. Qed.
