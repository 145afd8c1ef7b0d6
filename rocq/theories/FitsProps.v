(** C109: FITS files, package resources, names of cosmologies, messages. *)
From Coq Require Import String Ascii List Bool Arith Lia.
From Verif Require Import FitsModel.
Import ListNotations.
Local Open Scope string_scope.

Section Fits.
Context {D : Type} (f64 : D -> D).
(** The file [name] of [fs] can be read: its unit [k] has the data [d], its primary header is [h]. *)
Definition readable (fs : disk D) (name : string) (k : nat) (d : D) (h : list (string * string)) : Prop :=
  exists hs u0 u, fs name = Some hs /\ nth_error hs 0 = Some u0 /\ nth_error hs k = Some u /\ cards u0 = h /\ data u = Some d.
Lemma load_iff fs name k d h : load f64 fs name k = Returned (d, h) <-> exists d0, readable fs name k d0 h /\ d = f64 d0.
Proof.
  unfold load, readable. split.
  - destruct (fs name) as [hs|]; [|discriminate]. destruct (nth_error hs 0) as [u0|] eqn:E0; [|discriminate]. destruct (nth_error hs k) as [u|] eqn:E1; [|discriminate].
    destruct (data u) as [d0|] eqn:ED; [|discriminate]. intro H. injection H as <- <-. exists d0. split; [|reflexivity]. exists hs, u0, u. repeat split; assumption.
  - intros (d0 & (hs & u0 & u & E & E0 & E1 & EC & ED) & ->). rewrite E, E0, E1, ED. now subst h.
Qed.
Lemma load_total fs name k : (exists d h, readable fs name k d h /\ load f64 fs name k = Returned (f64 d, h)) \/ ((forall d h, ~ readable fs name k d h) /\ exists x, load f64 fs name k = Raised x).
Proof.
  destruct (load f64 fs name k) as [[d h]|x] eqn:E.
  - left. apply load_iff in E as (d0 & R & ->). exists d0, h. now split.
  - right. split; [|now exists x]. intros d h R. assert (L : load f64 fs name k = Returned (f64 d, h)) by (apply load_iff; now exists d). congruence.
Qed.

(** C109: the argument [header] has no effect at all; the header comes with the data unless it is empty. *)
Theorem C109_read_header : forall e fs testdata name b b',
  read_fits f64 e fs testdata name b = read_fits f64 e fs testdata name b' /\
  (forall d, read_fits f64 e fs testdata name b = Returned (d, None) -> exists dk k d0, (dk = fs \/ dk = testdata) /\ readable dk name k d0 []).
Proof.
  intros e fs td name b b'. split; [reflexivity|]. intros d H. unfold read_fits in H.
  assert (G : forall dk k x h, load f64 dk name k = Returned (x, h) -> (if (0 <? List.length h)%nat then Some h else None) = None -> exists d0, readable dk name k d0 []).
  { intros dk k x h L N. destruct h; [|discriminate]. apply load_iff in L as (d0 & R & _). now exists d0. }
  assert (S' : (if astropy e then load f64 td name 1 else Raised "ImportError") = Raised "ImportError" \/ (if astropy e then load f64 td name 1 else Raised "ImportError") = load f64 td name 1) by (destruct (astropy e); tauto).
  destruct (pyfits e).
  - destruct (load f64 fs name 0) as [[x h]|x] eqn:L; cbn [try_except] in H.
    + destruct (G fs 0 x h L) as (d0 & R); [congruence|]. exists fs, 0, d0. tauto.
    + destruct S' as [S'|S']; rewrite S' in H; [discriminate|]. destruct (load f64 td name 1) as [[y h]|y] eqn:L2; [|discriminate].
      destruct (G td 1 y h L2) as (d0 & R); [congruence|]. exists td, 1, d0. tauto.
  - cbn [try_except] in H. destruct S' as [S'|S']; rewrite S' in H; [discriminate|]. destruct (load f64 td name 1) as [[y h]|y] eqn:L2; [|discriminate].
    destruct (G td 1 y h L2) as (d0 & R); [congruence|]. exists td, 1, d0. tauto.
Qed.

(** C109: the named file is read exactly if pyfits is installed and the file has primary data. In every other case the file
    is ignored: the first extension of a file of that name among astropy's own tests is returned, or the call raises. *)
Theorem C109_read_file : forall e fs testdata name b,
  (pyfits e = true -> forall d h, readable fs name 0 d h -> h <> [] -> read_fits f64 e fs testdata name b = Returned (f64 d, Some h)) /\
  ((pyfits e = false \/ forall d h, ~ readable fs name 0 d h) ->
     (forall fs', (pyfits e = false \/ forall d h, ~ readable fs' name 0 d h) -> read_fits f64 e fs testdata name b = read_fits f64 e fs' testdata name b) /\
     (forall d o, read_fits f64 e fs testdata name b = Returned (d, o) -> astropy e = true /\ exists d0 h, readable testdata name 1 d0 h /\ d = f64 d0) /\
     ((forall d h, ~ readable testdata name 1 d h) -> exists x, read_fits f64 e fs testdata name b = Raised x)).
Proof.
  intros e fs td name b. split.
  - intros P d h R N. unfold read_fits. rewrite P. assert (L : load f64 fs name 0 = Returned (f64 d, h)) by (apply load_iff; now exists d). rewrite L. cbn [try_except]. destruct h; [contradiction|reflexivity].
  - assert (F : forall g : disk D, (pyfits e = false \/ forall d h, ~ readable g name 0 d h) -> exists x, (if pyfits e then load f64 g name 0 else Raised "ImportError") = Raised x).
    { intros g [P|N]; [rewrite P; now eexists|]. destruct (load_total g name 0) as [(d & h & R & _)|(_ & x & L)]; [destruct (N d h R)|]. destruct (pyfits e); [exists x; exact L|now eexists]. }
    intro H. destruct (F fs H) as (x & Ex). split; [|split].
    + intros fs' H'. destruct (F fs' H') as (x' & Ex'). unfold read_fits. rewrite Ex, Ex'. reflexivity.
    + intros d o E. unfold read_fits in E. rewrite Ex in E. cbn [try_except] in E. destruct (astropy e); [|discriminate]. split; [reflexivity|].
      destruct (load_total td name 1) as [(d0 & h & R & L)|(_ & y & L)]; rewrite L in E; [|discriminate]. injection E as <- _. exists d0, h. now split.
    + intro N. unfold read_fits. rewrite Ex. cbn [try_except]. destruct (load_total td name 1) as [(d0 & h & R & L)|(_ & y & L)]; [destruct (N d0 h R)|]. rewrite L. destruct (astropy e); now eexists.
Qed.

Context (structural : D -> list (string * string)) (supported : D -> bool).
(** C109: without pyfits nothing can be saved, whatever else is installed. *)
Theorem C109_save_needs_pyfits : forall e fs ex wr name d h, pyfits e = false ->
  exists x, save_fits f64 structural supported e fs ex wr name d h = (Raised x, fs).
Proof. intros e fs ex wr name d h P. unfold save_fits. rewrite P. cbn [negb]. destruct (astropy e); cbn [negb]; now eexists. Qed.

(** C109: with pyfits and astropy a save to a writable path succeeds, and what is read back there is the array in double
    precision with the given header, if the path was free and the type can be stored; otherwise an existing file is
    overwritten and the header is lost. No other file changes. *)
Theorem C109_round_trip : forall e fs testdata ex wr name d h b, pyfits e = true -> astropy e = true -> wr name = true ->
  supported (f64 d) = true -> f64 (f64 d) = f64 d -> structural d <> [] -> structural (f64 d) <> [] ->
  let '(o, fs') := save_fits f64 structural supported e fs ex wr name d (PyfitsHeader h) in
  o = Returned tt /\ (forall m, m <> name -> fs' m = fs m) /\
  read_fits f64 e fs' testdata name b = Returned (f64 d, Some (if negb (ex name) && supported d then structural d ++ h else structural (f64 d)))%list.
Proof.
  intros e fs td ex wr name d h b P A W SU F1 N1 N2. unfold save_fits. rewrite P, A, W, SU. cbn [negb andb].
  assert (RD : forall x c, c <> [] -> read_fits f64 e (put fs name [{| cards := c; data := Some x |}]) td name b = Returned (f64 x, Some c)).
  { intros x c N. apply C109_read_file; [exact P| |exact N]. exists [{| cards := c; data := Some x |}], {| cards := c; data := Some x |}, {| cards := c; data := Some x |}.
    unfold put. rewrite String.eqb_refl. repeat split. }
  assert (NE : forall x, structural x <> [] -> (structural x ++ h)%list <> []) by (intros x HN C; apply app_eq_nil in C; tauto).
  assert (OT : forall f m, m <> name -> put fs name f m = fs m) by (intros f m HM; unfold put; destruct (String.eqb_spec m name); [contradiction|reflexivity]).
  destruct (ex name); cbn [negb andb].
  - split; [reflexivity|]. split; [apply OT|]. rewrite app_nil_r, RD by assumption. now rewrite F1.
  - destruct (supported d).
    + split; [reflexivity|]. split; [apply OT|]. apply RD, NE, N1.
    + split; [reflexivity|]. split; [apply OT|]. rewrite app_nil_r, RD by assumption. now rewrite F1.
Qed.
End Fits.
Print Assumptions C109_read_header.
Print Assumptions C109_read_file.
Print Assumptions C109_save_needs_pyfits.
Print Assumptions C109_round_trip.
Example C109_round_trip_sat : exists (f64 : nat -> nat) (structural : nat -> list (string * string)) (supported : nat -> bool) e (wr : string -> bool) name d, pyfits e = true /\ astropy e = true /\ wr name = true /\ supported (f64 d) = true /\ f64 (f64 d) = f64 d /\ structural d <> [] /\ structural (f64 d) <> [].
Proof. exists (fun d => d - d mod 2), (fun _ => [("SIMPLE", "T")]), (fun _ => true), {| pyfits := true; astropy := true |}, (fun _ => true), "a.fits", 7. repeat split; try reflexivity; discriminate. Qed.

(** C109: saving twice to one path loses the header the first save kept. *)
Definition ex_env := {| pyfits := true; astropy := true |}.
Example C109_fits_sat :
  let save := fun fs => save_fits (fun d : nat => d) (fun _ => [("SIMPLE", "T")]) (fun _ => true) ex_env fs (fun m => match fs m with Some _ => true | None => false end) (fun _ => true) "a.fits" 7 (PyfitsHeader [("OBJECT", "box")]) in
  let fs0 : disk nat := fun _ => None in
  read_fits (fun d => d) ex_env (snd (save fs0)) fs0 "a.fits" false = Returned (7, Some [("SIMPLE", "T"); ("OBJECT", "box")]) /\
  read_fits (fun d => d) ex_env (snd (save (snd (save fs0)))) fs0 "a.fits" false = Returned (7, Some [("SIMPLE", "T")]) /\
  read_fits (fun d => d) {| pyfits := false; astropy := true |} (snd (save fs0)) fs0 "a.fits" false = Raised "OSError" /\
  readable (snd (save fs0)) "a.fits" 0 7 [("SIMPLE", "T"); ("OBJECT", "box")].
Proof. split; [reflexivity|]. split; [reflexivity|]. split; [reflexivity|]. do 3 eexists. repeat split; reflexivity. Qed.

(** * Package resources *)
(** C109: the path is that of the file in the directory of the package. It raises exactly if the package is not installed, or
    none of the three libraries is and the file does not exist; with any of them the file may be missing. *)
Theorem C109_resource : forall l dir there package resource,
  let library := orb (importlib_resources_std l) (orb (importlib_resources l) (pkg_resources l)) in
  (forall p, get_package_resource_path l dir there package resource = Returned p <->
     exists d, dir package = Some d /\ p = d ++ "/" ++ resource /\ (library = true \/ there p = true)) /\
  (forall x, get_package_resource_path l dir there package resource = Raised x -> x = "ImportError").
Proof.
  intros l dir there package resource library.
  assert (E : get_package_resource_path l dir there package resource =
    match dir package with Some d => if orb library (there (d ++ "/" ++ resource)) then Returned (d ++ "/" ++ resource) else Raised "ImportError" | None => Raised "ImportError" end).
  { unfold get_package_resource_path, library, join. destruct (importlib_resources_std l), (importlib_resources l), (pkg_resources l), (dir package) as [d|]; cbn;
      try reflexivity; destruct (there _); reflexivity. }
  rewrite E. split.
  - intro p. split.
    + destruct (dir package) as [d|]; [|discriminate]. destruct (library || there (d ++ "/" ++ resource)) eqn:T; [|discriminate]. intro H. injection H as <-. exists d.
      split; [reflexivity|]. split; [reflexivity|]. now apply orb_true_iff in T.
    + intros (d & -> & -> & T). replace (library || there (d ++ "/" ++ resource)) with true; [reflexivity|]. symmetry. now apply orb_true_iff.
  - intros x H. destruct (dir package) as [d|]; [destruct (library || there (d ++ "/" ++ resource)); [discriminate|]|]; now inversion H.
Qed.
Print Assumptions C109_resource.
Example C109_resource_sat : get_package_resource_path {| importlib_resources_std := false; importlib_resources := true; pkg_resources := false |}
  (fun p => if String.eqb p "tools21cm" then Some "/lib/tools21cm" else None) (fun _ => false) "tools21cm" "input_data/x.txt" = Returned "/lib/tools21cm/input_data/x.txt".
Proof. reflexivity. Qed.

(** * Cosmologies by name *)
(** Equal up to the case of the letters a to z. *)
Inductive same_letter : ascii -> ascii -> Prop :=
  | same_refl c : same_letter c c
  | same_lower n : 97 <= n <= 122 -> same_letter (ascii_of_nat n) (ascii_of_nat (n - 32))
  | same_upper n : 97 <= n <= 122 -> same_letter (ascii_of_nat (n - 32)) (ascii_of_nat n).
Inductive same_text : string -> string -> Prop :=
  | same_empty : same_text "" ""
  | same_char c d s t : same_letter c d -> same_text s t -> same_text (String c s) (String d t).
Lemma upper_letter c d : same_letter c d <-> upper_char c = upper_char d.
Proof.
  assert (U : forall n, 97 <= n <= 122 -> upper_char (ascii_of_nat n) = ascii_of_nat (n - 32) /\ upper_char (ascii_of_nat (n - 32)) = ascii_of_nat (n - 32)).
  { intros n Hn. unfold upper_char. rewrite !nat_ascii_embedding by lia. destruct (Nat.leb_spec 97 n); [|lia]. destruct (Nat.leb_spec n 122); [|lia]. cbn [andb].
    destruct (Nat.leb_spec 97 (n - 32)); [lia|]. now cbn [andb]. }
  split.
  - intros [c'|n Hn|n Hn]; [reflexivity| |]; destruct (U n Hn) as [U1 U2]; congruence.
  - intro E.
    assert (V : forall x, (exists n, 97 <= n <= 122 /\ x = ascii_of_nat n /\ upper_char x = ascii_of_nat (n - 32)) \/ upper_char x = x).
    { intro x. unfold upper_char. destruct (Nat.leb_spec 97 (nat_of_ascii x)), (Nat.leb_spec (nat_of_ascii x) 122); cbn [andb]; try (right; reflexivity).
      left. exists (nat_of_ascii x). rewrite ascii_nat_embedding. repeat split; assumption. }
    assert (I : forall n m, 97 <= n <= 122 -> 97 <= m <= 122 -> ascii_of_nat (n - 32) = ascii_of_nat (m - 32) -> n = m).
    { intros n m Hn Hm A. apply (f_equal nat_of_ascii) in A. rewrite !nat_ascii_embedding in A by lia. lia. }
    destruct (V c) as [(n & Hn & En & Un)|Vc], (V d) as [(m & Hm & Em & Um)|Vd].
    + assert (n = m) by (apply I; try assumption; congruence). subst m. replace d with c by congruence. constructor.
    + replace d with (ascii_of_nat (n - 32)) by congruence. rewrite En. now constructor.
    + replace c with (ascii_of_nat (m - 32)) by congruence. rewrite Em. now constructor.
    + replace d with c by congruence. constructor.
Qed.
Lemma upper_text s t : same_text s t <-> upper s = upper t.
Proof.
  split.
  - induction 1 as [|c d s t L _ IH]; [reflexivity|]. cbn. apply upper_letter in L. congruence.
  - revert t. induction s as [|c s IH]; intros [|d t] E; try discriminate; [constructor|]. cbn in E. injection E as E1 E2. constructor; [now apply upper_letter|now apply IH].
Qed.
(** C109: a cosmology is used as it is; a name in any case selects the cosmology of that name, and every other text selects
    Planck18 without an error. *)
Theorem C109_cosmo : forall (C : Type) (cosmology : string -> C),
  (forall c, set_cosmo cosmology (Cosmology c) = Returned c) /\ set_cosmo cosmology Neither = Raised "AttributeError" /\
  (forall n s, In n ["Planck13"; "Planck15"; "Planck18"; "WMAP1"; "WMAP3"; "WMAP5"; "WMAP7"; "WMAP9"] -> same_text s n -> set_cosmo cosmology (Name s) = Returned (cosmology n)) /\
  (forall s, (forall n, In n ["Planck13"; "Planck15"; "Planck18"; "WMAP1"; "WMAP3"; "WMAP5"; "WMAP7"; "WMAP9"] -> ~ same_text s n) -> set_cosmo cosmology (Name s) = Returned (cosmology "Planck18")).
Proof.
  intros C cosmology. split; [reflexivity|]. split; [reflexivity|]. split.
  - intros n s I T. apply upper_text in T. unfold set_cosmo. rewrite T. f_equal. clear T.
    repeat (destruct I as [<-|I]; [reflexivity|]). destruct I.
  - intros s N. unfold set_cosmo. f_equal. destruct (find _ cosmo_names) as [p|] eqn:F; [|reflexivity]. apply find_some in F. destruct F as [I E]. apply String.eqb_eq in E. exfalso.
    apply (N (snd p)).
    + clear E N. repeat (destruct I as [<-|I]; [cbn; tauto|]). destruct I.
    + apply upper_text. rewrite E. clear E N. repeat (destruct I as [<-|I]; [reflexivity|]). destruct I.
Qed.
Print Assumptions C109_cosmo.
Example C109_cosmo_sat : same_text "wmap7" "WMAP7" /\ set_cosmo (fun s => s) (Name "Planck2018") = Returned "Planck18".
Proof. split; [apply upper_text; reflexivity|reflexivity]. Qed.

(** * Messages *)
(** C109: a message reaches the terminal exactly if the last call of [set_verbose] before it was with a true argument. *)
Definition sets (a : action) : Prop := exists b, a = SetVerbose b.
Theorem C109_verbose : forall l s,
  (printed false (l ++ [Message s]) = (printed false l ++ [s])%list <-> exists l1 l2, l = (l1 ++ SetVerbose true :: l2)%list /\ Forall (fun a => ~ sets a) l2) /\
  (printed false (l ++ [Message s]) = (printed false l ++ [s])%list \/ printed false (l ++ [Message s]) = printed false l).
Proof.
  intros l s.
  set (final := fix f (v : bool) (l : list action) : bool := match l with [] => v | SetVerbose b :: r => f b r | Message _ :: r => f v r end).
  assert (P : forall l v, printed v (l ++ [Message s]) = (printed v l ++ if final v l then [s] else [])%list).
  { clear l. induction l as [|[b|m] l IH]; intro v; cbn; [destruct v; reflexivity|apply IH|]. destruct v; cbn; now rewrite IH. }
  assert (FT : forall l v, final v l = true <-> (v = true /\ Forall (fun a => ~ sets a) l) \/ exists l1 l2, l = (l1 ++ SetVerbose true :: l2)%list /\ Forall (fun a => ~ sets a) l2).
  { clear l P. induction l as [|a l IH]; intro v; cbn [final].
    - split; [intro; left; split; [assumption|constructor]|]. intros [[E _]|(l1 & l2 & E & _)]; [exact E|]. destruct l1; discriminate.
    - assert (G : forall w, final w l = true <-> (w = true /\ Forall (fun a => ~ sets a) l) \/ exists l1 l2, l = (l1 ++ SetVerbose true :: l2)%list /\ Forall (fun a => ~ sets a) l2) by (intro; apply IH).
      destruct a as [b|m]; cbn; rewrite G; split.
      + intros [[-> F]|(l1 & l2 & -> & F)]; right; [exists [], l; now split|exists (SetVerbose b :: l1)%list, l2; now split].
      + intros [[_ F]|(l1 & l2 & E & F)]; [inversion F as [|? ? N]; destruct N; now exists b|]. destruct l1 as [|a l1]; injection E as E1 E2.
        * left. subst. now split.
        * right. exists l1, l2. now split.
      + intros [[-> F]|(l1 & l2 & -> & F)]; [left; split; [reflexivity|constructor; [intros (x & X); discriminate|exact F]]|right; exists (Message m :: l1)%list, l2; now split].
      + intros [[-> F]|(l1 & l2 & E & F)]; [left; split; [reflexivity|now inversion F]|]. destruct l1 as [|a l1]; injection E as E1 E2; [discriminate|]. right. exists l1, l2. now split. }
  rewrite P. specialize (FT l false). split.
  - destruct (final false l); split; intro H; try reflexivity.
    + destruct (proj1 FT eq_refl) as [[X _]|X]; [discriminate|exact X].
    + apply (f_equal (@List.length string)) in H. rewrite !app_length in H. cbn in H. lia.
    + exfalso. assert (false = true); [apply FT; now right|discriminate].
  - destruct (final false l); [now left|right; apply app_nil_r].
Qed.
Print Assumptions C109_verbose.
Example C109_verbose_sat : printed false [Message "a"; SetVerbose true; Message "b"; SetVerbose false; Message "c"] = ["b"].
Proof. reflexivity. Qed.

(** * [outputify] *)
(** C109: a list, tuple or array of one element gives that element, every other list or tuple an array of the same elements;
    numbers and longer arrays are unchanged. What it leaves unchanged are the numbers and the arrays that do not have one element. *)
Theorem C109_outputify :
  (forall x, outputify (Sequence [x]) = Returned x /\ outputify (NdArray [x]) = Returned x) /\
  (forall l, List.length l <> 1 -> outputify (Sequence l) = Returned (NdArray l) /\ outputify (NdArray l) = Returned (NdArray l)) /\
  (forall n, outputify (Scalar n) = Returned (Scalar n)) /\
  (forall v, (exists x, outputify v = Raised x) <-> v = Unsized) /\
  (forall w, outputify w = Returned w <-> (exists n, w = Scalar n) \/ exists l, w = NdArray l /\ List.length l <> 1).
Proof.
  split; [now split|]. split; [|split; [reflexivity|split]].
  - intros [|x [|y l]] N; [now split|contradiction|now split].
  - intro v. split; [|intros ->; now eexists]. destruct v as [n|[|a [|b l]]|[|a [|b l]]|]; intros (x & E); try discriminate. reflexivity.
  - assert (SZ : forall x, x <> Sequence [x] /\ x <> NdArray [x]).
    { fix IH 1. intro x. split; intro E; destruct x as [|[|y [|z r]]|[|y [|z r]]|]; try discriminate; injection E as E; destruct (IH y); contradiction. }
    intro w. split.
    + intro H. destruct w as [n|[|a [|b l]]|[|a [|b l]]|]; try discriminate.
      * left. now exists n.
      * injection H as H. destruct (SZ a); contradiction.
      * right. exists []. now split.
      * injection H as H. destruct (SZ a); contradiction.
      * right. exists (a :: b :: l)%list. now split.
    + intros [(n & ->)|(l & -> & N)]; [reflexivity|]. destruct l as [|a [|b l]]; [reflexivity|now destruct N|reflexivity].
Qed.
Print Assumptions C109_outputify.
