(** C115: Rockstar halo catalogues. *)
From Coq Require Import String Ascii.
From Coq Require Import List Arith ZArith QArith Qround Bool Lia.
From Verif Require Import QLib PyBase RockModel.
Import ListNotations.
Local Open Scope string_scope. Local Open Scope nat_scope.

(** What the two kinds of files call their columns, and the lines (counted from zero) of cosmology, particle mass
    and the last of the header. *)
Record format := Format { f_ext : string; f_pos : string; f_vel : string; f_l : string; f_vrms : string; f_r : string; f_m : string;
                          l_cosm : nat; l_part : nat; l_head : nat }.
Definition list_format : format := Format "list" "X" "VX" "JX" "Vrms" "R" "M" 2 5 15.
Definition ascii_format : format := Format "ascii" "x" "vx" "Jx" "vrms" "r" "m" 3 6 19.

(** Column [i] is the first one called [w]. *)
Definition first_at (w : string) (header : words) (i : nat) : Prop := nth_error header i = Some w /\ forall j, j < i -> nth_error header j <> Some w.
(** The three numbers from column [i] on, and the number in it. *)
Definition three (float : string -> option Q) (ws : words) (i : nat) (v : list Q) : Prop :=
  exists a b c x y z, nth_error ws i = Some a /\ nth_error ws (i + 1) = Some b /\ nth_error ws (i + 2) = Some c /\
    float a = Some x /\ float b = Some y /\ float c = Some z /\ v = [x; y; z].
Definition one (float : string -> option Q) (ws : words) (i : nat) (q : Q) : Prop := exists a, nth_error ws i = Some a /\ float a = Some q.

Lemma index_first : forall w header i, index w header = Returned i <-> first_at w header i.
Proof.
  intros w. induction header as [|x r IH]; intro i; unfold first_at in *.
  - split; [discriminate|]. intros [H _]. destruct i; discriminate.
  - cbn [index]. destruct (String.eqb_spec x w) as [->|N].
    + split.
      * intro H. assert (i = 0) as -> by congruence. split; [reflexivity|]. intros j J. lia.
      * intros [H F]. destruct i as [|i]; [reflexivity|]. exfalso. apply (F 0 ltac:(lia)). reflexivity.
    + split.
      * destruct (index w r) as [k|e] eqn:E; cbn [bind]; [|discriminate]. intro H. assert (i = S k) as -> by congruence.
        destruct (proj1 (IH k) eq_refl) as [A B]. split; [exact A|]. intros [|j] J; cbn [nth_error]; [congruence|]. apply B. lia.
      * intros [H F]. destruct i as [|i]; [cbn in H; congruence|]. cbn [nth_error] in H.
        rewrite (proj2 (IH i)); [reflexivity|]. split; [exact H|]. intros j J. exact (F (S j) ltac:(lia)).
Qed.
Lemma index_missing : forall w header, (exists e, index w header = Raised e) <-> ~ In w header.
Proof.
  intros w. induction header as [|x r IH]; cbn [index In].
  - split; [tauto|]. intros _. eexists. reflexivity.
  - destruct (String.eqb_spec x w) as [->|N].
    + split; [intros [e H]; discriminate|]. intro H. exfalso. apply H. left. reflexivity.
    + destruct (index w r) as [k|e] eqn:E; cbn [bind].
      * split; [intros [e H]; discriminate|]. intro H. destruct (proj2 IH ltac:(tauto)) as [e H']. discriminate.
      * split; [|intros _; eexists; reflexivity]. intros _ [H|H]; [contradiction|]. apply (proj1 IH); [eexists; reflexivity|exact H].
Qed.

Lemma vector_three float ws i v : three float ws i v -> vector float i ws = Returned v.
Proof.
  intros (a & b & c & x & y & z & A & B & C & X & Y & Z & ->). unfold vector.
  assert (E : firstn 3 (skipn i ws) = [a; b; c]).
  { revert ws A B C. induction i as [|i IH]; intros ws A B C.
    - destruct ws as [|w0 [|w1 [|w2 ws]]]; cbn in *; try discriminate. congruence.
    - destruct ws as [|w0 ws]; [discriminate|]. cbn [skipn]. apply IH; assumption. }
  rewrite E. cbn [numbers number bind]. rewrite X, Y, Z. reflexivity.
Qed.
Lemma number_one float ws i q : one float ws i q -> number float (nth_error ws i) = Returned q.
Proof. intros (a & A & F). rewrite A. cbn [number]. rewrite F. reflexivity. Qed.

(** The halo in a line, column by column; the number of particles is its mass in particles to the nearest whole, halves
    to the even one. *)
Definition halo_in (float : string -> option Q) (i_pos i_vel i_l i_vrms i_r i_m : nat) (pm : Q) (ws : words) (h : halo) : Prop :=
  three float ws i_pos (pos h) /\ three float ws i_vel (vel h) /\ three float ws i_l (ang h) /\
  one float ws i_vrms (vel_disp h) /\ one float ws i_r (radius h) /\ one float ws i_m (mass h) /\ particles h = round_half_even (mass h / pm).

Lemma data_lines float filename mass_def num y zz cosm pm : ~ (pm == 0)%Q -> forall lines n hs old,
  2 <= n -> n_vals y < n -> n_cosm y <= n_vals y -> n_part y <= n_vals y -> (num < Z.of_nat (List.length old))%Z ->
  Forall2 (halo_in float (i_pos y) (i_vel y) (i_l y) (i_vrms y) (i_r y) (i_m y) pm) lines hs ->
  loop float filename mass_def num n lines (Catalogue zz cosm (Some pm) old, Some y) = Returned (Catalogue zz cosm (Some pm) (old ++ hs)%list).
Proof.
  intros P. induction lines as [|ws r IH]; intros n hs old N2 NV NC NP L F; inversion F as [|? h ? hs' Hh F']; subst.
  - cbn. rewrite app_nil_r. reflexivity.
  - cbn [loop]. unfold step. destruct n as [|[|n]]; [lia|lia|].
    destruct (Nat.eqb_spec (S (S n)) (n_cosm y)); [lia|]. destruct (Nat.eqb_spec (S (S n)) (n_part y)); [lia|].
    destruct (Nat.ltb_spec (n_vals y) (S (S n))); [|lia]. cbn [halos part_mass z cosmology].
    destruct (Z.ltb_spec num (Z.of_nat (List.length old))); [|lia].
    destruct Hh as (A & B & C & D & E & G & K). unfold make_halo.
    rewrite (vector_three _ _ _ _ A), (vector_three _ _ _ _ B), (vector_three _ _ _ _ C), (number_one _ _ _ _ D), (number_one _ _ _ _ E), (number_one _ _ _ _ G).
    cbn [bind]. destruct (Qeq_bool pm 0) eqn:Q; [apply Qeq_bool_iff in Q; contradiction|]. cbn [bind snd fst].
    rewrite <- K. replace (Halo (pos h) (vel h) (ang h) (vel_disp h) (radius h) (mass h) (particles h)) with h by (destruct h; reflexivity).
    rewrite (IH (S (S (S n))) hs' (old ++ [h])%list); try lia; try assumption.
    + rewrite <- app_assoc. reflexivity.
    + rewrite app_length. cbn [List.length]. lia.
Qed.

Definition matches (f : format) (filename mass_def : string) (header : words) (i_pos i_vel i_l i_vrms i_r i_m : nat) : Prop :=
  (f = list_format \/ f = ascii_format) /\ extension filename = f_ext f /\
  first_at (f_pos f) header i_pos /\ first_at (f_vel f) header i_vel /\ first_at (f_l f) header i_l /\ first_at (f_vrms f) header i_vrms /\
  first_at (append (f_r f) mass_def) header i_r /\ first_at (append (f_m f) mass_def) header i_m.
Definition good_head (float : string -> option Q) (f : format) (head : list words) (a om ol h pm : Q) : Prop :=
  List.length head = S (l_head f) /\
  one float (nth 1 head []) (List.length (nth 1 head []) - 1) a /\ ~ (a == 0)%Q /\
  (exists x y, nth_error (nth (l_cosm f) head []) 2 = Some x /\ float (chop x) = Some om /\ nth_error (nth (l_cosm f) head []) 5 = Some y /\ float (chop y) = Some ol) /\
  one float (nth (l_cosm f) head []) (List.length (nth (l_cosm f) head []) - 1) h /\
  one float (nth (l_part f) head []) 2 pm.

Lemma loop_app float filename mass_def num : forall l1 l2 n s t,
  (fix go (n : nat) (ls : list words) (s : catalogue * option layout) {struct ls} : option (catalogue * option layout) :=
     match ls with [] => Some s | ws :: r => match step float filename mass_def num n ws s with Returned (s', true) => go (S n) r s' | _ => None end end) n l1 s = Some t ->
  loop float filename mass_def num n (l1 ++ l2)%list s = loop float filename mass_def num (n + List.length l1) l2 t.
Proof.
  induction l1 as [|ws r IH]; intros l2 n s t H.
  - assert (s = t) as -> by congruence. cbn. rewrite Nat.add_0_r. reflexivity.
  - cbn [app loop List.length]. destruct (step float filename mass_def num n ws s) as [[s' [|]]|e]; try discriminate.
    cbn [bind fst snd]. rewrite (IH l2 (S n) s' t H). f_equal. lia.
Qed.

Lemma header_ok f filename mass_def header a b c d e g : matches f filename mass_def header a b c d e g ->
  read_header filename mass_def header = Returned (Some (Layout a b c d e g (l_cosm f) (l_part f) (l_head f))).
Proof.
  intros (F & X & A & B & C & D & E & G). unfold read_header, columns.
  apply index_first in A, B, C, D, E, G.
  destruct F as [-> | ->]; cbn [f_ext list_format ascii_format f_pos f_vel f_l f_vrms f_r f_m] in *; rewrite X.
  - change (String.eqb "list" "list") with true. cbn iota. rewrite A, B, C, D, E, G. reflexivity.
  - change (String.eqb "ascii" "list") with false. change (String.eqb "ascii" "ascii") with true. cbn iota. rewrite A, B, C, D, E, G. reflexivity.
Qed.

Definition after_head (f : format) (c : catalogue) (a om ol h pm : Q) : catalogue := Catalogue (Some (1 / a - 1)%Q) (Some (om, ol, h)) (Some pm) (halos c).

Lemma head_ok float f filename mass_def header head data num c i1 i2 i3 i4 i5 i6 a om ol h pm :
  matches f filename mass_def header i1 i2 i3 i4 i5 i6 -> good_head float f (header :: head) a om ol h pm ->
  read_from_file float mass_def filename num (header :: head ++ data)%list c =
  loop float filename mass_def num (S (l_head f)) data (after_head f c a om ol h pm, Some (Layout i1 i2 i3 i4 i5 i6 (l_cosm f) (l_part f) (l_head f))).
Proof.
  intros M (L & A & NA & (x & y & X1 & X2 & Y1 & Y2) & H & P). unfold read_from_file. cbn [loop]. unfold step at 1. rewrite (header_ok _ _ _ _ _ _ _ _ _ _ M).
  cbn [bind fst snd]. cbn [List.length] in L.
  apply number_one in A, H, P.
  assert (QA : Qeq_bool a 0 = false) by (destruct (Qeq_bool a 0) eqn:E; [apply Qeq_bool_iff in E; contradiction|reflexivity]).
  destruct M as [F _]. replace (S (l_head f)) with (1 + List.length head) by lia.
  rewrite (loop_app float filename mass_def num head data 1 _ (after_head f c a om ol h pm, Some (Layout i1 i2 i3 i4 i5 i6 (l_cosm f) (l_part f) (l_head f)))); [reflexivity|].
  destruct F as [-> | ->]; cbn [l_cosm l_part l_head list_format ascii_format] in *; injection L as L.
  - do 15 (destruct head as [|? head]; [discriminate|]). destruct head; [|discriminate].
    cbn [nth] in *. unfold last_word in *.
    unfold step, last_word. cbn [n_cosm n_part n_vals Nat.eqb Nat.ltb Nat.leb].
    rewrite A. cbn [bind]. rewrite QA. cbn iota. rewrite X1, Y1, H. cbn [option_map number bind]. rewrite X2, Y2. cbn [bind]. rewrite P. reflexivity.
  - do 19 (destruct head as [|? head]; [discriminate|]). destruct head; [|discriminate].
    cbn [nth] in *. unfold last_word in *.
    unfold step, last_word. cbn [n_cosm n_part n_vals Nat.eqb Nat.ltb Nat.leb].
    rewrite A. cbn [bind]. rewrite QA. cbn iota. rewrite X1, Y1, H. cbn [option_map number bind]. rewrite X2, Y2. cbn [bind]. rewrite P. reflexivity.
Qed.

(** A .list or .ascii file with its header and any number of lines after it: whatever the order of the columns, every line
    becomes a halo, in the order of the file, whose position, velocity and angular momentum are the three numbers from the column of that
    name on and whose dispersion, radius and mass are the numbers below theirs. Redshift, cosmology and particle mass come from their lines
    of the header; its other lines do not matter. The haloes that the object held are kept. A limit below the number held is no limit. *)
Theorem C115_read : forall float f filename mass_def header head data num c i1 i2 i3 i4 i5 i6 a om ol h pm hs,
  matches f filename mass_def header i1 i2 i3 i4 i5 i6 -> good_head float f (header :: head) a om ol h pm -> ~ (pm == 0)%Q ->
  Forall2 (halo_in float i1 i2 i3 i4 i5 i6 pm) data hs -> (num < Z.of_nat (List.length (halos c)))%Z ->
  read_from_file float mass_def filename num (header :: head ++ data)%list c =
  Returned (Catalogue (Some (1 / a - 1)%Q) (Some (om, ol, h)) (Some pm) (halos c ++ hs)%list).
Proof.
  intros float f filename mass_def header head data num c i1 i2 i3 i4 i5 i6 a om ol h pm hs M G P F L.
  rewrite (head_ok _ _ _ _ _ _ _ _ _ _ _ _ _ _ _ _ _ _ _ _ M G). unfold after_head.
  assert (K : 1 <= l_head f /\ l_cosm f <= l_head f /\ l_part f <= l_head f) by (destruct M as [[-> | ->] _]; cbn; lia).
  apply data_lines; cbn [n_vals n_cosm n_part]; try lia; try assumption.
Qed.
Print Assumptions C115_read.

(** Any limit that the object has reached already, and so every limit of zero or more on a new object, reads no halo
    at all, only the header, whatever the data lines hold. *)
Theorem C115_limit_refuted : forall float f filename mass_def header head data num c i1 i2 i3 i4 i5 i6 a om ol h pm,
  matches f filename mass_def header i1 i2 i3 i4 i5 i6 -> good_head float f (header :: head) a om ol h pm -> (Z.of_nat (List.length (halos c)) <= num)%Z ->
  read_from_file float mass_def filename num (header :: head ++ data)%list c =
  Returned (Catalogue (Some (1 / a - 1)%Q) (Some (om, ol, h)) (Some pm) (halos c)).
Proof.
  intros float f filename mass_def header head data num c i1 i2 i3 i4 i5 i6 a om ol h pm M G L.
  rewrite (head_ok _ _ _ _ _ _ _ _ _ _ _ _ _ _ _ _ _ _ _ _ M G). unfold after_head.
  assert (K : 1 <= l_head f /\ l_cosm f <= l_head f /\ l_part f <= l_head f) by (destruct M as [[-> | ->] _]; cbn; lia).
  destruct data as [|ws r]; [reflexivity|]. cbn [loop]. unfold step. destruct (l_head f) as [|k] eqn:E; [lia|].
  destruct K as (_ & KC & KP). cbn [n_cosm n_part n_vals].
  destruct (Nat.eqb_spec (S (S k)) (l_cosm f)); [lia|]. destruct (Nat.eqb_spec (S (S k)) (l_part f)); [lia|].
  destruct (Nat.ltb_spec (S k) (S (S k))); [|lia]. cbn [halos].
  destruct (Z.ltb_spec num (Z.of_nat (List.length (halos c)))); [lia|]. reflexivity.
Qed.
Print Assumptions C115_limit_refuted.

(** The line to start from is ignored, and a limit on a new object is all or nothing: what is built is the whole file for a
    negative limit, otherwise the header alone. *)
Theorem C115_object : forall float f filename mass_def header head data num start i1 i2 i3 i4 i5 i6 a om ol h pm hs,
  matches f filename mass_def header i1 i2 i3 i4 i5 i6 -> good_head float f (header :: head) a om ol h pm -> ~ (pm == 0)%Q ->
  Forall2 (halo_in float i1 i2 i3 i4 i5 i6 pm) data hs ->
  HaloRockstar float (Some filename) mass_def num start (header :: head ++ data)%list =
  Returned (Catalogue (Some (1 / a - 1)%Q) (Some (om, ol, h)) (Some pm) (if (num <? 0)%Z then hs else [])).
Proof.
  intros float f filename mass_def header head data num start i1 i2 i3 i4 i5 i6 a om ol h pm hs M G P F. unfold HaloRockstar.
  assert (E : String.eqb filename "" = false).
  { destruct (String.eqb_spec filename ""); [|reflexivity]. subst. destruct M as [[-> | ->] [X _]]; discriminate. }
  rewrite E. destruct (Z.ltb_spec num 0).
  - rewrite (C115_read float f filename mass_def header head data num empty_catalogue i1 i2 i3 i4 i5 i6 a om ol h pm hs M G P F); [reflexivity|cbn; lia].
  - rewrite (C115_limit_refuted float f filename mass_def header head data num empty_catalogue i1 i2 i3 i4 i5 i6 a om ol h pm M G); [reflexivity|cbn; lia].
Qed.
Print Assumptions C115_object.

(** Reading a second file into the same object keeps the haloes of the first, next to the redshift, cosmology and particle mass of
    the second: a limit below the number of haloes of the first does not hold anything back. *)
Theorem C115_twice : forall float f filename mass_def header head data num c i1 i2 i3 i4 i5 i6 a om ol h pm hs f' filename' header' head' data' num' k1 k2 k3 k4 k5 k6 a' om' ol' h' pm' hs',
  matches f filename mass_def header i1 i2 i3 i4 i5 i6 -> good_head float f (header :: head) a om ol h pm -> ~ (pm == 0)%Q ->
  Forall2 (halo_in float i1 i2 i3 i4 i5 i6 pm) data hs -> (num < 0)%Z ->
  matches f' filename' mass_def header' k1 k2 k3 k4 k5 k6 -> good_head float f' (header' :: head') a' om' ol' h' pm' -> ~ (pm' == 0)%Q ->
  Forall2 (halo_in float k1 k2 k3 k4 k5 k6 pm') data' hs' ->
  read_from_file float mass_def filename num (header :: head ++ data)%list empty_catalogue = Returned c ->
  read_from_file float mass_def filename' num' (header' :: head' ++ data')%list c =
  Returned (Catalogue (Some (1 / a' - 1)%Q) (Some (om', ol', h')) (Some pm') (if (num' <? Z.of_nat (List.length data))%Z then hs ++ hs' else hs)%list).
Proof.
  intros float f filename mass_def header head data num c i1 i2 i3 i4 i5 i6 a om ol h pm hs f' filename' header' head' data' num' k1 k2 k3 k4 k5 k6 a' om' ol' h' pm' hs' M G P F N M' G' P' F' R.
  rewrite (C115_read float f filename mass_def header head data num empty_catalogue i1 i2 i3 i4 i5 i6 a om ol h pm hs M G P F) in R by (cbn; lia).
  cbn [halos empty_catalogue app] in R.
  assert (HC : halos c = hs) by (assert (C : Catalogue (Some (1 / a - 1)%Q) (Some (om, ol, h)) (Some pm) hs = c) by congruence; rewrite <- C; reflexivity).
  assert (LE : List.length data = List.length hs) by (clear - F; induction F; cbn; congruence).
  rewrite LE. destruct (Z.ltb_spec num' (Z.of_nat (List.length hs))).
  - rewrite (C115_read float f' filename' mass_def header' head' data' num' c k1 k2 k3 k4 k5 k6 a' om' ol' h' pm' hs' M' G' P' F') by (rewrite HC; lia).
    rewrite HC. reflexivity.
  - rewrite (C115_limit_refuted float f' filename' mass_def header' head' data' num' c k1 k2 k3 k4 k5 k6 a' om' ol' h' pm' M' G') by (rewrite HC; lia).
    rewrite HC. reflexivity.
Qed.
Print Assumptions C115_twice.

(** Another extension is not refused as such: a file of three lines or more fails for an unbound name (or for its second line), one of two
    lines or fewer is accepted if the second ends with a number other than zero, without any halo. *)
Theorem C115_wrong_format : forall float filename mass_def lines num c, extension filename <> "list" -> extension filename <> "ascii" ->
  (forall v, read_from_file float mass_def filename num lines c = Returned v -> List.length lines <= 2 /\ halos v = halos c) /\
  (3 <= List.length lines -> (exists a, one float (nth 1 lines []) (List.length (nth 1 lines []) - 1) a /\ ~ (a == 0)%Q) ->
    read_from_file float mass_def filename num lines c = Raised "UnboundLocalError") /\
  (List.length lines <= 1 -> read_from_file float mass_def filename num lines c = Returned c).
Proof.
  intros float filename mass_def lines num c NL NA.
  assert (RH : forall hd, read_header filename mass_def hd = Returned None).
  { intro hd. unfold read_header. destruct (String.eqb_spec (extension filename) "list"); [contradiction|].
    destruct (String.eqb_spec (extension filename) "ascii"); [contradiction|]. reflexivity. }
  unfold read_from_file.
  destruct lines as [|l0 [|l1 [|l2 r]]].
  - cbn. split; [intros v E; assert (c = v) as -> by congruence; split; [lia|reflexivity]|split; [lia|reflexivity]].
  - cbn [loop]. unfold step. rewrite RH. cbn [bind fst snd List.length].
    split; [intros v E; assert (c = v) as -> by congruence; split; [lia|reflexivity]|split; [lia|reflexivity]].
  - cbn [loop]. unfold step. rewrite RH. cbn [bind fst snd List.length]. split; [|split; lia].
    intros v E. split; [lia|]. destruct (number float (last_word l1)) as [q|e]; cbn [bind] in E; [|discriminate].
    destruct (Qeq_bool q 0); cbn [bind fst snd] in E; [discriminate|]. apply (f_equal (fun o => match o with Returned x => halos x | Raised _ => [] end)) in E. cbn in E. congruence.
  - cbn [loop]. unfold step. rewrite RH. cbn [bind fst snd List.length nth]. split; [|split; [|lia]].
    + intros v E. destruct (number float (last_word l1)) as [q|e]; cbn [bind] in E; [|discriminate].
      destruct (Qeq_bool q 0); cbn [bind fst snd] in E; discriminate.
    + intros _ (q & A & N). apply number_one in A. unfold last_word. rewrite A. cbn [bind].
      destruct (Qeq_bool q 0) eqn:E; [apply Qeq_bool_iff in E; contradiction|]. reflexivity.
Qed.
Print Assumptions C115_wrong_format.

(** A column that the header does not name, such as the mass of another definition, makes the call raise at once. *)
Theorem C115_missing_column : forall float f filename mass_def header rest num c w, f = list_format \/ f = ascii_format -> extension filename = f_ext f ->
  In w [f_pos f; f_vel f; f_l f; f_vrms f; append (f_r f) mass_def; append (f_m f) mass_def] -> ~ In w header ->
  exists e, read_from_file float mass_def filename num (header :: rest) c = Raised e.
Proof.
  intros float f filename mass_def header rest num c w F X W N. unfold read_from_file. cbn [loop]. unfold step at 1.
  apply index_missing in N. destruct N as [e N].
  assert (B : forall a b d g x y p q v, In w [a; b; d; g; x; y] -> exists e', columns a b d g x y p q v header = Raised e').
  { intros a b d g x y p q v I. unfold columns. cbn [In] in I.
    destruct I as [I|[I|[I|[I|[I|[I|[]]]]]]]; subst; rewrite N; cbn [bind];
      repeat (match goal with |- context [bind (index ?u header) _] => destruct (index u header) end; cbn [bind]); eexists; reflexivity. }
  assert (H : exists e', read_header filename mass_def header = Raised e').
  { unfold read_header. rewrite X. destruct F as [-> | ->]; cbn [f_ext list_format ascii_format f_pos f_vel f_l f_vrms f_r f_m] in *.
    - change (String.eqb "list" "list") with true. cbn iota. destruct (B _ _ _ _ _ _ 2 5 15 W) as [e' E]. rewrite E. eexists. reflexivity.
    - change (String.eqb "ascii" "list") with false. change (String.eqb "ascii" "ascii") with true. cbn iota. destruct (B _ _ _ _ _ _ 3 6 19 W) as [e' E]. rewrite E. eexists. reflexivity. }
  destruct H as [e' H]. rewrite H. eexists. reflexivity.
Qed.
Print Assumptions C115_missing_column.

(** What follows the last dot decides, wherever the file is; a name without a dot is its own extension. *)
Theorem C115_extension : forall a e, ~ In "."%char (list_ascii_of_string e) -> extension (append a (append "." e)) = e /\ extension e = e.
Proof.
  intros a e N.
  assert (ND : forall s, ~ In "."%char (list_ascii_of_string s) -> existsb (Ascii.eqb "."%char) (list_ascii_of_string s) = false).
  { intros s H. destruct (existsb _ _) eqn:E; [|reflexivity]. apply existsb_exists in E. destruct E as (x & I & Q). apply Ascii.eqb_eq in Q. subst. contradiction. }
  assert (E0 : extension e = e).
  { destruct e as [|c r]; [reflexivity|]. cbn [extension]. cbn [list_ascii_of_string] in N. rewrite ND by (intro I; apply N; right; exact I).
    destruct (Ascii.eqb_spec "."%char c) as [<-|]; [exfalso; apply N; left; reflexivity|reflexivity]. }
  split; [|exact E0]. induction a as [|c r IH].
  - cbn [append extension]. rewrite ND by exact N. reflexivity.
  - cbn [append extension].
    assert (D : existsb (Ascii.eqb "."%char) (list_ascii_of_string (append r (String "."%char e))) = true).
    { clear. induction r as [|x r IH]; cbn [append list_ascii_of_string existsb]; [rewrite Ascii.eqb_refl; reflexivity|]. rewrite IH. apply orb_true_r. }
    rewrite D. exact IH.
Qed.
Print Assumptions C115_extension.

(** [get] returns one entry for each halo, in order, and fails for a name it does not know. *)
Theorem C115_get : forall c i, (i < List.length (halos c)) ->
  let h := nth i (halos c) (Halo [] [] [] 0 0 0 0) in
  (forall v, get_scalar "m" c = Returned v -> nth i v 0%Q = mass h /\ List.length v = List.length (halos c)) /\
  (forall v, get_scalar "r" c = Returned v -> nth i v 0%Q = radius h /\ List.length v = List.length (halos c)) /\
  (forall v, get_scalar "vel_disp" c = Returned v -> nth i v 0%Q = vel_disp h /\ List.length v = List.length (halos c)) /\
  (forall v, get_vector "pos" c = Returned v -> nth i v [] = pos h /\ List.length v = List.length (halos c)) /\
  (forall v, get_vector "pos_cm" c = Returned v -> nth i v [] = pos h /\ List.length v = List.length (halos c)) /\
  (forall v, get_vector "vel" c = Returned v -> nth i v [] = vel h /\ List.length v = List.length (halos c)) /\
  (forall v, get_vector "l" c = Returned v -> nth i v [] = ang h /\ List.length v = List.length (halos c)) /\
  (forall s, get_scalar s c <> Raised "UnboundLocalError" <-> In s ["m"; "r"; "vel_disp"]) /\
  (forall s, get_vector s c <> Raised "UnboundLocalError" <-> In s ["pos"; "vel"; "l"; "pos_cm"]).
Proof.
  intros c i I h.
  assert (S1 : forall (f : halo -> Q) v, Returned (map f (halos c)) = Returned v -> nth i v 0%Q = f h /\ List.length v = List.length (halos c)).
  { intros f v E. assert (map f (halos c) = v) as <- by congruence. split; [|apply map_length].
    rewrite (nth_indep _ 0%Q (f (Halo [] [] [] 0 0 0 0))) by (rewrite map_length; exact I). apply map_nth. }
  assert (S2 : forall (f : halo -> list Q) v, Returned (map f (halos c)) = Returned v -> nth i v [] = f h /\ List.length v = List.length (halos c)).
  { intros f v E. assert (map f (halos c) = v) as <- by congruence. split; [|apply map_length].
    rewrite (nth_indep _ [] (f (Halo [] [] [] 0 0 0 0))) by (rewrite map_length; exact I). apply map_nth. }
  repeat split; try (apply S1; exact H); try (apply S2; exact H); try (eapply proj1, S1; exact H); try (eapply proj2, S1; exact H); try (eapply proj1, S2; exact H); try (eapply proj2, S2; exact H).
  all: unfold get_scalar, get_vector; cbn [In].
  - destruct (String.eqb_spec s "m"); [intros _; left; congruence|]. destruct (String.eqb_spec s "r"); [intros _; right; left; congruence|].
    destruct (String.eqb_spec s "vel_disp"); [intros _; right; right; left; congruence|]. intro H. exfalso. apply H. reflexivity.
  - intros [<-|[<-|[<-|[]]]]; discriminate.
  - destruct (String.eqb_spec s "pos"); [intros _; left; congruence|]. destruct (String.eqb_spec s "vel"); [intros _; right; left; congruence|].
    destruct (String.eqb_spec s "l"); [intros _; right; right; left; congruence|]. destruct (String.eqb_spec s "pos_cm"); [intros _; right; right; right; left; congruence|].
    intro H. exfalso. apply H. reflexivity.
  - intros [<-|[<-|[<-|[<-|[]]]]]; discriminate.
Qed.
Print Assumptions C115_get.

(** A file of two haloes of 7/2 and 5/2 particles: halves go to the even number, 4 and 2. *)
Definition digits_of (s : string) : option Q := if String.eqb s "0.5" then Some (1 # 2)%Q else if String.eqb s "7" then Some 7%Q else if String.eqb s "5" then Some 5%Q
  else if String.eqb s "2" then Some 2%Q else if String.eqb s "0.3" then Some (3 # 10)%Q else None.
Example C115_sat :
  let header := ["#ID"; "Mvir"; "Rvir"; "Vrms"; "X"; "Y"; "Z"; "VX"; "VY"; "VZ"; "JX"; "JY"; "JZ"] in
  let head := [["#a"; "="; "0.5"]; ["#Om"; "="; "0.3;"; "Ol"; "="; "0.7;"; "h"; "="; "0.7"]; []; []; ["#Particle"; "mass:"; "2"; "Msun/h"]; []; []; []; []; []; []; []; []; []; []] in
  let fl := fun s => if String.eqb s "0.7" then Some (7 # 10)%Q else digits_of s in
  let row m := ["1"; m; "5"; "7"; "2"; "2"; "5"; "7"; "7"; "7"; "0.3"; "0.3"; "0.3"] in
  HaloRockstar fl (Some "out/halos_0.1.list") "vir" (-1) 0 (header :: head ++ [row "7"; row "5"])%list =
    Returned (Catalogue (Some (1 / (1 # 2) - 1)%Q) (Some (3 # 10, 7 # 10, 7 # 10)%Q) (Some 2%Q)
      [Halo [2; 2; 5]%Q [7; 7; 7]%Q [3 # 10; 3 # 10; 3 # 10]%Q 7 5 7 4; Halo [2; 2; 5]%Q [7; 7; 7]%Q [3 # 10; 3 # 10; 3 # 10]%Q 7 5 5 2]) /\
  matches list_format "out/halos_0.1.list" "vir" header 4 7 10 3 2 1 /\ good_head fl list_format (header :: head) (1 # 2) (3 # 10) (7 # 10) (7 # 10) 2.
Proof.
  cbv zeta. split; [vm_compute; reflexivity|]. split.
  - unfold matches. repeat split; try (left; reflexivity); try (intros j J; do 12 (destruct j as [|j]; [try lia; cbn; discriminate|])); lia.
  - unfold good_head, one. repeat split; try discriminate; try (eexists; split; reflexivity).
    exists "0.3;", "0.7;". repeat split.
Qed.
