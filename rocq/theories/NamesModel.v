(** File names: types, redshifts hidden in names, directory listings and the formats [save_data] writes
    (helper_functions.py:28-128, 320-419, 474-511; temperature.py:51-116; lightcone.py:93-108, 517-561). *)
From Coq Require Import String Ascii.
From Coq Require Import List ZArith Reals Bool.
Import ListNotations.
Local Open Scope R_scope.

Definition str := list ascii.
Definition L (s : string) : str := list_ascii_of_string s.

(** [s.isdigit() or s == '.'] (helper_functions.py:494). Simplified: ASCII names; Python also counts the digits of other alphabets. *)
Definition digit (c : ascii) : bool := let n := nat_of_ascii c in (48 <=? n)%nat && (n <=? 57)%nat.
Definition dot (c : ascii) : bool := Ascii.eqb c "."%char.
Definition numeric (c : ascii) : bool := digit c || dot c.
Definition slash (c : ascii) : bool := Ascii.eqb c "/"%char.

(** The part of a list before the first element satisfying [p], and the rest from there on. *)
Fixpoint upto {A} (p : A -> bool) (l : list A) : list A := match l with [] => [] | c :: r => if p c then [] else c :: upto p r end.
Fixpoint from {A} (p : A -> bool) (l : list A) : list A := match l with [] => [] | c :: r => if p c then l else from p r end.

(** [os.path.basename] (helper_functions.py:334, 488): what follows the last slash. *)
Definition basename (s : str) : str := rev (upto slash (rev s)).
(** [os.path.splitext(...)[0]] of a base name (helper_functions.py:489): the part before the last dot, unless every character before that dot is a dot. *)
Definition root (s : str) : str :=
  let before := rev (tl (from dot (rev s))) in if existsb dot s && negb (forallb dot before) then before else s.

(** The loop collecting number strings (helper_functions.py:491-500): the strings so far, newest first and each reversed, and [last_was_char]. *)
Definition run_step (st : list str * bool) (c : ascii) : list str * bool :=
  let '(ns, last_was_char) := st in
  if numeric c then (let ns' := if last_was_char then [] :: ns else ns in match ns' with [] => [[c]] | h :: t => (c :: h) :: t end, false) else (ns, true).
Definition runs (s : str) : list str := rev (map (@rev ascii) (fst (fold_left run_step s ([], true)))).

(** The loop over the strings (helper_functions.py:502-506): the first index whose string is longer than all before it. *)
Definition longest_idx (ns : list str) : nat := fold_left (fun best i => if (length (nth best ns []) <? length (nth i ns []))%nat then i else best) (seq 0 (length ns)) 0%nat.

(** [float] of a string of digits and dots (helper_functions.py:511): a value when there is at least one digit and at most one dot, otherwise ValueError.
    Simplified: the decimal value itself, not the nearest double. *)
Definition digit_val (c : ascii) : Z := Z.of_nat (nat_of_ascii c - 48).
Definition decimal (s : str) : Z := fold_left (fun acc c => if digit c then (10 * acc + digit_val c)%Z else acc) s 0%Z.
Definition float (s : str) : option R :=
  if existsb digit s && (length (filter dot s) <=? 1)%nat then Some (IZR (decimal s) / 10 ^ length (tl (from dot s))) else None.

Inductive redshift := Redshift (z : R) | NoNumber | BadNumber.
(** [determine_redshift_from_filename] (helper_functions.py:474-511): the returned number, the returned -1, or ValueError. *)
Definition determine_redshift (name : str) : redshift :=
  let ns := runs (root (basename name)) in
  match ns with [] => NoNumber | _ => match float (nth (longest_idx ns) ns []) with Some z => Redshift z | None => BadNumber end end.

(** [pat in s]. *)
Fixpoint prefixb (pat s : str) : bool := match pat, s with [], _ => true | _, [] => false | a :: p, b :: r => Ascii.eqb a b && prefixb p r end.
Fixpoint containsb (pat s : str) : bool := prefixb pat s || match s with [] => false | _ :: r => containsb pat r end.

Inductive filetype := Xfrac | Density | Temper | Velocity | Cbin | Dbt | Unknown.
(** [determine_filetype] (helper_functions.py:320-348). *)
Definition determine_filetype (name : str) : filetype :=
  let b := basename name in
  if containsb (L "xfrac3d") b then Xfrac else if containsb (L "n_all") b then Density else if containsb (L "Temper") b then Temper
  else if containsb (L "v_all") b then Velocity else if containsb (L ".cbin") b then Cbin else if containsb (L "dbt") b then Dbt else Unknown.

(** What callers pass as data: a file object of one of the three classes, a path, an array, or something else. *)
Inductive input := Object (t : filetype) | Path (name : str) | Array | Other.
(** [get_data_and_type] (helper_functions.py:351-401): the type it reports, or None when it raises. Simplified: the file itself is readable. *)
Definition data_type (i : input) : option filetype :=
  match i with
  | Object t => match t with Xfrac | Temper | Density => Some t | _ => None end
  | Path n => match determine_filetype n with Velocity | Unknown => None | t => Some t end
  | Array => Some Unknown
  | Other => None
  end.

(** [determine_redshift_from_filename] of an argument: [os.path.basename] raises TypeError on anything but a path. *)
Inductive outcome := Used (z : R) | NotRead | TypeErr | ValueErr | NoRedshift.
Definition name_redshift (i : input) : option redshift := match i with Path n => Some (determine_redshift n) | _ => None end.
(** The cascade of [calc_dt] (temperature.py:69-75) and [calc_dt_full] (temperature.py:106-110): the names are tried in turn. *)
Fixpoint cascade (is : list input) : outcome :=
  match is with
  | [] => NoRedshift
  | i :: r => match name_redshift i with None => TypeErr | Some BadNumber => ValueErr | Some (Redshift z) => if Rlt_dec z 0 then cascade r else Used z | Some NoNumber => cascade r end
  end.
(** [calc_dt], [calc_dt_full] up to the formula: every argument is read, then the redshift is settled. The order of the names differs from that of reading. *)
Definition settle (z : R) (read_order name_order : list input) : outcome :=
  if existsb (fun i => match data_type i with None => true | _ => false end) read_order then NotRead else if Rlt_dec z 0 then cascade name_order else Used z.
Definition calc_dt_redshift (xfrac dens : input) (z : R) : outcome := settle z [xfrac; dens] [xfrac; dens].
Definition calc_dt_full_redshift (xfrac dens temp : input) (z : R) : outcome := settle z [xfrac; temp; dens] [xfrac; dens; temp].

(** [s.split(sep)[-1]] and [s.split(sep)[0]] for a one-character separator, and [s[:-k]]. *)
Definition last_piece (p : ascii -> bool) (s : str) : str := rev (upto p (rev s)).
Definition drop_last (k : nat) (s : str) : str := firstn (length s - k) s.
(** [s.split(pat)[0]]: what precedes the first occurrence of [pat]. *)
Fixpoint before (pat s : str) : str := if prefixb pat s then [] else match s with [] => [] | c :: r => c :: before pat r end.
(** [s[:s.rfind(pat)]] when [pat] occurs: what precedes the last occurrence. *)
Fixpoint before_last (pat s : str) : option str := match s with [] => if prefixb pat s then Some [] else None | c :: r => match before_last pat r with Some t => Some (c :: t) | None => if prefixb pat s then Some [] else None end end.

(** The string each listing function passes to [float] (helper_functions.py:47, 74, 101). [f] is a full path as returned by glob.
    In the source listing [f.rfind] finds the last occurrence in the whole path; the slice is taken from the last slash. *)
Definition xfrac_field (f : str) : str := drop_last 4 (last_piece (fun c => Ascii.eqb c "_"%char) f).
Definition dens_field (f : str) : str := before (L "n_") (basename f).
Definition source_field (f : str) : str := match before_last (L "-coarsest_wsubgrid_sources") f with Some t => skipn (length f - length (basename f)) t | None => drop_last 1 (basename f) end.

(** Sorting, and [_get_redshifts_in_range] (helper_functions.py:109-127). None stands for an exception: the extremum of an empty array, a comparison with None, or the bracketing check. *)
Fixpoint insert (x : R) (l : list R) : list R := match l with [] => [x] | y :: r => if Rle_dec x y then x :: l else y :: insert x r end.
Fixpoint sort (l : list R) : list R := match l with [] => [] | x :: r => insert x (sort r) end.
Definition leb (a b : R) : bool := if Rle_dec a b then true else false.
Definition ltb (a b : R) : bool := if Rlt_dec a b then true else false.
Definition minimum (l : list R) : option R := match l with [] => None | x :: r => Some (fold_left Rmin r x) end.
Definition maximum (l : list R) : option R := match l with [] => None | x :: r => Some (fold_left Rmax r x) end.
Definition select (lo hi : R) (l : list R) : list R := filter (fun z => leb lo z && leb z hi) l.
Definition in_range (redshifts : list R) (z_low z_high : option R) (bracket : bool) : option (list R) :=
  let l := sort redshifts in
  if bracket then
    match z_low, z_high, minimum l, maximum l with
    | Some lo, Some hi, Some mn, Some mx =>
        if ltb lo mn || ltb mx hi then None
        else match rev (filter (fun z => leb z lo) l), filter (fun z => leb hi z) l with a :: _, b :: _ => Some (select a b l) | _, _ => None end
    | _, _, _, _ => None
    end
  else match (match z_low with Some lo => Some lo | None => option_map (fun m => m - 1) (minimum l) end), (match z_high with Some hi => Some hi | None => option_map (fun m => m + 1) (maximum l) end) with
       | Some lo, Some hi => Some (select lo hi l)
       | _, _ => None
       end.
(** The listing functions (helper_functions.py:28-106): parse each name glob returned, skip those that do not parse. [fl] is Python's float on any string. *)
Definition listing (fl : str -> option R) (field : str -> str) (names : list str) (z_low z_high : option R) (bracket : bool) : option (list R) :=
  in_range (flat_map (fun f => match fl (field f) with Some z => [z] | None => [] end) names) z_low z_high bracket.

(** [save_data] (helper_functions.py:403-419): the format written, or None when it prints "Unknown filetype." and returns False. [ft] is the filetype argument. *)
Inductive format := Npy | Pickle | CbinF | Fits | Raw.
Definition lower (c : ascii) : ascii := let n := nat_of_ascii c in if (65 <=? n)%nat && (n <=? 90)%nat then ascii_of_nat (n + 32) else c.
Definition streq (a b : str) : bool := if list_eq_dec Ascii.ascii_dec a b then true else false.
Definition tail5 (s : str) : str := skipn (length s - 5) s.
Definition save_format (savefile : str) (ft : option str) : option format :=
  let t := match ft with Some t => t | None => [] end in let low := map lower t in let e := tail5 savefile in let is := fun x l => existsb (streq x) (map L l) in
  if containsb (L ".npy") e || is low ["npy"; "python_pickle"]%string then Some Npy
  else if containsb (L ".pkl") e || is low ["pkl"; "pickle"]%string then Some Pickle
  else if containsb (L ".cbin") e || is low ["cbin"]%string then Some CbinF
  else if containsb (L ".fits") e || is t ["fits"]%string then Some Fits
  else if containsb (L ".bin") e || is t ["bin"; "binary"]%string then Some Raw
  else None.

(** The file arguments of [make_lightcone] (lightcone.py:93-108): what may be passed for the names and for their redshifts. *)
Inductive names_arg := NamesText (s : str) | NamesList (l : list str).
Inductive zs_arg := ZNone | ZText (s : str) | ZList (l : list R) | ZArray (l : list R).
(** [_get_filenames] (lightcone.py:517-541). Every string has [__iter__], so a directory or a list file becomes a zero-dimensional array. *)
Inductive nparr := Scalar (s : str) | Vector (l : list str).
Definition get_filenames (a : names_arg) : nparr := match a with NamesText s => Scalar s | NamesList l => Vector l end.
(** [_get_file_redshifts] (lightcone.py:544-561): None stands for an exception (iterating over a zero-dimensional array, or a name holding no valid number). A string has [__iter__] and is returned as it is. *)
Inductive zs_val := Text (s : str) | PyList (l : list R) | Arr (l : list R).
Fixpoint all_some {A} (l : list (option A)) : option (list A) := match l with [] => Some [] | None :: _ => None | Some a :: r => option_map (cons a) (all_some r) end.
Definition name_z (n : str) : option R := match determine_redshift n with Redshift z => Some z | NoNumber => Some (-1) | BadNumber => None end.
Definition get_file_redshifts (a : zs_arg) (names : nparr) : option zs_val :=
  match a with ZText s => Some (Text s) | ZList l => Some (PyList l) | ZArray l => Some (Arr l) | ZNone => match names with Scalar _ => None | Vector l => option_map Arr (all_some (map name_z l)) end end.
(** The head of [make_lightcone] without a reading function (lightcone.py:99-110): names and redshifts with equal lengths, at least one name; a comparison of
    the redshifts with a number (needed at line 123) fails on a string and on a list. None stands for an exception. *)
Definition lightcone_files (a : names_arg) (z : zs_arg) : option (list (str * R)) :=
  let names := get_filenames a in
  match get_file_redshifts z names, names with
  | Some (Arr zs), Vector (n :: l) => if (length zs =? length (n :: l))%nat then Some (combine (n :: l) zs) else None
  | _, _ => None
  end.
