(** FITS files, package resources, names of cosmologies and the verbose switch: helper_functions.py:265-316, 568-579,
    read_files.py:318-380, nbody_tools.py:5-25. *)
From Coq Require Import String Ascii List Bool Arith.
Import ListNotations.
Local Open Scope string_scope.

Inductive outcome (A : Type) := Returned (a : A) | Raised (e : string).
Arguments Returned {A}. Arguments Raised {A}.
(** [try: a; except e: b] where [catches] tells which exceptions are caught. *)
Definition try_except {A} (catches : string -> bool) (a b : outcome A) : outcome A :=
  match a with Raised e => if catches e then b else a | _ => a end.

Section Fits.
Context {D : Type} (f64 : D -> D).
(** One header-data unit: the cards of its header, and its data if it has any. *)
Record hdu := { cards : list (string * string); data : option D }.
(** A file that opens as FITS has a list of units; the disk maps names to such files. *)
Definition disk := string -> option (list hdu).
(** What is installed. *)
Record env := { pyfits : bool; astropy : bool }.

Definition load (fs : disk) (name : string) (data_unit : nat) : outcome (D * list (string * string)) :=
  match fs name with
  | None => Raised "OSError"
  | Some hs =>
      match nth_error hs 0, nth_error hs data_unit with
      | Some h0, Some h => match data h with Some d => Returned (f64 d, cards h0) | None => Raised "AttributeError" end
      | _, _ => Raised "IndexError"
      end
  end.
(** [read_fits] (265-288). [testdata] holds the files in astropy's own test directory, where
    [fits.util.get_testdata_filepath] looks. The result has the header or has it not. *)
Definition read_fits (e : env) (fs testdata : disk) (name : string) (header : bool) : outcome (D * option (list (string * string))) :=
  let first := if pyfits e then load fs name 0 else Raised "ImportError" in
  let second := if astropy e then load testdata name 1 else Raised "ImportError" in
  match try_except (fun _ => true) first second with
  | Raised x => Raised x
  | Returned (d, header) => Returned (d, if (0 <? List.length header)%nat then Some header else None)
  end.

(** What is passed as header: nothing, a pyfits header or some other value. *)
Inductive header_arg := NoHeader | PyfitsHeader (h : list (string * string)) | OtherHeader.
(** [structural d] are the cards that describe the data, which the library adds to every header. *)
Context (structural : D -> list (string * string)).
(** Whether an array of this type can be stored: an array of booleans, for example, cannot. *)
Context (supported : D -> bool).
Definition put (fs : disk) (name : string) (f : list hdu) : disk := fun m => if String.eqb m name then Some f else fs m.
(** [save_fits] (291-316) once the data are at hand. [exists_ name] is whether anything is at that path, FITS or not, and
    [writable name] whether it can be opened for writing. In the fallback [pf] is a local name, unbound if the import failed. *)
Definition save_fits (e : env) (fs : disk) (exists_ writable : string -> bool) (name : string) (d : D) (header : header_arg) : outcome unit * disk :=
  let write := fun d' h => if writable name && supported d' then (Returned tt, put fs name [{| cards := structural d' ++ h; data := Some d' |}]) else (Raised "OSError", fs) in
  let first :=
    if negb (pyfits e) then (Raised "ImportError", fs)
    else if exists_ name then (Raised "OSError", fs)
    else write d (match header with PyfitsHeader h => h | _ => [] end) in
  match first with
  | (Returned tt, fs') => (Returned tt, fs')
  | (Raised _, _) =>
      if negb (astropy e) then (Raised "ImportError", fs)
      else if negb (pyfits e) then (Raised "UnboundLocalError", fs)
      else write (f64 d) []
  end.
End Fits.
Arguments hdu : clear implicits.
Arguments disk : clear implicits.

(** * [get_package_resource_path] (read_files.py:318-380) *)
(** Which of the libraries can be imported; [dir p] is the directory of package [p] if it is installed, [file_there] whether
    a path exists. Looking up a package that is not installed raises ModuleNotFoundError, an ImportError, in each library. *)
Record libraries := { importlib_resources_std : bool; importlib_resources : bool; pkg_resources : bool }.
Definition import_error (x : string) : bool := String.eqb x "ImportError" || String.eqb x "ModuleNotFoundError".
Definition join (d r : string) : string := d ++ "/" ++ r.
Definition get_package_resource_path (l : libraries) (dir : string -> option string) (file_there : string -> bool) (package resource : string) : outcome string :=
  let attempt := fun there : bool => if there then match dir package with Some d => Returned (join d resource) | None => Raised "ModuleNotFoundError" end else Raised "ImportError" in
  let last :=
    try_except (fun _ => true)
      (match dir package with Some d => if file_there (join d resource) then Returned (join d resource) else Raised "FileNotFoundError" | None => Raised "ModuleNotFoundError" end)
      (Raised "ImportError") in
  try_except import_error (attempt (importlib_resources_std l))
    (try_except import_error (attempt (importlib_resources l))
      (try_except import_error (attempt (pkg_resources l)) last)).

(** * [_set_cosmo] (nbody_tools.py:5-25) *)
Definition upper_char (c : ascii) : ascii := let n := nat_of_ascii c in if (97 <=? n)%nat && (n <=? 122)%nat then ascii_of_nat (n - 32) else c.
Fixpoint upper (s : string) : string := match s with EmptyString => EmptyString | String c r => String (upper_char c) (upper r) end.
(** An argument: an object with the attribute [h], a text, or anything else. *)
Inductive cosmo_arg (C : Type) := Cosmology (c : C) | Name (s : string) | Neither.
Arguments Cosmology {C}. Arguments Name {C}. Arguments Neither {C}.
Definition cosmo_names : list (string * string) :=
  [("PLANCK13", "Planck13"); ("PLANCK15", "Planck15"); ("PLANCK18", "Planck18"); ("WMAP1", "WMAP1"); ("WMAP3", "WMAP3");
   ("WMAP5", "WMAP5"); ("WMAP7", "WMAP7"); ("WMAP9", "WMAP9")].
(** [cosmology n] is [astropy.cosmology.n]. *)
Definition set_cosmo {C} (cosmology : string -> C) (a : cosmo_arg C) : outcome C :=
  match a with
  | Cosmology c => Returned c
  | Name s => Returned (match find (fun p => String.eqb (upper s) (fst p)) cosmo_names with Some p => cosmology (snd p) | None => cosmology "Planck18" end)
  | Neither => Raised "AttributeError"
  end.

(** * [set_verbose] (568-579) and [print_msg] *)
Inductive action := SetVerbose (b : bool) | Message (s : string).
(** [verbose] starts as False; the messages that reach the terminal. *)
Fixpoint printed (verbose : bool) (l : list action) : list string :=
  match l with
  | [] => []
  | SetVerbose b :: r => printed b r
  | Message s :: r => if verbose then s :: printed verbose r else printed verbose r
  end.

(** * [outputify] (453-471) *)
(** A value: without [__iter__]; a list or tuple; a numpy array with at least one axis, given by its entries along the first;
    an array without axes or a generator, which has [__iter__] but no length. *)
Inductive value := Scalar (x : nat) | Sequence (l : list value) | NdArray (l : list value) | Unsized.
Definition outputify (v : value) : outcome value :=
  match v with
  | Scalar _ => Returned v
  | Sequence l => match l with [x] => Returned x | _ => Returned (NdArray l) end
  | NdArray l => match l with [x] => Returned x | _ => Returned v end
  | Unsized => Raised "TypeError"
  end.
