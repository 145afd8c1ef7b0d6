(** File objects used more than once: the attributes of [DensityFile] (density_file.py:20-126), [ClumpingFile] (143-220) and [VelocityFile]
    (vel_file.py:22-106) after any sequence of reads and writes. Only the format with a header; what is in a file is the mesh at its head, if
    three integers are there, and the numbers that follow. Array values are listed in Fortran order. *)
From Coq Require Import String List Arith Bool.
Import ListNotations.
Local Open Scope nat_scope.

Inductive kind := Density | Clumping | Velocity.
Inductive result := Returned | Raised (e : string).
Section Obj.
(** [V]: numbers; [T]: redshifts. *)
Context {V T : Type}.
Record arr := Arr { dims : list nat; vals : list V }.
Record file := File { head : option (list nat); body : list V }.
(** A data attribute can be missing, None, or an array. *)
Inductive slot := Missing | NoneValue | Value (a : arr).
Record obj := Obj { filename : option string; mesh : option (list nat); data : slot; derived : option arr; z : option T }.
Definition fresh : obj := Obj None None Missing None None.
Definition disk := string -> option file.

(** [factor n]: multiplication by the density unit for [mesh_x = n] (54, 95); [velocity t]: by [conv.velconvert(z=t)] (vel_file.py:67);
    [redshift k name]: the number in the file name, -1 if there is none; [f32]: rounding to single precision. *)
Context (factor : nat -> V -> V) (velocity : T -> V -> V) (redshift : kind -> string -> T) (f32 : V -> V) (writable : string -> bool).
Definition product (l : list nat) : nat := fold_right Nat.mul 1 l.
Definition shape (k : kind) (m : list nat) : list nat := match k with Velocity => 3 :: m | _ => m end.
Definition scaled (a : arr) : arr := Arr (dims a) (map (factor (hd 0 (dims a))) (vals a)).

(** [read_from_file] (35-72; 158-183; vel_file.py:36-70): the attributes are assigned one by one. *)
Definition read (k : kind) (d : disk) (o : obj) (name : string) : result * obj :=
  match d name with
  | None => (Raised "FileNotFoundError", Obj (Some name) (mesh o) (data o) (derived o) (z o))
  | Some f =>
      match head f with
      | None => (Raised "ValueError", Obj (Some name) (mesh o) (data o) (derived o) (z o))
      | Some m =>
          let flat := Arr [length (body f)] (body f) in
          if length (body f) =? product (shape k m) then
            let a := Arr (shape k m) (body f) in
            let t := redshift k name in
            match k with
            | Density => (Returned, Obj (Some name) (Some m) (Value a) (Some (scaled a)) (Some t))
            | Clumping =>
                if length (body f) =? 0 then (Raised "ValueError", Obj (Some name) (Some m) (Value a) (derived o) (z o)) (* np.min of nothing *)
                else (Returned, Obj (Some name) (Some m) (Value a) (derived o) (Some t))
            | Velocity => (Returned, Obj (Some name) (Some m) (Value a) (Some (Arr (dims a) (map (velocity t) (vals a)))) (Some t))
            end
          else (Raised "ValueError", Obj (Some name) (Some m) (Value flat) (derived o) (z o))
      end
  end.
(** The constructor: None and the empty string read nothing; no object if reading raises. *)
Definition construct (k : kind) (d : disk) (name : option string) : result * option obj :=
  match name with
  | None | Some EmptyString => (Returned, Some fresh)
  | Some n => match read k d fresh n with (Returned, o) => (Returned, Some o) | (Raised e, _) => (Raised e, None) end
  end.

Definition store (d : disk) (name : string) (f : file) : disk := fun n => if String.eqb n name then Some f else d n.
Definition contents (m : list nat) (a : arr) : file := File (Some m) (map f32 (vals a)).
Definition empty_file : file := File None [].
Definition mesh_of (k : kind) (a : arr) : option (list nat) :=
  match k, dims a with
  | Velocity, 3 :: [x; y; w] => Some [x; y; w]
  | Velocity, _ => None
  | _, [x; y; w] => Some [x; y; w]
  | _, _ => None
  end.
(** Which shapes leave the mesh as it is, with a warning (203-206; vel_file.py:94-97). *)
Definition keeps_mesh (k : kind) (a : arr) : bool :=
  match k, dims a with
  | Velocity, 3 :: _ => false
  | Velocity, _ => true
  | _, [] => true
  | _, _ => false
  end.
(** [ClumpingFile.write_to_file] (186-220) and [VelocityFile.write_to_file] (72-106). Errors after [open] are caught and printed; the file has been emptied. *)
Definition write_plain (k : kind) (d : disk) (o : obj) (name : string) (given : option arr) : result * obj * disk :=
  match given with
  | None => (Returned, Obj (filename o) (mesh o) NoneValue (derived o) (z o), d)
  | Some a =>
      let put m f := (Returned, Obj (Some name) m (Value a) (derived o) (z o), f) in
      if negb (writable name) then put (mesh o) d
      else if keeps_mesh k a then
        match mesh o with Some m => put (Some m) (store d name (contents m a)) | None => put None (store d name empty_file) end
      else match mesh_of k a with
      | Some m => put (Some m) (store d name (contents m a))
      | None => put (mesh o) (store d name empty_file)
      end
  end.
(** [DensityFile.write_to_file] (74-126): the shape is taken apart before the file is opened; [self.conv_factor] does not exist (101). *)
Definition write_density (d : disk) (o : obj) (name : string) (raw cgs : option arr) : result * obj * disk :=
  match raw, cgs with
  | None, None => (Raised "AssertionError", o, d)
  | _, _ =>
      let after_raw := match raw with
        | None => (Returned, o)
        | Some a => match mesh_of Density a with
          | None => (Raised "ValueError", Obj (filename o) (mesh o) (Value a) (derived o) (z o))
          | Some m => (Returned, Obj (filename o) (Some m) (Value a) (Some (scaled a)) (z o))
          end
        end in
      match after_raw with
      | (Raised e, o1) => (Raised e, o1, d)
      | (Returned, o1) =>
          match cgs with
          | Some c => match mesh_of Density c with
            | None => (Raised "ValueError", Obj (filename o1) (mesh o1) (data o1) (Some c) (z o1), d)
            | Some m => (Raised "AttributeError", Obj (filename o1) (Some m) (data o1) (Some c) (z o1), d)
            end
          | None =>
              match raw with
              | Some a => (Returned, Obj (Some name) (mesh o1) (data o1) (derived o1) (z o1),
                           if writable name then match mesh_of Density a with Some m => store d name (contents m a) | None => d end else d)
              | None => (Returned, o1, d)
              end
          end
      end
  end.
Inductive op := Read (name : string) | Write (name : string) (raw cgs : option arr).
(** One call on the object; the caller catches what it raises. [cgs] exists for densities only. *)
Definition step (k : kind) (s : obj * disk) (p : op) : result * (obj * disk) :=
  match p with
  | Read n => let (r, o) := read k (snd s) (fst s) n in (r, (o, snd s))
  | Write n raw cgs =>
      let '(r, o, d) := match k with Density => write_density (snd s) (fst s) n raw cgs | _ => write_plain k (snd s) (fst s) n raw end in (r, (o, d))
  end.
Definition run (k : kind) (s : obj * disk) (ps : list op) : obj * disk := fold_left (fun s p => snd (step k s p)) ps s.
End Obj.
Arguments arr : clear implicits.
Arguments file : clear implicits.
Arguments obj : clear implicits.
Arguments slot : clear implicits.
Arguments op : clear implicits.
Arguments disk : clear implicits.
