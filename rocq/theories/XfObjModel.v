(** [XfracFile] objects used more than once (xfrac_file.py:19-135): the attributes after any sequence of reads and writes. How a file's bytes
    give a mesh and numbers is a parameter (BinModel.v has it byte by byte); array values are listed in Fortran order. *)
From Coq Require Import String List Arith Bool.
Import ListNotations.
Local Open Scope nat_scope.

Inductive result := Returned | Raised (e : string).
Section Obj.
(** [V]: numbers; [T]: redshifts; [F]: contents of files. *)
Context {V T F : Type}.
Record arr := Arr { dims : list nat; vals : list V }.
(** The two format flags. *)
Record fmt := Fmt { old_format : bool; binary : bool }.
(** [xi] can be missing or, after writing None, the value None. *)
Inductive slot := Missing | NoneValue | Value (a : arr).
Record obj := Obj { filename : option string; mesh : option (list nat); xi : slot; z : option T }.
Definition fresh : obj := Obj None None Missing None.
Definition disk := string -> option F.
(** [header b f]: the three sizes, None if the file is too short for them; [body]: the numbers after them. [encode] is what writing produces
    (112-132), [empty] an emptied file. [complement v] is [1.0 - v]. [redshift] is the number in the file name or -1 (71-77). *)
Context (header : bool -> F -> option (list nat)) (body : fmt -> F -> list V) (encode : fmt -> list nat -> list V -> F) (empty : F)
        (complement : V -> V) (redshift : string -> T) (writable : string -> bool).
Definition product (l : list nat) : nat := fold_right Nat.mul 1 l.
Definition oriented (neutral : bool) (v : list V) : list V := if neutral then map complement v else v.

(** [read_from_file] (34-77): the attributes are assigned one by one. *)
Definition read (d : disk) (o : obj) (name : string) (q : fmt) (neutral : bool) : result * obj :=
  match d name with
  | None => (Raised "FileNotFoundError", Obj (Some name) (mesh o) (xi o) (z o))
  | Some f =>
      match header (binary q) f with
      | None => (Raised "ValueError", Obj (Some name) (mesh o) (xi o) (z o))
      | Some m =>
          let v := body q f in
          if length v =? product m then (Returned, Obj (Some name) (Some m) (Value (Arr m (oriented neutral v))) (Some (redshift name)))
          else (Raised "ValueError", Obj (Some name) (Some m) (Value (Arr [length v] v)) (z o))
      end
  end.
(** The constructor (31-32). *)
Definition construct (d : disk) (name : option string) (q : fmt) (neutral : bool) : result * option obj :=
  match name with
  | None | Some EmptyString => (Returned, Some fresh)
  | Some n => match read d fresh n q neutral with (Returned, o) => (Returned, Some o) | (Raised e, _) => (Raised e, None) end
  end.

Definition store (d : disk) (name : string) (f : F) : disk := fun n => if String.eqb n name then Some f else d n.
(** [write_to_file] (79-135). [self.xi] and [self.filename] are assigned first; then the file is opened, which empties it; then the shape is
    taken apart. An array without shape counts as 0 by 0 by 0. *)
Definition write (d : disk) (o : obj) (name : string) (given : option arr) (q : fmt) (neutral : bool) : result * obj * disk :=
  let x := match given with Some a => Value a | None => NoneValue end in
  if negb (writable name) then (Raised "OSError", Obj (Some name) (mesh o) x (z o), d)
  else match given with
  | None => (Raised "AttributeError", Obj (Some name) (mesh o) x (z o), store d name empty)
  | Some a =>
      match dims a with
      | [] => (Returned, Obj (Some name) (Some [0; 0; 0]) x (z o), store d name (encode q [0; 0; 0] (oriented neutral (vals a))))
      | [mx; my; mz] => (Returned, Obj (Some name) (Some [mx; my; mz]) x (z o), store d name (encode q [mx; my; mz] (oriented neutral (vals a))))
      | _ => (Raised "ValueError", Obj (Some name) (mesh o) x (z o), store d name empty)
      end
  end.
Inductive op := Read (name : string) (q : fmt) (neutral : bool) | Write (name : string) (given : option arr) (q : fmt) (neutral : bool).
(** One call on the object; the caller catches what it raises. *)
Definition step (s : obj * disk) (p : op) : result * (obj * disk) :=
  match p with
  | Read n q neutral => let (r, o) := read (snd s) (fst s) n q neutral in (r, (o, snd s))
  | Write n given q neutral => let '(r, o, d) := write (snd s) (fst s) n given q neutral in (r, (o, d))
  end.
Definition run (s : obj * disk) (ps : list op) : obj * disk := fold_left (fun s p => snd (step s p)) ps s.
End Obj.
Arguments arr : clear implicits.
Arguments obj : clear implicits.
Arguments slot : clear implicits.
Arguments op : clear implicits.
Arguments disk : clear implicits.
