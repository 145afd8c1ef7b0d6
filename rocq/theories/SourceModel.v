(** Model of [SourceFile] (source_file.py). *)
From Coq Require Import List Arith ZArith Reals Bool.
From Verif Require Import SizeDistModel.
Import ListNotations.

Inductive token := TInt (z : Z) | TReal (x : R).
Inductive kind := Hm | Lm | Both.
(** One row of [sources_list]: position and the mass columns. *)
Record source := Src { sx : Z; sy : Z; sz : Z; masses : list R }.

(** [U] is [M_grid*solar_masses_per_gram]. [np.power(10, gridmass_to_msol(t))]: NaN
    ([None]) for negative values, zero for zero ([10**(-inf)]). *)
Definition read_mass (U t : R) : option R :=
  if Rlt_dec 0 (t * U) then Some (pow10 (log10 (t * U))) else if Req_EM_T (t * U) 0 then Some 0%R else None.
Definition as_int (t : token) : option Z := match t with TInt z => Some z | TReal _ => None end.
Definition as_float (t : token) : R := match t with TInt z => IZR z | TReal x => x end.
(** One row: a four-column list with a mass that may be NaN. *)
Record row := Row { rx : Z; ry : Z; rz : Z; rmass : option R }.
(** [text[idx_mass]], with [idx_mass] 3 or 4 (53-62); the list [[3,4]] is no index (a TypeError). *)
Definition mass_index (k : kind) : option nat := match k with Hm => Some 3 | Lm => Some 4 | Both => None end.
(** Lines 65-69. *)
Definition read_row (U : R) (k : kind) (text : list token) : option row :=
  match text with
  | a :: b :: c :: _ =>
      match as_int a, as_int b, as_int c, mass_index k with
      | Some x, Some y, Some z, Some m =>
          match nth_error text m with
          | Some t => Some (Row (x - 1) (y - 1) (z - 1) (read_mass U (as_float t)))
          | None => None
          end
      | _, _, _, _ => None
      end
  | _ => None
  end.
Fixpoint collect {A} (l : list (option A)) : option (list A) :=
  match l with
  | [] => Some []
  | Some a :: r => match collect r with Some s => Some (a :: s) | None => None end
  | None :: _ => None
  end.
(** [read_from_file] (48-69): [int(lines[0].split()[0])] sources, source i on line [2*i+1]. *)
Definition read_sources (U : R) (k : kind) (lines : list (list token)) : option (list row) :=
  match lines with
  | (TInt n :: _) :: _ =>
      collect (map (fun i => match nth_error lines (2 * i + 1) with Some t => read_row U k t | None => None end)
                   (seq 0 (Z.to_nat n)))
  | _ => None
  end.

(** [grid_sources] (80-88). NumPy indexing wraps negative indices once and raises outside. *)
Definition norm (mesh i : Z) : option Z :=
  if ((0 <=? i) && (i <? mesh))%Z then Some i else if ((- mesh <=? i) && (i <? 0))%Z then Some (i + mesh)%Z else None.
Definition cell := (Z * Z * Z)%type.
Definition cell_of (mesh : Z) (r : row) : option cell :=
  match norm mesh (rx r), norm mesh (ry r), norm mesh (rz r) with
  | Some a, Some b, Some c => Some (a, b, c)
  | _, _, _ => None
  end.
Definition cell_eqb (a b : cell) : bool :=
  match a, b with (a1, a2, a3), (b1, b2, b3) => (Z.eqb a1 b1 && Z.eqb a2 b2 && Z.eqb a3 b3)%bool end.
Definition field := cell -> option R.
Definition zeros : field := fun _ => Some 0%R.
Definition put (f : field) (c : cell) (v : option R) : field := fun d => if cell_eqb d c then v else f d.
Fixpoint grid_loop (mesh : Z) (rs : list row) (f : field) : option field :=
  match rs with
  | [] => Some f
  | r :: rest => match cell_of mesh r with Some c => grid_loop mesh rest (put f c (rmass r)) | None => None end
  end.
Definition grid_sources (mesh : Z) (rs : list row) : option field := grid_loop mesh rs zeros.

(** [write_to_file] (103-160): the file left behind. [rnd] is the rounding of ["%.6f"]. A
    row with the wrong number of columns ends the loop (the exception is printed); an empty
    list writes no file. *)
Definition mass_to_write (k : kind) (s : source) : option R :=
  match masses s with
  | [a; b] => Some (match k with Lm => b | _ => a end)
  | [a] => Some a
  | _ => None
  end.
Definition log_mass (U m : R) : R := if Rlt_dec 0 m then log10 (m * U) else (-99)%R.
Fixpoint write_rows (rnd : R -> R) (U : R) (k : kind) (ss : list source) : list (list token) :=
  match ss with
  | [] => []
  | s :: rest =>
      match mass_to_write k s with
      | Some m => [TInt (sx s + 1); TInt (sy s + 1); TInt (sz s + 1); TReal (rnd (log_mass U m))] :: [] :: write_rows rnd U k rest
      | None => []
      end
  end.
Definition write_sources (rnd : R -> R) (U : R) (k : kind) (ss : list source) : option (list (list token)) :=
  match ss with
  | [] => None
  | _ => Some ([TInt (Z.of_nat (length ss)); TReal 0] :: write_rows rnd U k ss)
  end.
