(** Model of the binary cube files: [read_cbin], [save_cbin], [read_raw_binary],
    [save_raw_binary], [get_mesh_size] (helper_functions.py:162-262, 422-450),
    [DensityFile], [ClumpingFile] (density_file.py:35-126, 158-220),
    [XfracFile] (xfrac_file.py:36-135), [VelocityFile] (vel_file.py:36-106),
    [TemperFile] (temper_file.py:34-57) and [IonRateFile] (irate_file.py:34-62).

    A file is its list of bytes. Integers are little-endian int32. Floats are
    opaque: a [codec] gives the bytes of a value in a [width]-byte float type
    ([astype] + [tofile]) and the value of those bytes.
    Simplifications: little-endian machine; the wildcard -1 in [reshape] is not
    modelled (a negative dimension raises); the conversion to cgs and the redshift
    in the file name are left out. *)
From Coq Require Import List Arith ZArith QArith Lia Bool.
Import ListNotations.
Local Open Scope nat_scope.

Definition byte := Z.

(** ** n-dimensional arrays (numpy) *)

(** An array: a shape and a total function, meaningful on in-range indices. *)
Record array (V : Type) := Arr { shape : list nat; get : list nat -> V }.
Arguments Arr {V}. Arguments shape {V}. Arguments get {V}.

Definition prod (s : list nat) : nat := fold_right Nat.mul 1 s.

(** All indices in C order (last index fastest). *)
Fixpoint indices (s : list nat) : list (list nat) :=
  match s with
  | [] => [[]]
  | n :: s' => flat_map (fun i => map (cons i) (indices s')) (seq 0 n)
  end.

(** Position of an index in C order. *)
Fixpoint ravel (s ix : list nat) : nat :=
  match s, ix with
  | n :: s', i :: ix' => i * prod s' + ravel s' ix'
  | _, _ => 0
  end.

Inductive order := OC | OF.

(** [a.T]: axes reversed. *)
Definition transpose {V} (a : array V) : array V :=
  {| shape := rev (shape a); get := fun ix => get a (rev ix) |}.

(** [a.flatten(order)]: Fortran order is C order of the transpose. *)
Definition flatten {V} (o : order) (a : array V) : list V :=
  match o with
  | OC => map (get a) (indices (shape a))
  | OF => map (get (transpose a)) (indices (shape (transpose a)))
  end.

(** [flat.reshape(shape, order)]; [None] is the ValueError. *)
Definition reshape {V} (d : V) (o : order) (s : list nat) (flat : list V) : option (array V) :=
  if Nat.eqb (length flat) (prod s) then
    Some match o with
         | OC => {| shape := s; get := fun ix => nth (ravel s ix) flat d |}
         | OF => {| shape := s; get := fun ix => nth (ravel (rev s) (rev ix)) flat d |}
         end
  else None.

(** Dimensions read from a file header are Python ints; a negative one makes
    [reshape] raise. *)
Definition nat_dims (s : list Z) : option (list nat) :=
  if forallb (fun z => Z.leb 0 z) s then Some (map Z.to_nat s) else None.

Definition reshapeZ {V} (d : V) (o : order) (s : list Z) (flat : list V) : option (array V) :=
  match nat_dims s with Some s' => reshape d o s' flat | None => None end.

(** ** Bytes *)

(** [w] little-endian bytes of a number. *)
Definition le_bytes (w : nat) (z : Z) : list byte :=
  map (fun k => ((z / 256 ^ Z.of_nat k) mod 256)%Z) (seq 0 w).
Fixpoint le_value (bs : list byte) : Z :=
  match bs with [] => 0%Z | b :: bs' => (b + 256 * le_value bs')%Z end.

(** int32: two's complement; [astype('int32')] wraps. *)
Definition wrap32 (z : Z) : Z :=
  let u := (z mod 2 ^ 32)%Z in if (u <? 2 ^ 31)%Z then u else (u - 2 ^ 32)%Z.
Definition int32_bytes (z : Z) : list byte := le_bytes 4 (z mod 2 ^ 32)%Z.
Definition int32_value (bs : list byte) : Z := wrap32 (le_value bs).

(** [np.fromfile(f, dtype, count)]: up to [n] whole items, and what is left. *)
Fixpoint take_items (w n : nat) (bs : list byte) : list (list byte) * list byte :=
  match n with
  | 0 => ([], bs)
  | S n' => if length bs <? w then ([], bs)
            else let '(is, r) := take_items w n' (skipn w bs) in (firstn w bs :: is, r)
  end.
(** [count=-1] (and any negative count): as many whole items as there are. *)
Definition fromfile (w : nat) (count : Z) (bs : list byte) : list (list byte) * list byte :=
  if (count <? 0)%Z then take_items w (length bs / w) bs else take_items w (Z.to_nat count) bs.
Definition read_ints (n : nat) (bs : list byte) : list Z * list byte :=
  let '(is, r) := fromfile 4 (Z.of_nat n) bs in (map int32_value is, r).

(** A float type: its width in bytes and the conversions of a value. *)
Record codec (V : Type) := Codec {
  width : nat;
  enc : V -> list byte;
  dec : list byte -> V;
  dflt : V
}.
Arguments width {V}. Arguments enc {V}. Arguments dec {V}. Arguments dflt {V}.

(** [a.astype(dtype).tofile(f)] of flattened values. *)
Definition tofile {V} (c : codec V) (l : list V) : list byte := concat (map (enc c) l).
Definition read_floats {V} (c : codec V) (count : Z) (bs : list byte) : list V :=
  map (dec c) (fst (fromfile (width c) count bs)).

Definition zdims (s : list nat) : list Z := map Z.of_nat s.

(** ** Generic files (helper_functions.py) *)

(** [save_cbin] (242-262): the shape as int32, then the flattened data. *)
Definition save_cbin {V} (c : codec V) (o : order) (a : array V) : list byte :=
  concat (map int32_bytes (zdims (shape a))) ++ tofile c (flatten o a).

(** [read_cbin] (162-192). [np.prod] of an int32 array is an int64. *)
Definition read_cbin {V} (c : codec V) (o : order) (dimensions : nat) (records : bool)
           (bs : list byte) : option (array V) :=
  let '(header, rest) := read_ints (if records then dimensions + 3 else dimensions) bs in
  let mesh := if records then firstn 3 (skipn 1 header) else firstn 3 header in
  reshapeZ (dflt c) o mesh (read_floats c (fold_right Z.mul 1%Z mesh) rest).

(** [save_raw_binary] (223-239). *)
Definition save_raw_binary {V} (c : codec V) (o : order) (a : array V) : list byte :=
  tofile c (flatten o a).

(** [round(len**(1/3))] with an exact cube root: the number of k in 1..len with
    k - 1/2 <= cbrt(len). *)
Definition round_cbrt (len : nat) : nat :=
  length (filter (fun k => (2 * k - 1) * (2 * k - 1) * (2 * k - 1) <=? 8 * len) (seq 1 len)).

(** [read_raw_binary] (195-220). *)
Definition read_raw_binary {V} (c : codec V) (o : order) (bs : list byte) : option (array V) :=
  let data := read_floats c (-1) bs in
  let n := round_cbrt (length data) in
  reshape (dflt c) o [n; n; n] data.

(** ** Simulation files *)

(** [DensityFile.read_from_file] (density_file.py:35-52), and with
    [old_format = false] [ClumpingFile.read_from_file] (158-169). *)
Definition read_density {V} (c : codec V) (old_format : bool) (bs : list byte) : option (array V) :=
  if old_format then reshape (dflt c) OF [203; 203; 203] (read_floats c (-1) bs)
  else
    let '(m, rest) := read_ints 3 bs in
    if Nat.eqb (length m) 3 then reshapeZ (dflt c) OF m (read_floats c (-1) rest) else None.

(** [DensityFile.write_to_file] (density_file.py:74-126) on a fresh object.
    Unpacking a shape that is not 3-D raises before the file is opened; so does the
    cgs branch, which uses the attribute [self.conv_factor] that is never set (99). *)
Definition write_density {V} (c : codec V) (raw cgs : option (array V)) (old_format : bool)
  : option (list byte) :=
  match raw, cgs with
  | None, None => None
  | _, Some _ => None
  | Some a, None =>
      if Nat.eqb (length (shape a)) 3 then
        Some ((if old_format then [] else concat (map int32_bytes (zdims (shape a))))
              ++ tofile c (flatten OC (transpose a)))
      else None
  end.

(** [ClumpingFile.write_to_file] (density_file.py:186-220): the same layout. The whole
    body is in try/except: a shape that is not 3-D leaves an empty file. *)
Definition write_clumping {V} (c : codec V) (a : array V) : list byte :=
  if Nat.eqb (length (shape a)) 3 then
    concat (map int32_bytes (zdims (shape a))) ++ tofile c (flatten OC (transpose a))
  else [].

(** [XfracFile.read_from_file] (xfrac_file.py:50-66). [c32], [c64]: the two float types. *)
Definition read_xfrac (c32 c64 : codec Q) (old_format neutral binary_format : bool)
           (bs : list byte) : option (array Q) :=
  let '(m, rest) := read_ints (if binary_format then 3 else 6) bs in
  let mesh := if binary_format then m else firstn 3 (skipn 1 m) in
  if Nat.eqb (length mesh) 3 then
    let c := if old_format then c32 else c64 in
    match reshapeZ (dflt c) OF mesh (read_floats c (-1) rest) with
    | Some a => Some (if neutral then {| shape := shape a; get := fun ix => (1 - get a ix)%Q |} else a)
    | None => None
    end
  else None.

(** [XfracFile.write_to_file] (xfrac_file.py:96-132). The unshaped (0-d) case writes
    a zero mesh; any other number of dimensions raises on unpacking. *)
Definition write_xfrac (c32 c64 : codec Q) (old_format neutral binary_format : bool)
           (xi : array Q) : option (list byte) :=
  let c := if old_format then c32 else c64 in
  let mesh := match shape xi with
              | [] => Some [0; 0; 0]%Z
              | [_; _; _] => Some (zdims (shape xi))
              | _ => None
              end in
  match mesh with
  | None => None
  | Some m =>
      let head := if binary_format then m else ([0%Z] ++ m ++ [0; 0]%Z) in
      let data := if neutral then {| shape := shape xi; get := fun ix => (1 - get xi ix)%Q |} else xi in
      Some (concat (map int32_bytes head) ++ tofile c (flatten OC (transpose data)))
  end.

(** [VelocityFile.read_from_file] (vel_file.py:50-55). *)
Definition read_velocity {V} (c : codec V) (bs : list byte) : option (array V) :=
  let '(m, rest) := read_ints 3 bs in
  if Nat.eqb (length m) 3 then reshapeZ (dflt c) OF (3%Z :: m) (read_floats c (-1) rest) else None.

(** [VelocityFile.write_to_file] (vel_file.py:83-106): the new file contents.
    [mesh] is the object's current mesh, if any. All errors are swallowed after
    the file has been truncated. *)
Definition write_velocity {V} (c : codec V) (mesh : option (list Z)) (a : array V) : list byte :=
  let dims := match shape a with
              | 3 :: s => if Nat.eqb (length s) 3 then Some (zdims s) else None
              | [] => mesh
              | _ => mesh
              end in
  match dims with
  | Some m => concat (map int32_bytes m) ++ tofile c (flatten OF a)
  | None => []
  end.

(** [TemperFile.read_from_file] (temper_file.py:46-57), and with [binary_format]
    [IonRateFile.read_from_file] (irate_file.py:46-61). [mesh_x*mesh_y*mesh_z] is a
    product of numpy int32 scalars, which wraps. With [old_format] the array
    stays one-dimensional. *)
Definition read_temper {V} (c : codec V) (old_format binary_format : bool) (bs : list byte)
  : option (array V) :=
  let '(m, rest) := read_ints (if binary_format then 3 else 6) bs in
  let mesh := if binary_format then m else firstn 3 (skipn 1 m) in
  match mesh with
  | [mx; my; mz] =>
      if old_format then
        let l := read_floats c (-1) rest in
        Some {| shape := [length l]; get := fun ix => nth (hd 0 ix) l (dflt c) |}
      else
        reshapeZ (dflt c) OF mesh (read_floats c (wrap32 (wrap32 (mx * my) * mz)) rest)
  | _ => None
  end.

(** [get_mesh_size] (helper_functions.py:422-450) for a file of the given type. *)
Inductive filetype := Fxfrac | Ftemper | Fdensity | Fcbin | Fdbt | Fother.
Definition get_mesh_size (t : filetype) (bs : list byte) : option (list Z) :=
  match t with
  | Fxfrac => Some (firstn 3 (skipn 1 (fst (read_ints 6 bs))))
  | Ftemper => Some (firstn 3 (skipn 1 (fst (read_ints 3 bs))))
  | Fdensity | Fcbin => Some (fst (read_ints 3 bs))
  | Fdbt => Some [250; 250; 250]%Z
  | Fother => None
  end.
