(** Files of pkdgrav: nbody_pkdgrav.py:24-79, 113-162 and 229-255. A file of particles or haloes is its list of
    bytes (BinModel); a table of a power spectrum is its comment lines and its rows. Floats are opaque words. *)
From Coq Require Import String Ascii List Arith ZArith Reals Bool.
From Verif Require Import RLib BinModel PkdModel.
Import ListNotations.
Local Open Scope list_scope.

Inductive outcome (A : Type) := Returned (a : A) | Raised (e : string).
Arguments Returned {A}. Arguments Raised {A}.

(** * Particles *)
(** ['>i4']: the bytes in the other order. *)
Definition be_int (w : list byte) : Z := int32_value (rev w).
(** [np.fromfile] on an open file: a count that runs into the end of the file consumes the incomplete item too
    ([fread]); without a count (negative) only whole items are asked for. *)
Definition fromfile_at (w : nat) (count : Z) (bs : list byte) : list (list byte) * list byte :=
  let '(items, rest) := fromfile w count bs in
  if (count <? 0)%Z then (items, rest) else if (Z.of_nat (length items) <? count)%Z then (items, []) else (items, rest).
(** The words of a record: [n] words of four bytes. *)
Definition words (n : nat) (item : list byte) : list (list byte) := map (fun i => firstn 4 (skipn (4 * i) item)) (seq 0 n).
(** The header (56): an eight-byte float and six integers, 32 bytes. *)
Record header := Header { time : list byte; N : Z; Dims : Z; Ngas : Z; Ndark : Z; Nstar : Z; pad : Z }.
Definition header_of (item : list byte) : header :=
  let int i := be_int (firstn 4 (skipn (8 + 4 * i) item)) in
  Header (firstn 8 item) (int 0) (int 1) (int 2) (int 3) (int 4) (int 5).
(** Twelve columns for gas (57-58), nine for dark matter (59-60), eleven for stars (61-62). *)
Definition gas_words : nat := 12.
Definition dark_words : nat := 9.
Definition star_words : nat := 11.
Record particles := Particles { head : header; gas : list (list (list byte)); dark : list (list (list byte)); star : list (list (list byte)) }.
(** [read_particles] (54-79). [header[0]] of an empty array raises. *)
Definition read_particles (bs : list byte) : outcome particles :=
  let '(hs, r0) := fromfile_at 32 1 bs in
  match hs with
  | [] => Raised "IndexError"
  | h :: _ =>
      let hd := header_of h in
      let '(g, r1) := fromfile_at (4 * gas_words) (Ngas hd) r0 in
      let '(d, r2) := fromfile_at (4 * dark_words) (Ndark hd) r1 in
      let '(s, _) := fromfile_at (4 * star_words) (Nstar hd) r2 in
      Returned (Particles hd (map (words gas_words) g) (map (words dark_words) d) (map (words star_words) s))
  end.

(** * Haloes *)
(** The default record (138-157): the six fields of three or six words and those of one, 28 words; the five fields
    that are commented out would add 24 bytes. *)
Definition fof_words : nat := 28.
Definition rPot (r : list (list byte)) (j : nat) : list byte := nth j r [].
Definition rcom_ (r : list (list byte)) (j : nat) : list byte := nth (7 + j) r [].
Definition fMass (r : list (list byte)) : list byte := nth 24 r [].
(** [np.fromfile(filename, dtype=dtype)] (161). *)
Definition read_records (bs : list byte) : list (list (list byte)) := map (words fof_words) (fst (fromfile (4 * fof_words) (-1) bs)).
Section Floats.
(** The value of a float of four bytes. *)
Context (f4 : list byte -> R).
Definition fof_of (r : list (list byte)) : fof :=
  {| rpot := (f4 (rPot r 0), f4 (rPot r 1), f4 (rPot r 2)); rcom := (f4 (rcom_ r 0), f4 (rcom_ r 1), f4 (rcom_ r 2)); fmass := f4 (fMass r) |}.
(** [_read_fof_data] (113-162). *)
Definition read_fof_file (bs : list byte) : list fof := map fof_of (read_records bs).
End Floats.
(** [dLightSpeedSim] (24-52) and the factors (128-134); [z] missing counts as zero. *)
Definition light_speed_sim (box : R) : R := (86772079486362706 / 10000000000000) / box.
Definition vel_fac (box : R) (z : option R) : R := 299792458 / 1000 / light_speed_sim box * match z with Some z => 1 + z | None => 1 end.

(** * Power spectrum tables *)
(** [line.strip()]. *)
Definition is_space (c : ascii) : bool := let n := nat_of_ascii c in ((9 <=? n) && (n <=? 13) || (28 <=? n) && (n <=? 32))%bool.
Fixpoint lstrip (s : string) : string := match s with EmptyString => s | String c r => if is_space c then lstrip r else s end.
Fixpoint rstrip (s : string) : string :=
  match s with
  | EmptyString => s
  | String c r => match rstrip r with EmptyString => if is_space c then EmptyString else String c EmptyString | t => String c t end
  end.
Definition strip (s : string) : string := rstrip (lstrip s).
(** [line.split('z=')[-1]] of a line that contains ['z=']. *)
Fixpoint after_last (s : string) : option string :=
  match s with
  | EmptyString => None
  | String c r => match after_last r with Some t => Some t | None => if prefix "z=" s then Some (substring 1 (String.length r - 1) r) else None end
  end.
(** The lines that start with a hash (237-238). *)
Definition comments (lines : list string) : list string := map strip (filter (prefix "#") lines).
(** The loop (240-243): the redshift of the last line that has one; a text that is not a number raises. *)
Fixpoint redshift (parse : string -> option R) (z : option R) (lines : list string) : outcome (option R) :=
  match lines with
  | [] => Returned z
  | l :: r => match after_last l with
              | None => redshift parse z r
              | Some t => match parse t with Some v => redshift parse (Some v) r | None => Raised "ValueError" end
              end
  end.
Local Open Scope R_scope.
Definition log10 (x : R) : R := ln x / ln 10.
(** [rolling(window=w, min_periods=1).mean()] (253). *)
Definition window_mean (w : nat) (l : list R) (i : nat) : R :=
  let lo := (S i - w)%nat in let part := firstn (S i - lo) (skipn lo l) in rsum part / INR (length part).
Definition rolling (w : nat) (l : list R) : list R := map (window_mean w l) (seq 0 (length l)).
Definition smooth (w : nat) (pp : list R) : list R := map (fun y => Rpower 10 y) (rolling w (map log10 pp)).
Record pk := Pk { stored_k : list R; stored_P : list R; stored_z : option R; stored_header : list string; k_out : list R; P_out : list R }.
(** [read_pk_data] (229-255). [spline] stands for [splrep] and [splev] on the logarithms (247-249). One row or none makes an
    array of one dimension. *)
Definition read_pk (parse : string -> option R) (spline : list R -> list R -> list R -> list R) (lines : list string) (rows : list (R * R)) (ks : option (list R)) (window : option nat) : outcome pk :=
  if (length rows <? 2)%nat then Raised "IndexError"
  else
    let kk := map fst rows in
    let pp := map snd rows in
    match redshift parse None (comments lines) with
    | Raised e => Raised e
    | Returned z =>
        let kk' := match ks with Some k => k | None => kk end in
        let pp' := match ks with Some k => map (fun y => Rpower 10 y) (spline (map log10 kk) (map log10 pp) (map log10 k)) | None => pp end in
        match window with
        | None => Returned (Pk kk pp z (comments lines) kk' pp')
        | Some O => Raised "ValueError"  (* [min_periods] above the window *)
        | Some w => Returned (Pk kk pp z (comments lines) kk' (smooth w pp'))
        end
    end.
