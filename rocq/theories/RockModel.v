(** Rockstar halo catalogues: [HaloRockstar] (halo_list.py:23-129). A file is its lines, a line its
    whitespace-separated words. [float : string -> option Q] is Python's [float], with rationals for
    floats; [None] is a word that it refuses. *)
From Coq Require Import String Ascii.
From Coq Require Import List Arith ZArith QArith Qround Bool.
From Verif Require Import QLib PyBase.
Import ListNotations.
Local Open Scope string_scope. Local Open Scope nat_scope.

Definition words : Type := list string.
Inductive outcome (A : Type) := Returned (a : A) | Raised (e : string).
Arguments Returned {A} _. Arguments Raised {A} _.
Definition bind {A B} (x : outcome A) (f : A -> outcome B) : outcome B := match x with Returned a => f a | Raised e => Raised e end.
Notation "'do' x <- e1 ; e2" := (bind e1 (fun x => e2)) (at level 200, x pattern, e1 at level 100, e2 at level 200).

(** [s[s.rfind('.')+1:]] (line 62): what follows the last dot, all of [s] without a dot. *)
Fixpoint extension (s : string) : string :=
  match s with
  | EmptyString => EmptyString
  | String c r => if existsb (Ascii.eqb "."%char) (list_ascii_of_string r) then extension r
                  else if Ascii.eqb "."%char c then r else s
  end.
(** [header.index(name)]: the first place, ValueError without one. *)
Fixpoint index (name : string) (header : words) : outcome nat :=
  match header with
  | [] => Raised "ValueError"
  | w :: r => if String.eqb w name then Returned 0 else do i <- index name r; Returned (S i)
  end.
(** Python's [word[:-1]]. *)
Fixpoint chop (s : string) : string :=
  match s with EmptyString => EmptyString | String _ EmptyString => EmptyString | String c r => String c (chop r) end.

(** Where things are (lines 61-84). *)
Record layout := Layout { i_pos : nat; i_vel : nat; i_l : nat; i_vrms : nat; i_r : nat; i_m : nat;
                          n_cosm : nat; n_part : nat; n_vals : nat }.
Definition columns (pos vel l vrms r m : string) (c p v : nat) (header : words) : outcome layout :=
  do a <- index pos header; do b <- index vel header; do d <- index l header; do e <- index vrms header;
  do f <- index r header; do g <- index m header; Returned (Layout a b d e f g c p v).
(** The error of line 84 is made but not raised: the names stay unbound. *)
Definition read_header (filename mass_def : string) (header : words) : outcome (option layout) :=
  if String.eqb (extension filename) "list" then
    do y <- columns "X" "VX" "JX" "Vrms" (append "R" mass_def) (append "M" mass_def) 2 5 15 header; Returned (Some y)
  else if String.eqb (extension filename) "ascii" then
    do y <- columns "x" "vx" "Jx" "vrms" (append "r" mass_def) (append "m" mass_def) 3 6 19 header; Returned (Some y)
  else Returned None.

(** The attributes of a halo that the reader sets (lines 99-107); [pos_cm] is the same array as [pos]. *)
Record halo := Halo { pos : list Q; vel : list Q; ang : list Q; vel_disp : Q; radius : Q; mass : Q; particles : Z }.
(** The object: [None] for an attribute that is not there yet. *)
Record catalogue := Catalogue { z : option Q; cosmology : option (Q * Q * Q); part_mass : option Q; halos : list halo }.

Section Reader.
  Variable float : string -> option Q.
  Definition number (w : option string) : outcome Q :=
    match w with
    | None => Raised "IndexError"
    | Some s => match float s with Some q => Returned q | None => Raised "ValueError" end
    end.
  (** [np.array(vals[i:i+3]).astype(float)]: a slice may be short. *)
  Fixpoint numbers (ws : words) : outcome (list Q) :=
    match ws with [] => Returned [] | w :: r => do q <- number (Some w); do qs <- numbers r; Returned (q :: qs) end.
  Definition vector (i : nat) (ws : words) : outcome (list Q) := numbers (firstn 3 (skipn i ws)).
  Definition last_word (ws : words) : option string := nth_error ws (List.length ws - 1).

  (** Lines 97-107. *)
  Definition make_halo (y : layout) (pm : option Q) (ws : words) : outcome halo :=
    do p <- vector (i_pos y) ws; do v <- vector (i_vel y) ws; do l <- vector (i_l y) ws;
    do d <- number (nth_error ws (i_vrms y)); do r <- number (nth_error ws (i_r y)); do m <- number (nth_error ws (i_m y));
    match pm with
    | None => Raised "AttributeError"
    | Some q => if Qeq_bool q 0 then Raised "ZeroDivisionError" else Returned (Halo p v l d r m (round_half_even (m / q)))
    end.

  (** One line (lines 58-110): the new state, and whether the loop goes on. *)
  Definition step (filename mass_def : string) (max_number : Z) (n : nat) (ws : words) (s : catalogue * option layout)
    : outcome (catalogue * option layout * bool) :=
    let (c, y) := s in
    match n with
    | 0 => do y' <- read_header filename mass_def ws; Returned (c, y', true)
    | 1 => do a <- number (last_word ws);
           if Qeq_bool a 0 then Raised "ZeroDivisionError"
           else Returned (Catalogue (Some (1 / a - 1)%Q) (cosmology c) (part_mass c) (halos c), y, true)
    | _ =>
        match y with
        | None => Raised "UnboundLocalError"
        | Some y' =>
            if n =? n_cosm y' then
              do om <- number (option_map chop (nth_error ws 2)); do ol <- number (option_map chop (nth_error ws 5)); do h <- number (last_word ws);
              Returned (Catalogue (z c) (Some (om, ol, h)) (part_mass c) (halos c), y, true)
            else if n =? n_part y' then
              do m <- number (nth_error ws 2); Returned (Catalogue (z c) (cosmology c) (Some m) (halos c), y, true)
            else if n_vals y' <? n then
              if (max_number <? Z.of_nat (List.length (halos c)))%Z then
                do h <- make_halo y' (part_mass c) ws;
                Returned (Catalogue (z c) (cosmology c) (part_mass c) (halos c ++ [h])%list, y, true)
              else Returned (c, y, false)
            else Returned (c, y, true)
        end
    end.
  Fixpoint loop (filename mass_def : string) (max_number : Z) (n : nat) (lines : list words) (s : catalogue * option layout) : outcome catalogue :=
    match lines with
    | [] => Returned (fst s)
    | ws :: r =>
        do t <- step filename mass_def max_number n ws s;
        if snd t then loop filename mass_def max_number (S n) r (fst t) else Returned (fst (fst t))
    end.
  (** [HaloRockstar.read_from_file] (lines 39-113) on an object that may have been filled before; it
      returns True whenever it returns. What a call that raises leaves behind is not modelled. *)
  Definition read_from_file (mass_def filename : string) (max_number : Z) (lines : list words) (c : catalogue) : outcome catalogue :=
    loop filename mass_def max_number 0 lines (c, None).
  (** [HaloRockstar.__init__] (lines 29-37): [startline] is not passed on; an empty name reads nothing. *)
  Definition empty_catalogue : catalogue := Catalogue None None None [].
  Definition HaloRockstar (filename : option string) (mass_def : string) (max_number : Z) (startline : Z) (lines : list words) : outcome catalogue :=
    match filename with
    | Some f => if String.eqb f "" then Returned empty_catalogue else read_from_file mass_def f max_number lines empty_catalogue
    | None => Returned empty_catalogue
    end.
End Reader.

(** [get] (lines 115-129) for the arrays of numbers; an unknown name leaves [data] unbound. *)
Definition get_scalar (var : string) (c : catalogue) : outcome (list Q) :=
  if String.eqb var "m" then Returned (map mass (halos c))
  else if String.eqb var "r" then Returned (map radius (halos c))
  else if String.eqb var "vel_disp" then Returned (map vel_disp (halos c)) else Raised "UnboundLocalError".
Definition get_vector (var : string) (c : catalogue) : outcome (list (list Q)) :=
  if String.eqb var "pos" then Returned (map pos (halos c))
  else if String.eqb var "vel" then Returned (map vel (halos c))
  else if String.eqb var "l" then Returned (map ang (halos c))
  else if String.eqb var "pos_cm" then Returned (map pos (halos c)) else Raised "UnboundLocalError".
