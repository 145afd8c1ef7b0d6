(** [plot_2d_power] (power_spect_fast.py:283-333): which numbers are drawn where, on which axes, and what is
    returned. Values are finite real numbers. A sequence of drawing calls stands for the effect on matplotlib;
    how matplotlib renders them, and keyword arguments handed on to it, are not modelled. *)
From Coq Require Import String List Bool ZArith Reals.
From Verif Require Import CallModel.
Import ListNotations.
Local Open Scope string_scope.
Local Open Scope bool_scope.

(** The entries of [ps]: a table, a list of wavenumbers or a string (a key of a dictionary). *)
Inductive entry := Table (p : list (list R)) | Vector (k : list R) | Text (s : string).
(** [ps]: dictionary or sequence. *)
Inductive spectrum := Dict (d : list (string * entry)) | Sequence (l : list entry).
Fixpoint get {V} (d : list (string * V)) (k : string) : option V :=
  match d with [] => None | (k', v) :: d' => if String.eqb k' k then Some v else get d' k end.
Definition three {V} (l : list V) : outcome (V * V * V) :=
  match l with [a; b; c] => Returned (a, b, c) | _ => Raised "ValueError" end.
(** Lines 306-307: the three keys; after any exception the unpacking of [ps] itself, which for a dictionary
    gives its keys. *)
Definition unpack (ps : spectrum) : outcome (entry * entry * entry) :=
  match ps with
  | Dict d => match get d "Pk", get d "kper", get d "kpar" with
              | Some p, Some x, Some y => Returned (p, x, y)
              | _, _, _ => three (map (fun kv => Text (fst kv)) d)
              end
  | Sequence l => three l
  end.

(** Sorting by the first component, stable (numpy [argsort] with mergesort in scipy's [interp2d]). *)
Fixpoint insert_at {A} (p : R * A) (l : list (R * A)) : list (R * A) :=
  match l with [] => [p] | q :: l' => if Rle_dec (fst p) (fst q) then p :: l else q :: insert_at p l' end.
Fixpoint by_first {A} (l : list (R * A)) : list (R * A) := match l with [] => [] | p :: l' => insert_at p (by_first l') end.
(** numpy [sort]. *)
Definition sorted (xs : list R) : list R := map fst (by_first (combine xs xs)).
(** Linear interpolation between neighbouring knots in increasing order. *)
Fixpoint lin (l : list (R * R)) (x : R) : R :=
  match l with
  | [] => 0%R
  | [(_, y)] => y
  | (x0, y0) :: (((x1, y1) :: _) as rest) => if Rle_dec x x1 then (y0 + (x - x0) * ((y1 - y0) / (x1 - x0)))%R else lin rest x
  end.
(** [scipy.interpolate.interp2d(kper, kpar, pp.T, kind='linear')] (line 308) on a full table: knots are sorted
    along each axis with their values; at least two different knots are needed on each axis, and repeated
    knots are refused. [available]: scipy still has it (removed in 1.14). Scattered data are not modelled:
    tables of another shape are refused here. *)
Definition shaped (p : list (list R)) (kper kpar : list R) : bool :=
  Nat.eqb (length p) (length kper) && forallb (fun row => Nat.eqb (length row) (length kpar)) p.
Fixpoint rising (l : list R) : bool :=
  match l with a :: ((b :: _) as rest) => (if Rlt_dec a b then true else false) && rising rest | _ => true end.
Definition knots (xs : list R) : bool := Nat.leb 2 (length xs) && rising (sorted xs).
Definition interp2d (available : bool) (kper kpar : list R) (p : list (list R)) : outcome (R -> R -> R) :=
  if available then
    if shaped p kper kpar && knots kper && knots kpar then
      Returned (fun x y => lin (map (fun col => (fst col, lin (by_first (combine kpar (snd col))) y)) (by_first (combine kper p))) x)
    else Raised "ValueError"
  else Raised "NotImplementedError".
(** The interpolator called with two lists: sorts them, and returns one row for each y. *)
Definition on_grid (f : R -> R -> R) (xs ys : list R) : list (list R) := map (fun y => map (fun x => f x y) (sorted xs)) (sorted ys).

Inductive drawing (axes : Type) :=
| Mesh (a : axes) (xs ys : list R) (colours : list (list R)) (range : option (R * R))
| Line (a : axes) (xs ys : list R)
| Colorbar (a : axes) (label : string)
| XLabel (a : axes) (s : string) | YLabel (a : axes) (s : string)
| XScale (a : axes) (s : string) | YScale (a : axes) (s : string).
Arguments Mesh {axes}. Arguments Line {axes}. Arguments Colorbar {axes}. Arguments XLabel {axes}. Arguments YLabel {axes}.
Arguments XScale {axes}. Arguments YScale {axes}.

(** Lines 310-315: [fig] as the list of its axes, [fresh] the axes of a new figure. *)
Definition chosen_axes {axes} (fresh : axes) (fig : option (list axes)) (ax : option axes) : outcome axes :=
  match fig, ax with
  | None, None => Returned fresh
  | None, Some a => Returned a
  | Some l, _ => match l with a :: _ => Returned a | [] => Raised "IndexError" end
  end.
(** Lines 321-322. *)
Definition extremes (c : list (list R)) : option (R * R) :=
  match concat c with [] => None | v :: vs => Some (fold_left Rmin vs v, fold_left Rmax vs v) end.

Section Draw.
  Context {axes : Type}.
  Variables (available : bool) (fresh : axes) (wedge : R -> R -> R -> R).
  (** Lines 324-327: the wedge, after the mesh; [horizon_wedge_equation] (334-347) gives a function that looks
      up [smoothing.hubble_parameter] (CallModel.v). The limits set at line 327 are not modelled. *)
  Definition draw_line (a : axes) (xs : list R) (draw_wedge : option (list (string * R))) : outcome (list (drawing axes)) :=
    match draw_wedge with
    | None => Returned []
    | Some d =>
        match get d "z", get d "fov_deg" with
        | Some z, Some fov =>
            match attribute smoothing_names "hubble_parameter" (Returned (map (wedge z fov) xs)) with
            | Returned ys => Returned [Line a xs ys]
            | Raised e => Raised e
            end
        | _, _ => Raised "KeyError"
        end
    end.
  (** Lines 329-333. *)
  Definition finish (a : axes) (xlabel ylabel ps_label : string) (scale : list (string * string)) (done : list (drawing axes)) : list (drawing axes) * outcome Z :=
    let done := (done ++ [Colorbar a ps_label; XLabel a xlabel; YLabel a ylabel])%list in
    match get scale "x" with
    | None => (done, Raised "KeyError")
    | Some sx =>
        let done := (done ++ [XScale a sx])%list in
        match get scale "y" with
        | None => (done, Raised "KeyError")
        | Some sy => ((done ++ [YScale a sy])%list, Returned 1%Z)
        end
    end.
  (** [plot_2d_power] (power_spect_fast.py:283-333). *)
  Definition plot_2d_power (ps : spectrum) (xlabel ylabel ps_label : string) (fig : option (list axes)) (ax : option axes)
      (scale : list (string * string)) (draw_wedge : option (list (string * R))) : list (drawing axes) * outcome Z :=
    match unpack ps with
    | Raised e => ([], Raised e)
    | Returned (Table p, Vector kper, Vector kpar) =>
        match interp2d available kper kpar p with
        | Raised e => ([], Raised e)
        | Returned f =>
            match chosen_axes fresh fig ax with
            | Raised e => ([], Raised e)
            | Returned a =>
                let c := on_grid f kper kpar in
                match get scale "z" with
                | None => ([], Raised "KeyError")
                | Some sz =>
                    let mesh := Mesh a kper kpar c (if String.eqb sz "log" then extremes c else None) in
                    match draw_line a kper draw_wedge with
                    | Raised e => ([mesh], Raised e)
                    | Returned lines => finish a xlabel ylabel ps_label scale (mesh :: lines)
                    end
                end
            end
        end
    | Returned (Text _, _, _) => ([], Raised "AttributeError")
    | Returned _ => ([], Raised "ValueError")
    end.
End Draw.
