(** Model of [plot_triangle] (plotting.py:169-263) with the loop of [print_chain_stats] (138-167) it starts with, and of [_plot_getdist_backend]
    (457-481): which calls reach the plotting packages, with which arguments, and what is left in the caller's dictionary of weights. *)
From Coq Require Import String List Arith Reals Bool Ascii.
From Verif Require Import RLib DiagModel WindowModel.
Import ListNotations.
Local Open Scope string_scope.

(** A chain is its name and its number of parameters (columns); every chain has at least one row, and its weights, floats, one per row.
    Values are left out: they are passed on as they are, as are further keyword arguments. Errors raised inside the packages are not modelled. *)
Definition chains := list (string * nat).
Definition weights := list (string * list R).
Fixpoint lookup {A} (n : string) (d : list (string * A)) : option A := match d with [] => None | (m, x) :: r => if String.eqb n m then Some x else lookup n r end.
(** [weights /= np.sum(weights)] on the caller's array (147). *)
Definition rescale (n : string) (d : weights) : weights := map (fun e => if String.eqb n (fst e) then (fst e, normalise (snd e)) else e) d.
Inductive result (A : Type) := Done (a : A) | Error (e : string).
Arguments Done {A}. Arguments Error {A}.
(** The loop over the chains (142-167). [names]: [param_names]. An empty dictionary counts as none. *)
Fixpoint stats_loop (cs : chains) (ws : weights) (names : option (list string)) : result unit * weights :=
  match cs with
  | [] => (Done tt, ws)
  | (n, cols) :: r =>
      if match ws with [] => false | _ => match lookup n ws with None => true | _ => false end end then (Error "KeyError", ws)
      else
        let ws' := rescale n ws in
        match names with
        | None => (Error "TypeError", ws')
        | Some l => if Nat.ltb cols (length l) then (Error "IndexError", ws') else stats_loop r ws' names
        end
  end.

(** [colors]: a dictionary, or one colour for all chains ([None] by default). *)
Inductive colours := Each (d : list (string * string)) | Same (c : option string).
Definition colour (cs : colours) (n : string) : result (option string) :=
  match cs with Each d => match lookup n d with Some c => Done (Some c) | None => Error "KeyError" end | Same c => Done c end.
(** What reaches the packages. [Corner]: a call of [corner.corner], with the chain, its weights, colour, labels, truths and the figure it draws on;
    figures made by [corner] itself are [true], one handed over by the caller [false]. *)
Inductive call :=
| Corner (chain : string) (w : option (list R)) (c : option string) (labels : option (list string)) (truths : option (list R)) (fig : option bool)
| Legend (entries : list (string * option string))
| Samples (chain : string) (w : option (list R)) (names labels : list string) (ranges : list (string * (R * R)))
| Triangle (chains : list string) (cs : option (list string)) (markers : option (list R))
| AddChain (chain : string) (w : option (list R)) (columns : option (list string)) (c : string)
| AddTruth (location : list (string * R))
| PlotConfig (extents : list (string * (R * R))).
Record arguments := Args { backend : string; fig0 : bool; param_range : option (list (R * R)); cols : colours; param_names : option (list string);
  truths : option (list R); show_stats : bool; show_legend : bool }.

Definition weight_of (ws : weights) (n : string) : result (option (list R)) :=
  match ws with [] => Done None | _ => match lookup n ws with Some w => Done (Some w) | None => Error "KeyError" end end.
Definition bind {A B} (r : result A) (f : A -> result B) : result B := match r with Done a => f a | Error e => Error e end.
Fixpoint all {A B} (f : A -> result B) (l : list A) : result (list B) :=
  match l with [] => Done [] | x :: r => bind (f x) (fun y => bind (all f r) (fun ys => Done (y :: ys))) end.

(** The corner backend (189-214). [first]: [i == 0]. *)
Fixpoint corner_loop (a : arguments) (ws : weights) (first : bool) (fig : option bool) (l : list string) : result (list call * option bool) :=
  match l with
  | [] => Done ([], fig)
  | n :: r =>
      bind (colour (cols a) n) (fun c => bind (weight_of ws n) (fun w =>
        let made := match fig with Some f => Some f | None => Some true end in
        bind (corner_loop a ws false made r) (fun '(calls, f) => Done (Corner n w c (if first then param_names a else None) (if first then truths a else None) fig :: calls, f))))
  end.
Definition corner_plot (a : arguments) (ws : weights) (l : list string) : result (list call) :=
  bind (corner_loop a ws true (if fig0 a then Some false else None) l) (fun '(calls, fig) =>
    if show_legend a then bind (all (fun n => bind (colour (cols a) n) (fun c => Done (n, c))) l) (fun es => match fig with Some _ => Done (calls ++ [Legend es])%list | None => Error "AttributeError" end)
    else Done calls).

(** The name of parameter [i] for GetDist, [p0], [p1], ...; the number in decimal is a parameter of the model. *)
Definition internal (dec : nat -> string) (i : nat) : string := "p" ++ dec i.
(** [pn.replace('$','')]. *)
Fixpoint no_dollar (s : string) : string := match s with EmptyString => EmptyString | String c r => if Ascii.eqb c "$"%char then no_dollar r else String c (no_dollar r) end.
(** The GetDist backend (217-245). A dictionary comprehension over distinct names. *)
Definition getdist_plot (dec : nat -> string) (a : arguments) (ws : weights) (l : list string) : result (list call) :=
  match param_names a with
  | None => Error "TypeError"
  | Some pn =>
      let names := map (internal dec) (seq 0 (length pn)) in
      bind (all (fun i => match param_range a with None => Error "TypeError" | Some rg => match nth_error rg i with Some x => Done (internal dec i, x) | None => Error "IndexError" end end) (seq 0 (length pn))) (fun ranges =>
      bind (all (fun n => bind (weight_of ws n) (fun w => Done (Samples n w names (map no_dollar pn) ranges))) l) (fun ss =>
      bind (match cols a with Each d => bind (all (fun n => match lookup n d with Some c => Done c | None => Error "KeyError" end) l) (fun cs => Done (Some cs)) | Same _ => Done None end) (fun cs =>
      Done (ss ++ [Triangle l cs (truths a)])%list)))
  end.

(** The ChainConsumer backend (248-263). [mcolors.to_hex] fails on [None], and [pd.DataFrame] on
    column names that are not one per column. *)
Definition zip_names {A} (pn : option (list string)) (l : option (list A)) : result (list (string * A)) :=
  match pn, l with Some p, Some v => Done (combine p v) | _, _ => Error "TypeError" end.
Definition consumer_plot (a : arguments) (ws : weights) (cs : chains) : result (list call) :=
  bind (all (fun '(n, k) => bind (colour (cols a) n) (fun c =>
    if match param_names a with Some p => negb (Nat.eqb (length p) k) | None => false end then Error "ValueError" else
    bind (weight_of ws n) (fun w => match c with Some c => Done (AddChain n w (param_names a) c) | None => Error "ValueError" end))) cs) (fun cs =>
  bind (match truths a with None => Done [] | Some v => bind (zip_names (param_names a) (Some v)) (fun d => Done [AddTruth d]) end) (fun t =>
  bind (zip_names (param_names a) (param_range a)) (fun e => Done (cs ++ t ++ [PlotConfig e])%list))).

(** [plot_triangle] (169-263): the calls made, or the error, and the caller's weights afterwards. Another backend draws nothing. *)
Definition plot_triangle (dec : nat -> string) (cs : chains) (ws : weights) (a : arguments) : result (list call) * weights :=
  let '(s, ws') := if show_stats a then stats_loop cs ws (param_names a) else (Done tt, ws) in
  (bind s (fun _ =>
    let l := map fst cs in
    if String.eqb (lower (backend a)) "corner" then corner_plot a ws' l
    else if String.eqb (lower (backend a)) "getdist" then getdist_plot dec a ws' l
    else if String.eqb (lower (backend a)) "chainconsumer" then consumer_plot a ws' cs
    else Done []), ws').

(** [_plot_getdist_backend] (457-476): for each distribution, by insertion, its names, labels and colour. [all_labels] is the list of
    [_get_default_param_labels(max_params)]; [fallback] has 30 colours. An empty colour counts as none. *)
Definition getdist_backend (dec : nat -> string) (all_labels fallback : list string) (ds : list (nat * option string)) : list (list string * list string * string) :=
  map (fun '(i, (k, c)) => (map (internal dec) (seq 0 k), firstn k all_labels,
    match c with Some (String x r) => String x r | _ => nth (i mod length fallback) fallback "" end)) (combine (seq 0 (length ds)) ds).
