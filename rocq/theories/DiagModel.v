(** Diagnostics of weighted samples and grids of probabilities: plotting.py:138-167, 268-391, 483-546. Exact reals.
    Drawing is not modelled. *)
From Coq Require Import String List Arith Reals Bool DecimalString Decimal.
From Verif Require Import RLib.
Import ListNotations.
Local Open Scope R_scope.

(** * [np.interp(x, xp, fp)]: the last node at or below [x] and the next one; constant outside. At a node numpy returns
    the value of the node, which is what the formula gives. *)
Fixpoint interp_from (x0 y0 : R) (rest : list (R * R)) (x : R) : R :=
  match rest with
  | [] => y0
  | (x1, y1) :: r => if Rle_dec x1 x then interp_from x1 y1 r x else (y1 - y0) / (x1 - x0) * (x - x0) + y0
  end.
Definition np_interp (x : R) (xp fp : list R) : R :=
  match combine xp fp with
  | [] => 0
  | (x0, y0) :: r => if Rlt_dec x x0 then y0 else interp_from x0 y0 r x
  end.
Fixpoint cumsum_from (acc : R) (l : list R) : list R := match l with [] => [] | w :: r => (acc + w) :: cumsum_from (acc + w) r end.
(** [np.cumsum]. *)
Definition cumsum (l : list R) : list R := cumsum_from 0 l.

(** * [_calculate_base_metrics] (323-374) *)
(** [weights / np.sum(weights)] (325). *)
Definition normalise (ws : list R) : list R := map (fun w => w / rsum ws) ws.
Definition dot (xs ys : list R) : R := rsum (map (fun p => fst p * snd p) (combine xs ys)).
(** [np.average(points, axis=0, weights=weights_norm)] (328). *)
Definition average (xs ws : list R) : R := dot xs ws / rsum ws.
(** [np.cov(points.T, aweights=weights_norm)] (329), one entry: the deviations from the averages, divided by
    [w_sum - sum(w * aweights) / w_sum]; at or below zero numpy divides by zero ([None]). *)
Definition cov_factor (ws : list R) : R := rsum ws - dot ws ws / rsum ws.
Definition cov (xs ys ws : list R) : option R :=
  if Rle_dec (cov_factor ws) 0 then None
  else Some (dot (map (fun p => (fst p - average xs ws) * (snd p - average ys ws)) (combine xs ys)) ws / cov_factor ws).
(** [sigmas] (330). *)
Definition sigma (xs ws : list R) : option R := match cov xs xs ws with Some v => Some (sqrt v) | None => None end.
(** One parameter (333-349): [order] is [np.argsort] of its column. *)
Definition take (order : list nat) (l : list R) : list R := map (fun i => nth i l 0) order.
Definition quantile (xs ws : list R) (order : list nat) (q : R) : R := np_interp q (cumsum (take order ws)) (take order xs).
Definition cdf_at (xs ws : list R) (order : list nat) (v : R) : R := np_interp v (take order xs) (cumsum (take order ws)).
Record interval := Interval { median : R; lo1 : R; hi1 : R; lo2 : R; hi2 : R }.
Definition intervals (xs ws : list R) (order : list nat) : interval :=
  Interval (quantile xs ws order (1 / 2)) (quantile xs ws order (16 / 100)) (quantile xs ws order (84 / 100)) (quantile xs ws order (25 / 1000)) (quantile xs ws order (975 / 1000)).
Definition within (lo hi t : R) : bool := if Rle_dec lo t then if Rle_dec t hi then true else false else false.

Inductive outcome (A : Type) := Returned (a : A) | Raised (e : string).
Arguments Returned {A}. Arguments Raised {A}.
(** What depends on the true values (353-366): z-scores, root mean square error, PIT and coverage. *)
Record truth_metrics := Truth { z_scores : list (option R); rmse : R; pit : list R; cover_68 : list bool; cover_95 : list bool }.
Record metrics := Metrics { means : list R; sigmas : list (option R); cis : list interval; truth : option truth_metrics }.
(** [points]: one list of parameters per sample. [argsort p]: the order of column [p]. *)
Definition column (points : list (list R)) (p : nat) : list R := map (fun row => nth p row 0) points.
(** [means - tv_slice] (356): equal lengths, or one true value for all parameters. *)
Definition broadcast (n : nat) (tv : list R) : option (list R) :=
  if (length tv =? n)%nat then Some tv else match tv with [t] => Some (repeat t n) | _ => None end.
Definition base_metrics (true_values : option (list R)) (num_params : nat) (points : list (list R)) (weights : list R) (argsort : nat -> list nat) : outcome metrics :=
  let w := normalise weights in
  let col := column points in
  let ps := seq 0 num_params in
  if negb (length weights =? length points)%nat then Raised "ValueError"
  else if existsb (fun v => if Rlt_dec v 0 then true else false) w then Raised "ValueError"
  else if (num_params =? 1)%nat then Raised "ValueError"  (* [np.cov] of one variable has no dimensions, [np.diag] needs one or two *)
  else
    let ms := map (fun p => average (col p) w) ps in
    let ss := map (fun p => sigma (col p) w) ps in
    let ci := map (fun p => intervals (col p) w (argsort p)) ps in
    match true_values with
    | None => Returned (Metrics ms ss ci None)
    | Some tv0 =>
        let tv := firstn num_params tv0 in
        match broadcast num_params tv with
        | None => Raised "ValueError"
        | Some t =>
            let nth_ci p := intervals (col p) w (argsort p) in
            let known := seq 0 (length tv) in
            Returned (Metrics ms ss ci (Some (Truth
              (map (fun p => match sigma (col p) w with Some s => if Req_EM_T s 0 then None else Some (Rabs (average (col p) w - nth p t 0) / s) | None => None end) ps)
              (sqrt (rsum (map (fun p => (average (col p) w - nth p t 0) ^ 2) ps) / INR num_params))
              (map (fun p => cdf_at (col p) w (argsort p) (nth p tv 0)) known)
              (map (fun p => within (lo1 (nth_ci p)) (hi1 (nth_ci p)) (nth p tv 0)) known)
              (map (fun p => within (lo2 (nth_ci p)) (hi2 (nth_ci p)) (nth p tv 0)) known))))
        end
    end.

(** * The collection of distributions (292-317, 514-546) *)
(** A Python dictionary: assignment keeps the place of a key that is there. *)
Fixpoint assign {D} (d : list (string * D)) (k : string) (v : D) : list (string * D) :=
  match d with
  | [] => [(k, v)]
  | (k', v') :: r => if String.eqb k k' then (k, v) :: r else (k', v') :: assign r k v
  end.
(** ["Distribution %d" % (len(self.distributions) + 1)] (317). *)
Definition default_label (n : nat) : string := append "Distribution " (NilZero.string_of_uint (Nat.to_uint n)).
Definition get_label {D} (d : list (string * D)) (label : option string) : string := match label with Some l => l | None => default_label (S (length d)) end.
(** [add_distribution] (520-532, 537-546): the metrics are computed before the assignment, so a failure changes nothing.
    [stats] is what the metrics make of the data. *)
Definition add_distribution {A D} (stats : A -> outcome D) (d : list (string * D)) (call : option string * A) : list (string * D) :=
  match stats (snd call) with Returned s => assign d (get_label d (fst call)) s | Raised _ => d end.
Definition add_all {A D} (stats : A -> outcome D) (calls : list (option string * A)) : list (string * D) := fold_left (add_distribution stats) calls [].
(** [SampledDistribution.add_distribution] (537-546): missing weights are ones. *)
Definition sample_weights (n : nat) (weights : option (list R)) : list R := match weights with Some w => w | None => repeat 1 n end.
(** [GriddedProbabilities.add_distribution] (520-532) for a grid of two dimensions, [grid] flattened by rows: the points of
    the mesh of [coords] with itself. *)
Definition mesh2 (coords : list R) : list (list R) := flat_map (fun x => map (fun y => [x; y]) coords) coords.
(** [_get_default_param_labels] (302-311); [theta i] is the label of parameter [i], from one. *)
Definition param_labels (theta : nat -> string) (given : option (list string)) (n : nat) : list string :=
  match given with
  | None => map (fun i => theta (S i)) (seq 0 n)
  | Some l => if (length l <? n)%nat then (l ++ map (fun i => theta (S i)) (seq (length l) (n - length l)))%list else l
  end.
(** [plot_corner] (376-391): which backend runs. *)
Definition plot_corner {D} (d : list (string * D)) (backend : string) : outcome (option string) :=
  match d with
  | [] => Raised "ValueError"
  | _ => if String.eqb backend "corner" then Returned (Some "corner"%string) else if String.eqb backend "getdist" then Returned (Some "getdist"%string) else Returned None
  end.

(** * [print_chain_stats] (138-167) for one chain and parameter: [weights /= np.sum(weights)] changes the caller's array. The
    mean and the two widths printed, and the weights left behind. *)
Definition chain_stats (xs ws : list R) (order : list nat) : (R * R * R) * list R :=
  let w := normalise ws in
  let m := average xs w in
  ((m, quantile xs w order (84 / 100) - m, m - quantile xs w order (16 / 100)), w).
