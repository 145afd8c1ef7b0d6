(** The interpolation method 'step_cell' of the light cone: [_get_step_weighted_slice] and [_get_step_transitions]
    (lightcone.py:462-490). Exact reals; a slice is the list of its cells. *)
From Coq Require Import List Arith Reals Bool.
Import ListNotations.
Local Open Scope R_scope.

(** Python's [sorted]. *)
Fixpoint insert (x : R) (l : list R) : list R :=
  match l with [] => [x] | y :: r => if Rle_dec x y then x :: l else y :: insert x r end.
Definition sort (l : list R) : list R := fold_right insert [] l.
(** [np.linspace(a, b, n)] *)
Definition linspace (a b : R) (n : nat) : list R := map (fun i => a + INR i * ((b - a) / INR (n - 1))) (seq 0 n).
(** [np.interp], which scipy's linear [interp1d] calls: from the last node at or below [x]. *)
Fixpoint np_interp (nodes : list (R * R)) (x : R) : R :=
  match nodes with
  | [] => 0
  | (a, fa) :: r =>
      match r with
      | [] => fa
      | (b, fb) :: _ => if Rle_dec b x then np_interp r x else if Req_EM_T a x then fa else (fb - fa) / (b - a) * (x - a) + fa
      end
  end.
(** [interp1d(..., bounds_error=False, fill_value=0.)] *)
Definition interp_fill (xs fs : list R) (x : R) : R :=
  if Rlt_dec x (hd 0 xs) then 0 else if Rlt_dec (last xs 0) x then 0 else np_interp (combine xs fs) x.
Definition minimum (l : list R) : R := match l with [] => 0 | x :: r => fold_left Rmin r x end.
Definition maximum (l : list R) : R := match l with [] => 0 | x :: r => fold_left Rmax r x end.
(** [cell_dist[diff_idx].flatten()] *)
Definition selected (cell_dist : list R) (diff : list bool) : list R := map fst (filter snd (combine cell_dist diff)).
(** [values_flat + np.random.random(len(values_flat))*1.e-9]; [draw] are the random numbers. *)
Definition jitter (draw : nat -> R) (l : list R) : list R :=
  map (fun p => snd p + draw (fst p) * / 10 ^ 9) (combine (seq 0 (length l)) l).
(** [_get_step_transitions] (480-490). Outer [None]: the IndexError of [values_sorted[0]]; inner [None]: nan, from 0/0. *)
Definition step_transitions (draw : nat -> R) (cell_dist : list R) (diff : list bool) : option (list (option R)) :=
  let v := sort (jitter draw (selected cell_dist diff)) in
  match v with
  | [] => None
  | v0 :: _ =>
      let u := linspace v0 (last v 0) (length v) in
      let out := map (interp_fill v u) cell_dist in
      let out := map (fun o => o - minimum out) out in
      let m := maximum out in
      Some (map (fun o => if Req_EM_T m 0 then None else Some (o / m)) out)
  end.
(** [_get_step_weighted_slice] (462-478). [smooth] is [smooth_gauss]. A comparison with nan is false. *)
Definition step_weighted_slice (smooth : list R -> list R) (draw : nat -> R) (low high : list R) (zh zl z : R) : option (list R) :=
  let diff := map (fun p => if Rlt_dec (1 / 1000) (Rabs (snd p - fst p)) then true else false) (combine low high) in
  match step_transitions draw (smooth high) diff with
  | None => None
  | Some ts =>
      Some (map (fun p : option R * (R * R) => let '(t, (lo, hi)) := p in
                 match t with Some t => if Rlt_dec z (zl + t * (zh - zl)) then lo else hi | None => hi end)
                (combine ts (combine low high)))
  end.
