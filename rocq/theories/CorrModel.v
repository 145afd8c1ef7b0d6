(** Two-point correlation functions (corr_function.py), over exact reals. *)
From Coq Require Import List Arith Reals Bool.
From Verif Require Import RLib.
Import ListNotations.
Local Open Scope R_scope.

Definition rleb (x y : R) : bool := if Rle_dec x y then true else false.
Definition rltb (x y : R) : bool := if Rlt_dec x y then true else false.

(** * [ps_to_corr] (lines 8-32) *)
(** [np.sinc]: the normalised one. *)
Definition np_sinc (x : R) : R := if Req_EM_T x 0 then 1 else sin (PI * x) / (PI * x).
(** [np.trapz]. *)
Fixpoint trapz (l : list (R * R)) : R :=
  match l with
  | p :: ((q :: _) as rest) => (fst q - fst p) * (snd p + snd q) / 2 + trapz rest
  | _ => 0
  end.
(** Line 27: entries of [ps] that are not finite ([None]) are dropped. *)
Definition finite_modes (ks : list R) (ps : list (option R)) : list (R * R) :=
  flat_map (fun e => match snd e with Some v => [(fst e, v)] | None => [] end) (combine ks ps).
(** Lines 29-32, one radius. *)
Definition corr_at (modes : list (R * R)) (r : R) : R :=
  4 * PI * trapz (map (fun e => (fst e, fst e ^ 2 * snd e * np_sinc (fst e * r))) modes).
(** Lines 14-16: the radii. [None] is an exception (arithmetic with None or a list). *)
Inductive radii_arg := RCount (n : nat) | RArray (l : list R).
Inductive box_arg := BoxNone | BoxNumber (L : R) | BoxList (l : list R).
Definition linspace (a b : R) (n i : nat) : R := a + (b - a) * INR i / INR (n - 1).
Definition radii (rb : radii_arg) (box : box_arg) (n_grid : option nat) (log_bins : bool) : option (list R) :=
  match rb with
  | RArray l => Some l
  | RCount n =>
      match box, n_grid with
      | BoxNumber L, Some N =>
          let a := 2 * L / INR N in let b := L / 2 in
          Some (map (fun i => if log_bins then Rpower 10 (linspace (ln a / ln 10) (ln b / ln 10) n i) else linspace a b n i) (seq 0 n))
      | _, _ => None
      end
  end.
Definition ps_to_corr (ps : list (option R)) (ks : list R) (rb : radii_arg) (box : box_arg) (n_grid : option nat) (log_bins : bool) : option (list R * list R) :=
  match radii rb box n_grid log_bins with
  | Some rs => Some (map (corr_at (finite_modes ks ps)) rs, rs)
  | None => None
  end.
(** [correlation_function] and [cross_correlation_function] (34-104) once the spectrum [spectrum] is
    known; they pass [box_dims] on. *)
Definition correlation_function (spectrum : list (option R) * list R) (n0 : nat) (rb : radii_arg) (box : box_arg) (log_bins : bool) : option (list R * list R) :=
  ps_to_corr (fst spectrum) (snd spectrum) rb box (Some n0) log_bins.

(** * [landy_szalay_estimator] (106-179) for catalogues of points. [d] is the distance. *)
(** [np.histogram] of one bin of the ascending edges: half open, the last one closed. *)
Definition in_bin (edges : list R) (i : nat) (x : R) : bool :=
  let lo := nth i edges 0 in let hi := nth (S i) edges 0 in
  (rleb lo x && (rltb x hi || (Nat.eqb (S (S i)) (length edges) && rleb x hi)))%bool.
Definition histogram (edges : list R) (i : nat) (xs : list R) : nat := length (filter (in_bin edges i) xs).
(** [cKDTree.query_pairs(rmax)]: the index pairs i < j at distance at most rmax. *)
Definition query_pairs {P} (d : P -> P -> R) (p0 : P) (pts : list P) (rmax : R) : list (nat * nat) :=
  filter (fun ij => (Nat.ltb (fst ij) (snd ij) && rleb (d (nth (fst ij) pts p0) (nth (snd ij) pts p0)) rmax)%bool)
         (list_prod (seq 0 (length pts)) (seq 0 (length pts))).
(** Lines 152, 155: the histogram is taken of the array of index pairs. *)
Definition pair_count {P} (d : P -> P -> R) (p0 : P) (edges : list R) (rmax : R) (pts : list P) (i : nat) : nat :=
  histogram edges i (flat_map (fun ij => [INR (fst ij); INR (snd ij)]) (query_pairs d p0 pts rmax)).
(** Lines 158-162: distances strictly below [distance_upper_bound]. *)
Definition cross_count {P} (d : P -> P -> R) (edges : list R) (rmax : R) (data randoms : list P) (i : nat) : nat :=
  fold_right (fun p acc => (histogram edges i (filter (fun x => rltb x rmax) (map (d p) randoms)) + acc)%nat) 0%nat data.
(** Lines 165-174. [None] is NaN or inf. *)
Definition estimator (dd rr dr : R) : option R := if Req_EM_T rr 0 then None else Some ((dd - 2 * dr + rr) / rr).
Inductive rbins_arg := Count (n : nat) | Edges (l : list R).
(** Lines 131-143: the bin edges and [rmax]; an array of edges leaves [rmax] without a value. *)
Definition edges_of (rb : rbins_arg) (rmin rmax : option R) (box : R) (log_bins : bool) : list R * option R :=
  match rb with
  | Edges l => (l, None)
  | Count n =>
      let a := match rmin with Some x => x | None => 1 / 100 end in let b := match rmax with Some x => x | None => box end in
      (map (fun i => if log_bins then Rpower 10 (linspace (ln a / ln 10) (ln b / ln 10) n i) else linspace a b n i) (seq 0 n), Some b)
  end.
Definition landy_szalay_estimator {P} (d : P -> P -> R) (p0 : P) (data randoms : list P) (rb : rbins_arg) (rmin rmax : option R) (box : R) (log_bins : bool) : option (list (option R)) :=
  let '(edges, rmax') := edges_of rb rmin rmax box log_bins in
  match rmax' with
  | None => None
  | Some R =>
      let nd := INR (length data) in let nr := INR (length randoms) in
      Some (map (fun i => estimator (INR (pair_count d p0 edges R data i) / (nd * (nd - 1) / 2)) (INR (pair_count d p0 edges R randoms i) / (nr * (nr - 1) / 2))
                                    (INR (cross_count d edges R data randoms i) / (nd * nr))) (seq 0 (length edges - 1)))
  end.
