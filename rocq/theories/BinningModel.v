(** Model of the binning of Fourier modes: power_spectrum.py [radial_average],
    [_get_kbins], [mu_binning], [_get_mu], [power_spectrum_2d] and power_spect_fast.py
    [power_spect_1d], [power_spect_mu].

    A mode is one cell of the flattened arrays. Its |k| and its power are arbitrary
    rationals (a float is a rational; rounding in the sums and divisions is not
    modelled). NaN is [None]. *)
From Coq Require Import List Arith ZArith QArith Qabs Bool Lia.
From Verif Require Import QLib.
Import ListNotations.
Local Open Scope nat_scope.

(** * numpy.histogram with explicit edges

    numpy sorts the data, looks up every edge but the last from the left and the last
    from the right, and takes differences of the cumulative sums (numpy/lib/histograms.py,
    [_search_sorted_inclusive]). A mode is (k, weight). *)
Definition cum_left (m : list (Q * Q)) (e : Q) : Q :=
  qsum (map snd (filter (fun x => Qltb (fst x) e) m)).
Definition cum_right (m : list (Q * Q)) (e : Q) : Q :=
  qsum (map snd (filter (fun x => Qle_bool (fst x) e) m)).
Fixpoint diffs (m : list (Q * Q)) (edges : list Q) : list Q :=
  match edges with
  | e1 :: ((e2 :: rest) as tl) =>
      match rest with
      | [] => [cum_right m e2 - cum_left m e1]%Q
      | _ => (cum_left m e2 - cum_left m e1)%Q :: diffs m tl
      end
  | _ => []
  end.
(** [np.any(bin_edges[:-1] > bin_edges[1:])] raises ValueError. *)
Fixpoint monotone (edges : list Q) : bool :=
  match edges with
  | e1 :: ((e2 :: _) as tl) => Qle_bool e1 e2 && monotone tl
  | _ => true
  end.
Definition histogram (m : list (Q * Q)) (edges : list Q) : option (list Q) :=
  if monotone edges then Some (diffs m edges) else None.

(** [outdata /= n_modes]: 0/0 is NaN. *)
Definition div_nan (s n : Q) : option Q := if Qeq_bool n 0 then None else Some (s / n)%Q.

(** [kbins[:-1]+dk] with [dk = (kbins[1:]-kbins[:-1])/2.] *)
Fixpoint centres (edges : list Q) : list Q :=
  match edges with
  | e1 :: ((e2 :: _) as tl) => (e1 + (e2 - e1) / 2)%Q :: centres tl
  | _ => []
  end.

Fixpoint map2 {A B C} (f : A -> B -> C) (la : list A) (lb : list B) : list C :=
  match la, lb with
  | a :: la', b :: lb' => f a b :: map2 f la' lb'
  | _, _ => []
  end.

(** [radial_average] (power_spectrum.py:98-134) for given bin edges: [modes] is
    (k, power) per cell. [None]: ValueError from numpy. *)
Definition radial_average (modes : list (Q * Q)) (edges : list Q)
  : option (list (option Q) * list Q * list Q) :=
  match histogram modes edges, histogram (map (fun x => (fst x, 1%Q)) modes) edges with
  | Some s, Some n => Some (map2 div_nan s n, centres edges, n)
  | _, _ => None
  end.

(** * Bin edges *)

(** [np.linspace(a, b, n+1)]: the last point is set to [b]. *)
Definition linspace (a b : Q) (n : nat) : list Q :=
  map (fun i => if Nat.eqb i n then b
                else (a + inject_Z (Z.of_nat i) * ((b - a) / inject_Z (Z.of_nat n)))%Q)
      (seq 0 (S n)).

Fixpoint qmin (d : Q) (l : list Q) : Q :=
  match l with [] => d | x :: l' => let m := qmin d l' in if Qltb x m then x else m end.
Fixpoint qmax (d : Q) (l : list Q) : Q :=
  match l with [] => d | x :: l' => let m := qmax d l' in if Qltb m x then x else m end.

(** [_get_kbins] (power_spectrum.py:505-519) for an integer number of bins and
    binning 'linear'. [two_pi] is the float 2.*np.pi; [box] the sides ([L0] the first),
    [k0] the first |k|. *)
Definition kbins_linear (two_pi : Q) (L0 : Q) (box : list Q) (k0 : Q) (ks : list Q) (n : nat) : list Q :=
  linspace (two_pi / qmin L0 box) (qmax k0 ks) n.

(** Binning 'mixed' (lines 516-518): linear edges below the break point, logarithmic
    ones above it. [low] and [high] are the two edge lists. *)
Definition kbins_mixed (breakpoint : Q) (low high : list Q) : list Q :=
  filter (fun e => Qltb e breakpoint) low ++ filter (fun e => Qltb breakpoint e) high.

(** * (k, mu) binning *)

(** One cell of the 3-D arrays: |k|, the component along the line of sight, the power,
    and the entry of [good_idx]. *)
Record mode := Mode { mk : Q; mlos : Q; mpow : Q; mgood : bool }.

(** [_get_mu] (power_spectrum.py:481-502) for a valid axis: NaN where k < 0.001. *)
Definition get_mu (absolute : bool) (x : mode) : option Q :=
  if Qltb (mk x) (1#1000) then None
  else Some (if absolute then Qabs (mlos x / mk x) else mlos x / Qabs (mk x))%Q.

(** Membership in one bin (power_spectrum.py:421-427); comparisons with NaN are false. *)
Definition in_mu_bin (absolute : bool) (kmin kmax mumin mumax : Q) (x : mode) : bool :=
  match get_mu absolute x with
  | None => false
  | Some mu => Qle_bool mumin mu && Qltb mu mumax
               && (Qle_bool kmin (mk x) && Qltb (mk x) kmax && mgood x)
  end.

(** [np.mean] of an empty selection is NaN. *)
Definition mean_nan (l : list Q) : option Q := div_nan (qsum l) (qlen l).

Fixpoint pairs (edges : list Q) : list (Q * Q) :=
  match edges with
  | e1 :: ((e2 :: _) as tl) => (e1, e2) :: pairs tl
  | _ => []
  end.

(** [mu_binning] (power_spectrum.py:380-435) without weights: rows are mu bins, columns
    k bins; each entry is (mean power, number of modes). The assignment that zeroes the
    zero mode (line 411) acts on the mode with k = 0, whose mu is NaN, and is left out. *)
Definition mu_binning (absolute : bool) (modes : list mode) (mubins kbins : list Q)
  : list (list (option Q * nat)) :=
  map (fun mb =>
    map (fun kb =>
      let sel := filter (in_mu_bin absolute (fst kb) (snd kb) (fst mb) (snd mb)) modes in
      (mean_nan (map mpow sel), length sel)) (pairs kbins)) (pairs mubins).

(** With [weights] the first statement is [if weights != None:] (line 387): for an array
    the comparison is elementwise and the truth value of an array of more than one
    element raises ValueError. [wsize] is the number of weights. *)
Definition mu_binning_weighted (absolute : bool) (wsize : option nat) (modes : list mode)
    (mubins kbins : list Q) : option (list (list (option Q * nat))) :=
  match wsize with
  | None => Some (mu_binning absolute modes mubins kbins)
  | Some n => if Nat.ltb 1 n then None else Some (mu_binning absolute modes mubins kbins)
  end.

(** * Cylindrical binning *)

(** How [power_spectrum_2d] (power_spectrum.py:206-240) treats its [kbins] argument. *)
Inductive kbins_arg :=
| KInt (n : nat)                    (* a number of bins *)
| KListInt (n m : nat)              (* [n_kper, n_kpar], the form named in the docstring *)
| KTupleInt (n m : nat)             (* (n_kper, n_kpar) *)
| KListEdges (a b : list Q).        (* [kper_edges, kpar_edges] *)
(** The edges, [None] when an exception is raised: with a list of numbers
    [np.array(kbins[0])] is a 0-d array, which [binned_statistic_2d] cannot take the
    length of. [auto_per n], [auto_par n] are the automatic edges (lines 228-235). *)
Definition edges_2d (auto_per auto_par : nat -> list Q) (a : kbins_arg) : option (list Q * list Q) :=
  match a with
  | KInt n => Some (auto_per n, auto_par n)
  | KListInt _ _ => None
  | KTupleInt n m => Some (auto_per n, auto_par m)
  | KListEdges x y => Some (x, y)
  end.
(** Automatic linear edges (lines 233-235): from the smallest non-zero value to the
    largest one. *)
Definition auto_edges (v0 : Q) (vs : list Q) (n : nat) : list Q :=
  let nz := filter (fun x => negb (Qeq_bool x 0)) vs in
  linspace (qmin v0 nz) (qmax v0 vs) n.
(** scipy's [binned_statistic_2d]: bins are half open, the last one is closed. *)
Fixpoint in_which (edges : list Q) (i : nat) (x : Q) : bool :=
  match edges with
  | e1 :: ((e2 :: rest) as tl) =>
      match i with
      | 0 => Qle_bool e1 x && match rest with [] => Qle_bool x e2 | _ => Qltb x e2 end
      | S i' => in_which tl i' x
      end
  | _ => false
  end.
Definition binned_2d (modes : list (Q * Q * Q)) (per par : list Q) : list (list (option Q * nat)) :=
  map (fun i =>
    map (fun j =>
      let sel := filter (fun m => in_which per i (fst (fst m)) && in_which par j (snd (fst m))) modes in
      (mean_nan (map snd sel), length sel)) (seq 0 (length par - 1)))
    (seq 0 (length per - 1)).

(** * power_spect_fast.py *)

(** [(ks[:-1]+ks[1:])/2.] *)
Fixpoint mids (l : list Q) : list Q :=
  match l with
  | a :: ((b :: _) as tl) => ((a + b) / 2)%Q :: mids tl
  | _ => []
  end.
Fixpoint widths (l : list Q) : list Q :=
  match l with
  | a :: ((b :: _) as tl) => (b - a)%Q :: widths tl
  | _ => []
  end.
(** [power_spect_1d] (power_spect_fast.py:113-141), binning 'linear': bin centres, bin
    widths and the modes with |k - centre| <= width/2. *)
Definition fast_centres (kmin kmax : Q) (kbins : nat) : list Q := mids (linspace kmin kmax kbins).
Definition fast_widths (k_lo k_hi : Q) (ks : list Q) : list Q := widths (k_lo :: mids ks ++ [k_hi]).
Definition fast_in (c w k : Q) : bool := Qle_bool (Qabs (k - c)) (w / 2).
Definition fast_1d (modes : list (Q * Q)) (k0 : Q) (kmin kmax : Q) (kbins : nat)
  : list (option Q * Q) :=
  let kk := map fst modes in
  let ks := fast_centres kmin kmax kbins in
  map2 (fun c w =>
          let sel := filter (fun x => fast_in c w (fst x)) modes in
          (div_nan (qsum (map snd sel)) (qlen sel), qlen sel))
       ks (fast_widths (qmin k0 kk) (qmax k0 kk) ks).

(** Binning 'log' with a mode at k = 0 (which every cube of odd side has): [np.log10(0)]
    is minus infinity, so [k.min()] is, the first width is plus infinity and the first
    bin's test [abs(k-a) <= inf] holds for every mode. Logarithms are [None] for minus
    infinity; finite ones are rationals. *)
Definition ext_min_is_minus_inf (ks : list (option Q)) : bool :=
  existsb (fun x => match x with None => true | _ => false end) ks.
Definition fast_first_bin_log (modes : list (option Q * Q)) (c finite_width : Q)
  : list (option Q * Q) :=
  if ext_min_is_minus_inf (map fst modes)
  then modes                      (* every |k-a|, also infinity itself, is <= inf *)
  else filter (fun x => match fst x with None => false | Some k => fast_in c finite_width k end) modes.

(** [power_spect_mu] (power_spect_fast.py:265-270): the mu test is made on the array
    with the NaN entries removed, and its positions are used as positions in the full
    array. [positions f l]: [np.argwhere]. *)
Fixpoint positions_from {A} (i : nat) (f : A -> bool) (l : list A) : list nat :=
  match l with
  | [] => []
  | x :: l' => if f x then i :: positions_from (S i) f l' else positions_from (S i) f l'
  end.
Definition positions {A} (f : A -> bool) (l : list A) : list nat := positions_from 0 f l.
Fixpoint finite (l : list (option Q)) : list Q :=
  match l with [] => [] | Some x :: l' => x :: finite l' | None :: l' => finite l' end.
Definition fast_mu_select (ks : list Q) (mus : list (option Q)) (ck wk cm wm : Q) : list nat :=
  let a := positions (fast_in ck wk) ks in
  let b := positions (fast_in cm wm) (finite mus) in
  filter (fun i => existsb (Nat.eqb i) b) a.
