(** The fast cylindrical spectrum: power_spect_fast.py:46-79, 143-237. Exact reals; modes are listed in the order of the flattened arrays. *)
From Coq Require Import String List Arith Reals Bool.
From Verif Require Import RLib SpecModel WindowModel.
Import ListNotations.
Local Open Scope R_scope.

Record mode := Mode { kx : R; ky : R; kz : R; power : R }.
(** Lines 188-194: the component along [nu_axis] and the length of the other two. *)
Definition along (nu_axis : nat) (m : mode) : R := match nu_axis with 0%nat => kx m | 1%nat => ky m | _ => kz m end.
Definition across (nu_axis : nat) (m : mode) : R :=
  match nu_axis with 0%nat => sqrt (ky m ^ 2 + kz m ^ 2) | 1%nat => sqrt (kx m ^ 2 + kz m ^ 2) | _ => sqrt (kx m ^ 2 + ky m ^ 2) end.
Definition par (nu_axis : nat) (m : mode) : R := Rabs (along nu_axis m).

Inductive scale := Log | Linear.
(** [np.log10], minus infinity at 0 as [None]. Lines 200-206. *)
Definition coord (s : scale) (k : R) : option R := match s with Linear => Some k | Log => if Req_EM_T k 0 then None else Some (log10 k) end.
Definition edge_of (s : scale) (k : R) : R := match s with Linear => k | Log => log10 k end.
Definition rmin (x : R) (l : list R) : R := fold_left Rmin l x.
Definition rmax (x : R) (l : list R) : R := fold_left Rmax l x.
(** [kp[kp!=0].min()] and [kp.max()]; [None]: the minimum of nothing is an error. *)
Definition nonzero (l : list R) : list R := filter (fun k => if Req_EM_T k 0 then false else true) l.
Definition range_of (l : list R) : option (R * R) := match nonzero l, l with x :: r, y :: t => Some (rmin x r, rmax y t) | _, _ => None end.
(** [np.linspace(lo, hi, n+1)], midpoints, and the first spacing (207-210). *)
Definition edge (lo hi : R) (n i : nat) : R := lo + INR i * ((hi - lo) / INR n).
Definition centre (lo hi : R) (n i : nat) : R := (edge lo hi n i + edge lo hi n (S i)) / 2.
Definition width (lo hi : R) (n : nat) : R := edge lo hi n 1 - edge lo hi n 0.
Definition near (c w : R) (x : option R) : bool := match x with Some v => rleb (Rabs (v - c)) (w / 2) | None => false end.

(** One cell of the result (217-223): the average of the selected modes, nan ([None]) if there are none, and their number. *)
Definition cell_of (sel : mode -> bool) (modes : list mode) : option R * nat :=
  let l := filter sel modes in (match l with [] => None | _ => Some (rsum (map power l) / INR (length l)) end, length l).
Record result := Result { ps : list (list (option R * nat)); kper : list R; kpar : list R }.
Definition table {A} (n m : nat) (f : nat -> nat -> A) : list (list A) := map (fun i => map (f i) (seq 0 m)) (seq 0 n).
Definition back (s : scale) (x : R) : R := match s with Linear => x | Log => Rpower 10 x end.
(** Binning by numbers of bins. *)
Definition by_number (s : scale) (nu_axis : nat) (n m : nat) (modes : list mode) : option result :=
  if (Nat.eqb n 0 || Nat.eqb m 0)%bool then None else (** no second edge *)
  match range_of (map (across nu_axis) modes), range_of (map (par nu_axis) modes) with
  | Some (a, b), Some (c, d) =>
    let '(a, b, c, d) := (edge_of s a, edge_of s b, edge_of s c, edge_of s d) in
    Some (Result (table n m (fun i j => cell_of (fun q => near (centre a b n i) (width a b n) (coord s (across nu_axis q)) && near (centre c d m j) (width c d m) (coord s (par nu_axis q))) modes))
      (map (fun i => back s (centre a b n i)) (seq 0 n)) (map (fun j => back s (centre c d m j)) (seq 0 m)))
  | _, _ => None
  end.
(** Binning by arrays of edges (196-199): [kbins] becomes the numbers of edges, one more than there are bins; every bin has the width of the
    first; rows and columns that no bin fills are 0/0. *)
Definition mid_of (l : list R) (i : nat) : R := (nth i l 0 + nth (S i) l 0) / 2.
Definition by_edges (nu_axis : nat) (per pa : list R) (modes : list mode) : option result :=
  if (Nat.leb 2 (length per) && Nat.leb 2 (length pa))%bool then
    Some (Result (table (length per) (length pa) (fun i j =>
        if (Nat.ltb i (length per - 1) && Nat.ltb j (length pa - 1))%bool then
          cell_of (fun q => near (mid_of per i) (nth 1 per 0 - nth 0 per 0) (Some (across nu_axis q)) && near (mid_of pa j) (nth 1 pa 0 - nth 0 pa 0) (Some (par nu_axis q))) modes
        else (None, 0%nat)))
      (map (mid_of per) (seq 0 (length per - 1))) (map (mid_of pa) (seq 0 (length pa - 1))))
  else None.
(** The argument [kbins] (182-185, 196-199): only Python's own int counts as a number of bins; other numbers are taken for arrays, whose length is asked for. *)
Inductive bins := Ints (n m : nat) | OtherNumber | Edges (per pa : list R).
(** The argument [window] (171-179): any object but None must have [lower]. *)
Definition fast_window (d : data) (w : window) : option data :=
  match w with
  | NoWindow => Some d
  | Table _ => None
  | Name s => if String.eqb (lower s) "blackmanharris" then multiply blackmanharris d else if String.eqb (lower s) "tukey" then multiply tukey d else None
  end.
(** [spectrum]: the modes of an array (186-187). [binning]: 'log', 'linear', or another string
    ([None]), for which no edges are made. Returns the caller's array after the call and the outcome. *)
Definition power_spect_2d (spectrum : data -> list mode) (d : data) (w : window) (b : bins) (binning : option scale) (nu_axis : nat) : data * option result :=
  match fast_window d w with
  | None => (d, None)
  | Some d' => (d', match b with Ints n m => match binning with Some s => by_number s nu_axis n m (spectrum d') | None => None end | OtherNumber => None | Edges per pa => by_edges nu_axis per pa (spectrum d') end)
  end.
(** [phase_spect_nd] (46-79): [power_spectrum] is assigned nowhere before it is scaled. *)
Definition phase_spect_nd (power_spectrum : option R) (scale : R) : option R := match power_spectrum with Some p => Some (p * scale) | None => None end.
Definition phase_call (phase scale : R) : option R := phase_spect_nd None scale.
(** [dimensional_power] (234-237). *)
Definition dimensional_power (spectrum : list (option R * R)) : list (option R * R) := map (fun pk => (option_map (fun p => p * snd pk ^ 3 / 2 / PI ^ 2) (fst pk), snd pk)) spectrum.
