(** Haloes on a grid: nbody_file.py:193-321. *)
From Coq Require Import List ZArith Reals.
Import ListNotations.
Local Open Scope R_scope.

Fixpoint least (l : list R) : R := match l with [] => 0 | [v] => v | v :: r => Rmin v (least r) end.
Fixpoint largest (l : list R) : R := match l with [] => 0 | [v] => v | v :: r => Rmax v (largest r) end.
(** [scipy.stats.binned_statistic_dd] without [range] (line 250): along each axis the bins run from the smallest to
    the largest coordinate, or half a unit around it when all coordinates agree. *)
Definition low (xs : list R) : R := if Req_EM_T (least xs) (largest xs) then least xs - 1 / 2 else least xs.
Definition high (xs : list R) : R := if Req_EM_T (least xs) (largest xs) then largest xs + 1 / 2 else largest xs.
Definition edge (n : nat) (xs : list R) (i : nat) : R := low xs + INR i * ((high xs - low xs) / INR n).
(** Index of the bin: half-open bins, the last one closed. *)
Definition index (n : nat) (xs : list R) (x : R) : Z :=
  if Req_EM_T x (high xs) then (Z.of_nat n - 1)%Z else Int_part ((x - low xs) / ((high xs - low xs) / INR n)).
Definition point := (R * R * R)%type.
Definition px (p : point) : R := fst (fst p).
Definition py (p : point) : R := snd (fst p).
Definition pz (p : point) : R := snd p.
Definition cell := (Z * Z * Z)%type.
Definition cell_of (n : nat) (ps : list point) (p : point) : cell := (index n (map px ps) (px p), index n (map py ps) (py p), index n (map pz ps) (pz p)).
Definition cell_eqb (a b : cell) : bool := let '(i, j, k) := a in let '(i', j', k') := b in ((i =? i')%Z && (j =? j')%Z && (k =? k')%Z)%bool.
Definition total (l : list R) : R := fold_right Rplus 0 l.
(** [value_on_grid] (246-251) with statistic 'sum'. *)
Definition value_on_grid (n : nat) (haloes : list (point * R)) (c : cell) : R :=
  total (map snd (filter (fun h => cell_eqb (cell_of n (map fst haloes) (fst h)) c) haloes)).
(** [pos_mpc_to_grid] (230-234). *)
Definition pos_to_grid (n : nat) (box : R) (p : point) : point := (px p * INR n / box, py p * INR n / box, pz p * INR n / box).
(** [halo_list_to_grid] (282-321) for plain numbers. *)
Definition halo_list_to_grid (haloes : list (point * R)) (box : R) (n : nat) : cell -> R :=
  value_on_grid n (map (fun h => (pos_to_grid n box (fst h), snd h)) haloes).

Definition zseq (n : nat) : list Z := map Z.of_nat (seq 0 n).
Definition cells (n : nat) : list cell := list_prod (list_prod (zseq n) (zseq n)) (zseq n).
(** [halo_mass_on_grid] (253-267): the occupied cells and their masses. *)
Definition occupied (n : nat) (g : cell -> R) : list (cell * R) := map (fun c => (c, g c)) (filter (fun c => if Rlt_dec 0 (g c) then true else false) (cells n)).
(** The object: [set_halo_pos], [set_halo_mass] and [halo_mass_on_grid] (194-267). [None] as a unit has no [lower]. The masses stored by
    [set_halo_mass] are not used: the default of the keyword [mass] is the positions (line 258), which scipy refuses
    unless there happen to be three haloes (left out). *)
Record h2g := { pos_grid : option (list point); mass_Msun : option (list R) }.
Inductive unit := Cm | Mpc | Grid.
Inductive op := SetPos (ps : list point) (u : option unit) | SetMass (ms : list R).
Inductive answer := Nothing | Failure | Answer (g : cell -> R).
Definition step (n : nat) (box : R) (s : h2g) (o : op) : option h2g :=
  match o with
  | SetPos ps None => None
  | SetPos ps (Some Cm) => Some {| pos_grid := Some (map (fun p => pos_to_grid n box (px p / 3.085677581491367e+24, py p / 3.085677581491367e+24, pz p / 3.085677581491367e+24)) ps); mass_Msun := mass_Msun s |}
  | SetPos ps (Some Mpc) => Some {| pos_grid := Some (map (pos_to_grid n box) ps); mass_Msun := mass_Msun s |}
  | SetPos ps (Some Grid) => Some {| pos_grid := Some ps; mass_Msun := mass_Msun s |}
  | SetMass ms => Some {| pos_grid := pos_grid s; mass_Msun := Some ms |}
  end.
Definition mass_on_grid (n : nat) (s : h2g) (mass : option (list R)) : answer :=
  match pos_grid s with
  | None => Nothing
  | Some ps => match mass with
      | None => Failure
      | Some ms => if Nat.eqb (length ms) (length ps) then Answer (value_on_grid n (combine ps ms)) else Failure
      end
  end.
