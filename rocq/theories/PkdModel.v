(** pkdgrav outputs: nbody_pkdgrav.py, nbody_file.py:145-193. *)
From Coq Require Import String.
From Coq Require Import List Arith ZArith Reals Bool.
Import ListNotations.
Local Open Scope R_scope.

Definition total (l : list R) : R := fold_right Rplus 0 l.
Definition mean (l : list R) : R := total l / INR (length l).
(** [round(n**(1/3))] in exact arithmetic (line 236): the integer nearest to the cube root; no cube root lies halfway. *)
Fixpoint nearest_root (fuel r len : nat) : nat :=
  match fuel with O => r | S m => if (8 * len <? (2 * r + 1) ^ 3)%nat then r else nearest_root m (S r) len end.
Definition cube_root (len : nat) : nat := nearest_root len 0 len.
(** [load_density_field] (217-245): [None] when the reshape fails. Values of the transposed grid in units of the total mass of the box. *)
Definition grid_size (ngrid : option nat) (len : nat) : nat := match ngrid with Some n => n | None => cube_root len end.
Definition rho (rhoc box : R) (n : nat) (dens : list R) (i j k : nat) : R :=
  nth (k * n * n + j * n + i) dens 0 * rhoc * box ^ 3 / (box / INR n) ^ 3.
Definition triples (n : nat) : list (nat * nat * nat) := list_prod (list_prod (seq 0 n) (seq 0 n)) (seq 0 n).
Definition all_rho (rhoc box : R) (n : nat) (dens : list R) : list R := map (fun '(i, j, k) => rho rhoc box n dens i j k) (triples n).
Definition load_density (rhoc box : R) (ngrid : option nat) (dens : list R) : option (nat -> nat -> nat -> R) :=
  let n := grid_size ngrid (length dens) in
  if (n ^ 3 =? length dens)%nat then Some (fun i j k => rho rhoc box n dens i j k / mean (all_rho rhoc box n dens) - 1) else None.

(** Haloes: position of the potential minimum, offset of the centre of mass, and mass, all in units of the box. *)
Record fof := { rpot : R * R * R; rcom : R * R * R; fmass : R }.
(** [read_fof_data] (80-104): a file or a list of files; an empty list leaves the local variable unbound. *)
Inductive source := OneFile (l : list fof) | Files (ls : list (list fof)).
Definition read_fof (src : source) : option (list fof) := match src with OneFile l => Some l | Files [] => None | Files (l :: ls) => Some (fold_left (fun d h => d ++ h) ls l) end.
(** [array_fof_data] (153-189). *)
Definition halo_row (rhoc box : R) (g : fof) : list R :=
  let '(x, y, z) := rpot g in let '(u, v, w) := rcom g in [rhoc * box ^ 3 * fmass g; (x + u) * box; (y + v) * box; (z + w) * box].
(** The reader object over time: [read_fof_data] replaces the stored haloes. *)
Definition array_fof (rhoc box : R) (stored : option (list fof)) : option (list (list R)) := option_map (map (halo_row rhoc box)) stored.
Definition read_step (stored : option (list fof)) (src : source) : option (list fof) := match read_fof src with Some l => Some l | None => stored end.
(** [read_pkdgrav_fof_halo_catalogue] (nbody_file.py:145-165): the box in Mpc/h is computed (line 160) but the box in Mpc is passed on. *)
Definition critical : R := 277536627000.
Definition halo_catalogue (src : source) (box_dim hlittle : R) : option (list (list R)) :=
  let box_len := box_dim * hlittle in option_map (map (halo_row critical box_dim)) (read_fof src).

(** [save_fof_data] (191-205): the last five characters decide; what is written and what is printed. *)
Inductive message := Saved | UnknownExtension.
Definition last5 (s : string) : string := substring (String.length s - 5) 5 s.
Definition contains (sub s : string) : bool := match index 0 sub s with Some _ => true | None => false end.
Definition save_fof (verbose : bool) (name : string) : bool * message :=
  let saved := (contains ".txt" (last5 name) || contains ".npy" (last5 name))%bool in (saved, if (verbose && saved)%bool then Saved else UnknownExtension).

(** [get_hmf_data] (207-211): numpy's histogram of the logarithms over equal bins (the last closed); the counts per volume. *)
Fixpoint least (l : list R) : R := match l with [] => 0 | [v] => v | v :: r => Rmin v (least r) end.
Fixpoint largest (l : list R) : R := match l with [] => 0 | [v] => v | v :: r => Rmax v (largest r) end.
Definition low (xs : list R) : R := if Req_EM_T (least xs) (largest xs) then least xs - 1 / 2 else least xs.
Definition high (xs : list R) : R := if Req_EM_T (least xs) (largest xs) then largest xs + 1 / 2 else largest xs.
Definition edge (bins : nat) (xs : list R) (i : nat) : R := low xs + INR i * ((high xs - low xs) / INR bins).
Definition bin (bins : nat) (xs : list R) (x : R) : nat :=
  if Req_EM_T x (high xs) then (bins - 1)%nat else Z.to_nat (Int_part ((x - low xs) / ((high xs - low xs) / INR bins))).
Definition count (bins : nat) (xs : list R) (i : nat) : nat := length (filter (fun x => Nat.eqb (bin bins xs x) i) xs).
Definition hmf (box : R) (bins : nat) (mass : list R) : list (R * R) :=
  let xs := map ln mass in map (fun i => (exp (edge bins xs (S i) / 2 + edge bins xs i / 2), INR (count bins xs i) / box ^ 3)) (seq 0 bins).
