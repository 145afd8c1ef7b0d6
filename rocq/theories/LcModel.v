(** Model of lightcone.py: the slice loop, the output redshifts, the interpolation
    and the sub-volume. Redshifts are rationals (floats are not modelled). *)
From Coq Require Import List Arith ZArith QArith Qabs Bool Lia.
Import ListNotations.
Local Open Scope nat_scope.

Definition Qltb (a b : Q) : bool := negb (Qle_bool b a).

(** [x.max()] and [x.min()]; [None]: ValueError on an empty array. *)
Fixpoint list_max (l : list Q) : option Q :=
  match l with
  | [] => None
  | x :: l' => match list_max l' with
               | None => Some x
               | Some m => Some (if Qltb x m then m else x)
               end
  end.
Fixpoint list_min (l : list Q) : option Q :=
  match l with
  | [] => None
  | x :: l' => match list_min l' with
               | None => Some x
               | Some m => Some (if Qltb m x then m else x)
               end
  end.

(** [np.argmin]: first index of the smallest element ([0] for the empty list, which
    does not occur). *)
Fixpoint argmin_from (i best : nat) (bv : Q) (l : list Q) : nat :=
  match l with
  | [] => best
  | x :: l' => if Qltb x bv then argmin_from (S i) i x l' else argmin_from (S i) best bv l'
  end.
Definition argmin (l : list Q) : nat :=
  match l with [] => 0 | x :: l' => argmin_from 1 0 x l' end.
Definition nearest (fz : list Q) (z : Q) : nat := argmin (map (fun x => Qabs (x - z)) fz).

(** [file_redshifts[file_redshifts <= z].max()], [file_redshifts[file_redshifts > z].min()]
    (lightcone.py:119-120). *)
Definition bracket_low (fz : list Q) (z : Q) : option Q := list_max (filter (fun x => Qle_bool x z) fz).
Definition bracket_high (fz : list Q) (z : Q) : option Q := list_min (filter (fun x => Qltb z x) fz).

Section Loop.
  (** A snapshot, an interpolated slice; [interp data_high data_low z_high z_low z idx]
      is [_get_interp_slice]. *)
  Context {data slice : Type}.
  Variable interp : data -> data -> Q -> Q -> Q -> nat -> slice.
  Variable fz : list Q.        (* file_redshifts *)
  Variable files : list data.  (* what reading the i-th file returns *)

  Definition read (zb : Q) : option data := nth_error files (nearest fz zb).

  Record lstate := L { zl : option Q; zh : option Q; dlow : option data; dhigh : option data }.
  Definition start : lstate := L None None None None.

  Definition differs (o : option Q) (z : Q) : bool :=
    match o with None => true | Some x => negb (Qeq_bool x z) end.

  (** Body of the loop (lightcone.py:118-145; velocity 243-270). [reuse] is true in
      [make_lightcone]: a new low snapshot is taken from [data_high] instead of being
      read; false in [make_velocity_lightcone]. The brackets are stored also when
      unchanged (the same number). [None]: an exception. *)
  Definition lstep (reuse : bool) (s : lstate) (z : Q) (k : nat) : option (lstate * slice) :=
    match bracket_low fz z, bracket_high fz z with
    | Some l, Some h =>
        let dl := if differs (zl s) l
                  then match dhigh s with
                       | Some d => if reuse then Some d else read l
                       | None => read l
                       end
                  else dlow s in
        let dh := if differs (zh s) h then read h else dhigh s in
        match dl, dh with
        | Some a, Some b => Some (L (Some l) (Some h) (Some a) (Some b), interp b a h l z k)
        | _, _ => None
        end
    | _, _ => None
    end.
  Fixpoint lloop (reuse : bool) (s : lstate) (zs : list Q) (k : nat) : option (list slice) :=
    match zs with
    | [] => Some []
    | z :: zs' =>
        match lstep reuse s z k with
        | None => None
        | Some (s', o) => option_map (cons o) (lloop reuse s' zs' (S k))
        end
    end.
  (** The loop over the output redshifts, after [assert len(file_redshifts) == len(filenames)]. *)
  Definition lightcone_of (zs : list Q) : option (list slice) :=
    if Nat.eqb (length fz) (length files) then lloop true start zs 0 else None.
  Definition velocity_lightcone_of (zs : list Q) : option (list slice) :=
    if Nat.eqb (length fz) (length files) then lloop false start zs 0 else None.

  (** [_get_output_z] after the redshifts have been made (lightcone.py:288-297):
      truncation to the range of the files. *)
  Definition truncate_z (out : list Q) : option (list Q) :=
    match list_min fz, list_max fz with
    | Some lo, Some hi =>
        let out' := filter (fun z => Qle_bool lo z && Qle_bool z hi) out in
        match out' with [] => None | _ => Some out' end
    | _, _ => None
    end.
End Loop.

(** [redshifts_at_equal_frequncy_width] (lightcone.py:333-355). [a] is [dnu/const.nu0].
    [fuel] bounds the number of iterations; [None] when it runs out. *)
Definition freq_next (a z : Q) : Q := ((z - a * (1 + z)) / (1 + a * (1 + z)))%Q.
Fixpoint freq_loop (fuel : nat) (a z_low z : Q) : option (list Q) :=
  if Qltb z_low z then
    match fuel with
    | 0 => None
    | S f => option_map (cons z) (freq_loop f a z_low (freq_next a z))
    end
  else Some [].
Definition redshifts_equal_frequency (fuel : nat) (z_low z_high a : Q) : option (list Q) :=
  if Qltb z_low z_high then option_map (@rev Q) (freq_loop fuel a z_low z_high) else None.

(** [redshifts_at_equal_comoving_distance] (lightcone.py:302-331): [w z] stands for
    [const.Hz(z)*box_length_mpc/const.c/box_grid_n], so [dnu = nu0*w(z)/(1+z)**2]
    and [z = nu0/(nu - dnu) - 1]. Division by zero (Q: 0) raises in the code. *)
Definition dist_next (w : Q -> Q) (nu0 z : Q) : Q :=
  let nu := (nu0 / (1 + z))%Q in
  let dnu := (nu0 * w z / ((1 + z) * (1 + z)))%Q in
  (nu0 / (nu - dnu) - 1)%Q.
Fixpoint dist_loop (fuel : nat) (w : Q -> Q) (nu0 z_high z : Q) : option (list Q) :=
  if Qltb z z_high then
    match fuel with
    | 0 => None
    | S f => option_map (cons z) (dist_loop f w nu0 z_high (dist_next w nu0 z))
    end
  else Some [].
Definition redshifts_equal_distance (fuel : nat) (w : Q -> Q) (nu0 z_low z_high : Q) : option (list Q) :=
  if Qltb z_low z_high then dist_loop fuel w nu0 z_high z_low else None.

(** [make_lightcone] with [depth_mhz] given (lightcone.py:18-149): the default for
    [z_low]/[z_high] is the range of the files (284-287). *)
Definition dflt {A} (o : option A) (d : option A) : option A := match o with Some x => Some x | None => d end.
Definition make_lightcone_mhz {data slice : Type} (interp : data -> data -> Q -> Q -> Q -> nat -> slice)
           (fuel : nat) (fz : list Q) (files : list data) (z_low z_high : option Q) (a : Q) : option (list slice * list Q) :=
  match dflt z_low (list_min fz), dflt z_high (list_max fz) with
  | Some lo, Some hi =>
      match redshifts_equal_frequency fuel lo hi a with
      | None => None
      | Some out =>
          match truncate_z fz out with
          | None => None
          | Some zs => option_map (fun o => (o, zs)) (lightcone_of interp fz files zs)
          end
      end
  | _, _ => None
  end.

(** Indices of [get_lightcone_subvolume] (lightcone.py:411-441) once [low_z] and
    [high_z] are known: [None] when an exception is raised. With [verbose] the code
    prints [redshifts[high_n]]. Result: the index range of the sub-volume. *)
Definition subvolume_range (redshifts : list Q) (low_z high_z : Q) (odd_num_cells verbose : bool)
  : option (nat * nat) :=
  match list_min redshifts, list_max redshifts with
  | Some lo, Some hi =>
      if Qltb low_z lo then None
      else if Qltb hi high_z then None
      else
        let low_n := nearest redshifts low_z in
        let high_n := nearest redshifts high_z in
        let high_n := if Z.eqb ((Z.of_nat high_n - Z.of_nat low_n) mod 2) 0 && odd_num_cells
                      then S high_n else high_n in
        if verbose && negb (Nat.ltb high_n (length redshifts)) then None
        else Some (low_n, high_n)
  | _, _ => None
  end.
