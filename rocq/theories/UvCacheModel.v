(** Model of the uv-map cache: [get_uv_map_lightcone]
    (radio_telescope_noise.py:182-318) and the dictionary file it keeps
    (read_files.py:164-316).

    Simplifications.
    - A redshift is a rational; its dictionary key ['{:.3f}'.format(z)] is the
      integer number of thousandths, rounded half to even (negative zero, which
      would print as "-0.000", is not distinguished from zero).
    - A uv map is a value of an arbitrary type [M]; computing one
      (the lambda [_uvmap_worker], line 266) is an arbitrary pure function
      [worker : Q -> M].
    - A Python dictionary is an association list in insertion order.
    - A file is absent, torn (truncated but not completely written) or holds a
      dictionary; reading a torn file raises.  [write_dictionary_data] opens the
      file for writing, which truncates it, and then writes
      (read_files.py:248-316): two events.
    - joblib's [Parallel] returns its results in submission order; the order in
      which workers actually run is not observable and is taken to be that
      order.  Printing is not modelled. *)
From Coq Require Import String List Arith ZArith QArith Lia Bool.
From Verif Require Import PyBase.
Import ListNotations.
Local Open Scope nat_scope.

(** Names of the recorded observation parameters (radio_telescope_noise.py:223-231). *)
Inductive param := Pncells | Pboxsize | Ptotal_int_time | Pint_time
                 | Pdeclination | Psubarray_type | PN_ant.

(** Dictionary keys: a parameter name or a formatted redshift (line 260, 284). *)
Inductive key := KParam (p : param) | KZ (milli : Z).

(** Parameter values are numbers or strings. *)
Inductive pval := PNum (q : Q) | PStr (s : string).

Definition param_eqb (a b : param) : bool :=
  match a, b with
  | Pncells, Pncells | Pboxsize, Pboxsize | Ptotal_int_time, Ptotal_int_time
  | Pint_time, Pint_time | Pdeclination, Pdeclination
  | Psubarray_type, Psubarray_type | PN_ant, PN_ant => true
  | _, _ => false
  end.

Definition key_eqb (a b : key) : bool :=
  match a, b with
  | KParam p, KParam q => param_eqb p q
  | KZ m, KZ n => Z.eqb m n
  | _, _ => false
  end.

Definition pval_eqb (a b : pval) : bool :=
  match a, b with
  | PNum x, PNum y => Qeq_bool x y
  | PStr s, PStr t => String.eqb s t
  | _, _ => false
  end.

(** ['{:.3f}'.format(zi)] (line 260): thousandths, round half to even. *)
Definition zkey (z : Q) : key := KZ (round_half_even (z * 1000)%Q).

(** The observation parameters of one call. *)
Record call := { ncells : Q; boxsize : Q; total_int_time : Q; int_time : Q;
                 declination : Q; subarray_type : string; N_ant : Q }.

(** The dictionary [params] (lines 223-231). *)
Definition params_of (a : call) : list (param * pval) :=
  [ (Pncells, PNum (ncells a)); (Pboxsize, PNum (boxsize a));
    (Ptotal_int_time, PNum (total_int_time a)); (Pint_time, PNum (int_time a));
    (Pdeclination, PNum (declination a)); (Psubarray_type, PStr (subarray_type a));
    (PN_ant, PNum (N_ant a)) ].

Section Model.
  Context {M : Type}.
  (** [_uvmap_worker] (line 266). *)
  Variable worker : Q -> M.

  Inductive value := VPar (v : pval) | VMap (m : M).

  Definition dict := list (key * value).

  (** [d.get(k)] *)
  Fixpoint dget (k : key) (d : dict) : option value :=
    match d with
    | [] => None
    | (k', v) :: d' => if key_eqb k k' then Some v else dget k d'
    end.

  (** [d[k] = v]: replace in place, else append. *)
  Fixpoint dset (k : key) (v : value) (d : dict) : dict :=
    match d with
    | [] => [(k, v)]
    | (k', v') :: d' =>
        if key_eqb k k' then (k', v) :: d' else (k', v') :: dset k v d'
    end.

  (** [k in d] *)
  Definition dmem (k : key) (d : dict) : bool :=
    match dget k d with Some _ => true | None => false end.

  (** State of the save file on disk. *)
  Inductive file := Absent | Torn | Good (d : dict).

  (** Observable effects of a run, in order. *)
  Inductive event :=
  | ECompute (z : Q)          (* one call of the worker *)
  | ETrunc                    (* the file is opened for writing: truncated *)
  | ECommit (d : dict).       (* the write is complete *)

  (** [params.copy()] (line 257). *)
  Definition params_dict (ps : list (param * pval)) : dict :=
    map (fun pv => (KParam (fst pv), VPar (snd pv))) ps.

  (** Validation loop (lines 239-246): a key that the cached dictionary lacks
      passes; a key whose cached value differs is a mismatch.  (A cached uv map
      under a parameter name makes the comparison raise; either way the call
      raises.) *)
  Definition mismatch (d : dict) (pv : param * pval) : bool :=
    match dget (KParam (fst pv)) d with
    | None => false
    | Some (VPar v) => negb (pval_eqb v (snd pv))
    | Some (VMap _) => true
    end.

  (** [uvs['{:.3f}'.format(zi)] = uv_map] *)
  Definition store (d : dict) (z : Q) : dict := dset (zkey z) (VMap (worker z)) d.

  (** [write_dictionary_data(uvs, save_uvmap)] *)
  Definition write (d : dict) : list event := [ETrunc; ECommit d].

  (** Chunked parallel processing (lines 271-289). [c] is the checkpoint. *)
  Fixpoint run_chunks (save : bool) (uvs : dict) (cs : list (list Q))
    : dict * list event :=
    match cs with
    | [] => (uvs, [])
    | zc :: cs' =>
        let uvs1 := fold_left store zc uvs in
        let w := if save then write uvs1 else [] in
        let (uvs2, evs) := run_chunks save uvs1 cs' in
        (uvs2, map ECompute zc ++ w ++ evs)
    end.

  Definition chunk_list (c : nat) (l : list Q) : list (list Q) :=
    map (fun i => py_slice l i (i + c)) (py_range 0 (length l) c).

  (** Parallel at once (lines 292-297). *)
  Definition run_parallel (uvs : dict) (l : list Q) : dict * list event :=
    (fold_left store l uvs, map ECompute l).

  (** Truthiness and divisibility test of line 304:
      [checkpoint and (i + 1) % checkpoint == 0]. *)
  Definition is_checkpoint_step (ckpt : option Z) (i : nat) : bool :=
    match ckpt with
    | None => false
    | Some c => negb (Z.eqb c 0) && Z.eqb (Z.modulo (Z.of_nat (i + 1)) c) 0
    end.

  (** Sequential processing (lines 299-308); [i] is the loop index, [n] the
      length of [z_to_run]. *)
  Fixpoint run_seq (save : bool) (ckpt : option Z) (n i : nat) (uvs : dict)
           (l : list Q) : dict * list event :=
    match l with
    | [] => (uvs, [])
    | z :: l' =>
        let uvs1 := store uvs z in
        let w := if save && is_checkpoint_step ckpt i && Nat.ltb (i + 1) n
                 then write uvs1 else [] in
        let (uvs2, evs) := run_seq save ckpt n (i + 1) uvs1 l' in
        (uvs2, ECompute z :: w ++ evs)
    end.

  Inductive outcome :=
  | Raised                                   (* an exception leaves the call *)
  | Returned (d : dict) (evs : list event).  (* returned dictionary, effects *)

  (** [get_uv_map_lightcone] (lines 182-318). [save] says whether [save_uvmap]
      was given; [f] is the state of that file when the call starts. *)
  Definition uv_run (a : call) (zs : list Q) (save : bool)
             (njobs : Z) (ckpt : option Z) (f : file) : outcome :=
    let ps := params_of a in
    let loaded :=
      if save then
        match f with
        | Good d => if existsb (mismatch d) ps then None else Some d
        | Torn => None
        | Absent => Some (params_dict ps)
        end
      else Some (params_dict ps) in
    match loaded with
    | None => Raised
    | Some uvs =>
        let z_to_run := filter (fun z => negb (dmem (zkey z) uvs)) zs in
        match z_to_run with
        | [] => Returned uvs []
        | _ :: _ =>
            let chunked := match ckpt with
                           | Some c => Z.ltb 1 njobs && Z.ltb 0 c
                           | None => false
                           end in
            let (uvs1, evs) :=
              if chunked then
                run_chunks save uvs
                  (chunk_list (Z.to_nat (match ckpt with Some c => c | None => 0%Z end)) z_to_run)
              else if Z.ltb 1 njobs then run_parallel uvs z_to_run
              else run_seq save ckpt (length z_to_run) 0 uvs z_to_run in
            Returned uvs1 (evs ++ if save then write uvs1 else [])
        end
    end.

  (** Effect of an event on the save file. *)
  Definition file_step (f : file) (e : event) : file :=
    match e with
    | ECompute _ => f
    | ETrunc => Torn
    | ECommit d => Good d
    end.

  (** The file after the first [k] effects of a run (a crash after [k] effects);
      a call that raises touches nothing. *)
  Definition file_after (o : outcome) (k : nat) (f : file) : file :=
    match o with
    | Raised => f
    | Returned _ evs => fold_left file_step (firstn k evs) f
    end.

  (** The file after a complete run. *)
  Definition file_final (o : outcome) (f : file) : file :=
    match o with
    | Raised => f
    | Returned _ evs => fold_left file_step evs f
    end.

  (** One interrupted run: its scheduling options and the number of effects it
      got through before the crash. *)
  Record crashed := { cr_njobs : Z; cr_ckpt : option Z; cr_steps : nat }.

  Definition crash_once (a : call) (zs : list Q) (f : file) (c : crashed) : file :=
    file_after (uv_run a zs true (cr_njobs c) (cr_ckpt c) f) (cr_steps c) f.

  (** Any number of interrupted runs, one after the other. *)
  Definition after_crashes (a : call) (zs : list Q) (f : file) (cs : list crashed) : file :=
    fold_left (crash_once a zs) cs f.

  (** Worker calls of a run. *)
  Definition computed (o : outcome) : list Q :=
    match o with
    | Raised => []
    | Returned _ evs =>
        flat_map (fun e => match e with ECompute z => [z] | _ => [] end) evs
    end.
End Model.

Arguments value : clear implicits.
Arguments dict : clear implicits.
Arguments file : clear implicits.
Arguments event : clear implicits.
Arguments outcome : clear implicits.
