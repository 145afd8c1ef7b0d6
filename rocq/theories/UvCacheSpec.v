(** Specification of the uv-map cache, independent of the loops of the model. *)
From Coq Require Import String List Arith ZArith QArith Lia Bool.
From Verif Require Import PyBase UvCacheModel.
Import ListNotations.
Local Open Scope nat_scope.

(** Two recorded values agree: equal numbers, or the same text; a number never agrees with a text. *)
Definition same_value (a b : pval) : Prop :=
  match a, b with PNum x, PNum y => (x == y)%Q | PStr s, PStr t => s = t | _, _ => False end.

Section Spec.
  Context {M : Type}.
  Variable worker : Q -> M.

  (** What the dictionary holds before any map is computed: the contents of a
      usable save file, else the parameters of the call. *)
  Definition starting_dict (a : call) (save : bool) (f : file M) : dict M :=
    match save, f with
    | true, Good d => d
    | _, _ => params_dict (params_of a)
    end.

  (** What must be under key [k] in the end: what was there already, else the
      map of the last requested redshift that prints as [k]. *)
  Definition expected_entry (a : call) (zs : list Q) (save : bool) (f : file M)
             (k : key) : option (value M) :=
    match dget k (starting_dict a save f) with
    | Some v => Some v
    | None =>
        match find (fun z => key_eqb (zkey z) k) (rev zs) with
        | Some z => Some (VMap (worker z))
        | None => None
        end
    end.

  (** A save file is usable: not torn, and every parameter it records is the one
      of the call. *)
  Definition usable (a : call) (f : file M) : Prop :=
    match f with
    | Absent => True
    | Torn => False
    | Good d => forall p v, In (p, v) (params_of a) ->
                  dget (KParam p) d = None
                  \/ exists w, dget (KParam p) d = Some (VPar w) /\ same_value w v
    end.

  (** Worker results that are not yet in a completely written file after the
      effects [evs]. *)
  Definition unsaved (evs : list (event M)) : nat :=
    fold_left (fun n e => match e with
                          | ECompute _ => S n
                          | ETrunc => n
                          | ECommit _ => 0
                          end) evs 0.

  (** Redshifts whose printed keys are pairwise different. *)
  Definition distinct_keys (zs : list Q) : Prop := NoDup (map zkey zs).
End Spec.
