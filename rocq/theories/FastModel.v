(** Wrappers of 21cmFAST (model_21cmfast.py:4-105). The package is an argument; what is called is recorded in order. *)
From Coq Require Import String List QArith Bool.
Import ListNotations.

Inductive outcome (A : Type) := Returned (a : A) | Raised (e : string).
Arguments Returned {A}. Arguments Raised {A}.

Section Fast.
(** [P]: dictionaries of parameters; [K]: the other keyword arguments; [I]: initial conditions; [F]: matter fields; [V]: coeval boxes. *)
Context {P K I F V : Type}.
(** Arguments shared by the calls (12-20). *)
Record settings := { user_params : P; cosmo_params : P; write : bool; direc : option string; random_seed : Z; regenerate : bool; global_kwargs : K }.
(** Arguments of [run_coeval] besides these (68-82). *)
Record more := { astro_params : P; flag_options : P; init_box_arg : option I; perturb : option F; use_interp_perturb_field : bool; pt_halos : bool }.
(** The package. [perturb_field] gets the redshift, the initial conditions and the other keyword arguments. *)
Record package := { initial_conditions : settings -> I; perturb_field : Q -> I -> K -> F; run_coeval : list Q -> settings -> more -> list V }.
Inductive call := Initial (s : settings) | Perturb (z : Q) (ic : I) (k : K) | Coeval (zs : list Q) (s : settings) (m : more).

(** The redshift argument: a Python int or float ([np.float64] is one), an array with an axis, a list or tuple, or a number of another type, [np.float32] say. *)
Inductive redshift_arg := PyNumber (z : Q) | Array (zs : list Q) | Sequence (zs : list Q) | OtherNumber (z : Q).

(** A dictionary filled in order: the pairs, the first with a key before the later ones; a second assignment keeps the place. *)
Fixpoint assign {V'} (d : list (Q * V')) (z : Q) (v : V') : list (Q * V') :=
  match d with
  | [] => [(z, v)]
  | (y, w) :: r => if Qeq_bool y z then (y, v) :: r else (y, w) :: assign r z v
  end.
Definition dict_of {V'} (l : list (Q * V')) : list (Q * V') := fold_left (fun d p => assign d (fst p) (snd p)) l [].

(** [run_21cmfast_init] (12-34): nothing without the package. *)
Definition run_21cmfast_init (p : option package) (s : settings) : option I * list call :=
  match p with
  | None => (None, [])
  | Some p => (Some (initial_conditions p s), [Initial s])
  end.
(** [run_21cmfast_matter] (36-66): the loop over [redshift] comes after the initial conditions. *)
Definition run_21cmfast_matter (p : option package) (redshift : redshift_arg) (init_box : option I) (s : settings) : outcome (option (list (Q * F))) * list call :=
  match p with
  | None => (Returned None, [])
  | Some p =>
      let (ic, before) := match init_box with Some ic => (ic, []) | None => (initial_conditions p s, [Initial s]) end in
      match redshift with
      | PyNumber _ | OtherNumber _ => (Raised "TypeError", before)
      | Array zs | Sequence zs =>
          (Returned (Some (dict_of (map (fun z => (z, perturb_field p z ic (global_kwargs s))) zs))), before ++ map (fun z => Perturb z ic (global_kwargs s)) zs)
      end
  end.
(** [run_21cmfast_coeval] (68-105). [coevals[ii]] raises if fewer boxes came back than were asked for. *)
Fixpoint zip_all (zs : list Q) (vs : list V) : option (list (Q * V)) :=
  match zs, vs with
  | [], _ => Some []
  | _ :: _, [] => None
  | z :: zs', v :: vs' => match zip_all zs' vs' with Some r => Some ((z, v) :: r) | None => None end
  end.
Definition run_21cmfast_coeval (p : option package) (redshift : redshift_arg) (s : settings) (m : more) : outcome (option (list (Q * V))) * list call :=
  match p with
  | None => (Returned None, [])
  | Some p =>
      match redshift with
      | OtherNumber z => (Raised "TypeError", [Coeval [z] s m])
      | PyNumber z => (match zip_all [z] (run_coeval p [z] s m) with Some l => Returned (Some (dict_of l)) | None => Raised "IndexError" end, [Coeval [z] s m])
      | Array zs | Sequence zs => (match zip_all zs (run_coeval p zs s m) with Some l => Returned (Some (dict_of l)) | None => Raised "IndexError" end, [Coeval zs s m])
      end
  end.
(** What [out[z]] finds. *)
Definition lookup {V'} (d : list (Q * V')) (z : Q) : option V' := option_map snd (find (fun p => Qeq_bool (fst p) z) d).
End Fast.
