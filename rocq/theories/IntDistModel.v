(** [cdist_to_z] (cosmo.py:148-173) for one distance: [z = np.zeros_like(dist)] has the type of
    the distance, so an integer distance gets an integer redshift. [func] is the cubic
    interpolation of line 170. *)
From Coq Require Import ZArith Reals.
From Verif Require Import ConstModel UnitsModel.
Local Open Scope R_scope.
Definition cdist_to_z (func : R -> R) (dist : number) : number := store_like dist (func (val dist)).
