(** Model of the choice of files in [coeval_xfrac], [coeval_dens] (usefuls.py:52-95) and
    [coeval_xfrac_c2ray], [coeval_dens_c2ray] (read_files.py:102-161). *)
From Coq Require Import List Arith ZArith QArith Bool.
From Verif Require Import QLib.
Import ListNotations.
Local Open Scope nat_scope.

(** [argmax], [argmin]: the first position of the largest, smallest value. *)
Fixpoint argmax (l : list Q) : nat :=
  match l with
  | [] => 0
  | x :: r => let j := argmax r in if Qle_bool (nth j r x) x then 0 else S j
  end.
Fixpoint argmin (l : list Q) : nat :=
  match l with
  | [] => 0
  | x :: r => let j := argmin r in if Qle_bool x (nth j r x) then 0 else S j
  end.

(** A cube is the list of its cells. *)
Definition cube : Type := list Q.
(** [xfrac_h + (xfrac_l-xfrac_h)*(z-z_h)/(z_l-z_h)], cell by cell. *)
Definition blend (l h : cube) (z z_l z_h : Q) : cube :=
  map (fun p => (snd p + (fst p - snd p) * (z - z_h) / (z_l - z_h))%Q) (combine l h).

Section Coeval.
  (** The files in the order of [glob.glob], and the redshifts in their names. *)
  Variable zs : list Q.
  Variable cubes : list cube.
  Variable z : Q.
  Definition below : list Q := filter (fun x => Qltb x z) zs.
  Definition above : list Q := filter (fun x => Qltb z x) zs.
  (** [z in zs] *)
  Definition present : bool := existsb (fun x => Qeq_bool x z) zs.

  (** [files[zs[zs<z].argmax()]]: the index into the filtered array is applied to the
      whole list. [None]: an exception. For a redshift that is present,
      [files[np.argwhere(z==zs)]] indexes a Python list with a two-dimensional array, a
      TypeError; without a lower or higher redshift [max()], [min()] raise. *)
  Definition low_index : nat := argmax below.
  Definition high_index : nat := argmin above.
  Definition coeval_xfrac : option cube :=
    if present then None
    else match below, above with
         | _ :: _, _ :: _ =>
             match nth_error cubes low_index, nth_error cubes high_index with
             | Some l, Some h => Some (blend l h z (nth low_index below 0%Q) (nth high_index above 0%Q))
             | _, _ => None
             end
         | _, _ => None
         end.
  (** [coeval_dens] is the same with another reader. [coeval_dens_c2ray] scales the file
      above: [dens_h*(1+z_h)**3/(1+z)**3]. *)
  Definition coeval_dens_c2ray : option cube :=
    if present then None
    else match above with
         | _ :: _ =>
             match nth_error cubes high_index with
             | Some h => let z_h := nth high_index above 0%Q in
                         Some (map (fun x => (x * Qpower (1 + z_h) 3 / Qpower (1 + z) 3)%Q) h)
             | None => None
             end
         | [] => None
         end.
End Coeval.
