(** How the power-spectrum functions use [box_dims]: power_spectrum.py:35-52 and 73-93 (volume),
    449-476 (wave numbers), with the keyword [boxsize]. *)
From Coq Require Import List Arith Reals.
From Verif Require Import KGridModel.
Import ListNotations.
Local Open Scope R_scope.

Definition prod (l : list R) : R := fold_right Rmult 1 l.
(** [if kwargs.get('boxsize') is not None: box_dims = kwargs.get('boxsize')] (lines 41, 81, 166, 217, 281). *)
Definition chosen (boxsize : option dims_arg) (box_dims : dims_arg) : dims_arg :=
  match boxsize with Some DNone | None => box_dims | Some b => b end.
(** [boxvol = numpy_product(box_dims)], [pixelsize = boxvol/numpy_product(shape)], the factor
    [pixelsize**2/boxvol] (lines 50-52, 91-93). [None]: exception. *)
Definition volume_factor (LB : R) (boxsize : option dims_arg) (box_dims : dims_arg) (shape : list nat) : option R :=
  match get_dims LB (chosen boxsize box_dims) (length shape) with
  | None => None
  | Some l => let boxvol := prod l in let pixelsize := boxvol / prod (map INR shape) in Some (pixelsize ^ 2 / boxvol)
  end.
(** [_get_k] (449-476): the components at a cell. It looks up [box_dims[i]] for each axis, an
    IndexError when there are fewer; above three dimensions it returns nothing. *)
Definition k_components (LB : R) (a : dims_arg) (shape cell : list nat) : option (list R) :=
  match get_dims LB a (length shape) with
  | None => None
  | Some l =>
      match shape, cell, l with
      | [n], [x], L :: _ => Some [get_k_1d n L x]
      | [n1; n2], [x; y], L1 :: L2 :: _ => Some [get_k_1d n1 L1 x; get_k_1d n2 L2 y]
      | [n1; n2; n3], [x; y; z], L1 :: L2 :: L3 :: _ => Some [get_k_3d n1 L1 x; get_k_3d n2 L2 y; get_k_3d n3 L3 z]
      | _, _, _ => None
      end
  end.
