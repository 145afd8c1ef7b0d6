(** [gain_uv_map_to_uv_map]: radio_telescope_calibration.py:246-247. *)
From Coq Require Import ZArith Reals.
From Verif Require Import GainModel.
Local Open Scope R_scope.

(** [.astype(int)] of a float: the part after the point is dropped. *)
Definition astype_int (x : R) : Z := if Rle_dec 0 x then Int_part x else (- Int_part (- x))%Z.
(** [gain_uv_map[:,:,0].astype(int)]. *)
Definition gain_uv_map_to_uv_map (f : gmap) (i j : nat) : Z := astype_int (f i j 0%nat).
