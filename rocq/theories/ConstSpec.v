(** Notions for the statements about the global constants. *)
From Coq Require Import List Reals.
Import ListNotations.
Local Open Scope R_scope.

(** Box sizes (Mpc/h) listed in the documentation, with the fine mesh of that simulation. *)
Definition documented_box (b nbox : R) : Prop :=
  (b = 37 /\ nbox = 2048) \/ (b = 47 /\ nbox = 3456) \/ (b = 64 /\ nbox = 3456) \/ (b = 114 /\ nbox = 6144) \/
  (b = 200 /\ nbox = 3456) \/ (b = 244 /\ nbox = 8000) \/ (b = 425 /\ nbox = 10976) \/ (b = 500 /\ nbox = 13824).
(** Accepted: within 10^-4 of a documented size. *)
Definition accepted_box (b nbox : R) : Prop := exists d, documented_box d nbox /\ Rabs (b - d) < 1 / 10 ^ 4.

(** Squared expansion rate in units of H0 for given density parameters. *)
Definition expansion_squared (om ol z : R) : R := om * (1 + z) ^ 3 + ol + (1 - om - ol) * (1 + z) ^ 2.
