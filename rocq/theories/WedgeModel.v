(** The slope of the wedge: [one_over_E] and [multiplicative_factor] in [rolling_wedge_removal_lightcone] (foreground_model.py:168-171), over
    exact reals; [quad f z] is scipy's integral of f from 0 to z. *)
From Coq Require Import Reals.
Local Open Scope R_scope.
Definition one_over_E (OMm z : R) : R := 1 / sqrt (OMm * (1 + z) ^ 3 + (1 - OMm)).
Definition multiplicative_factor (quad : (R -> R) -> R -> R) (OMm z : R) : R := 1 / one_over_E OMm z / (1 + z) * quad (one_over_E OMm) z.
