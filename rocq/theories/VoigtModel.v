(** Voigt profiles: [approximation_voigt_faddeeva] and [direct_voigt_profile] (lyman_alpha_transmission.py:11-98). *)
From Coq Require Import Reals List.
Import ListNotations.
Local Open Scope R_scope.

(** [wofz] (46-50): the real part of the Faddeeva function at x + i a. *)
Definition approximation_voigt_faddeeva (wofz_re : R -> R -> R) (x a : R) : R := wofz_re x a.
(** The lambda [Iy] (93). *)
Definition Iy (y x a : R) : R := exp (- y ^ 2) / ((y - x) ^ 2 + a ^ 2).
(** [out_func] (94-96): [quad f] is the first entry of [integrate.quad(f, -inf, inf)]. *)
Definition out_func (quad : (R -> R) -> R) (x a : R) : R := quad (fun y => Iy y x a).
(** Lines 97-98 on arrays: [np.vectorize] pairs the entries of [x] with the one [a]. *)
Definition direct_voigt_profile (quad : (R -> R) -> R) (x : list R) (a : R) : list R := map (fun xi => (a / PI) * out_func quad xi a) x.
