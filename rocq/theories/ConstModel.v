(** Model of the mutable module globals of const.py and conv.py and of the functions that
    change them, over the reals (no rounding). *)
From Coq Require Import List ZArith Reals Bool.
Import ListNotations.
Local Open Scope R_scope.

(** Fixed physical constants (const.py:10-29). *)
Definition Mpc : R := 10 ^ 6 * (3086 / 1000 * 10 ^ 18).
Definition G_grav : R := 66732 / 10000 / 10 ^ 8.
Definition m_p : R := 1672661 / 1000000 / 10 ^ 24.
Definition A10 : R := 285 / 100 / 10 ^ 15.
Definition Tstar : R := 68 / 1000.
(** [lambda0 = c*1.0e5/(nu0*1.0e6)] (line 116) *)
Definition lambda0 : R := 3 * 10 ^ 5 * 10 ^ 5 / (1420 * 10 ^ 6).
Definition solar_masses_per_gram : R := 502785431 / 10 ^ 8 / 10 ^ 34.

(** * Globals of const.py that a setter writes or that are derived from such a one *)
Record const := Const {
  h : R; H0 : R; Omega0 : R; OmegaB : R; lam : R; OmegaL : R; n_s : R; sigma_8 : R; q0 : R;
  H0cgs : R; rho_crit_0 : R; rho_matter : R;
  abu_he_mass : R; abu_h_mass : R; mean_molecular : R; num_h_0 : R; meandt : R
}.
(** Values at import (const.py:19-43, 100-119). *)
Definition const0 : const :=
  let h := 7 / 10 in let Omega0 := 27 / 100 in let OmegaB := 44 / 1000 in let lam := 1 - Omega0 in
  let H0 := 100 * h in let H0cgs := H0 * 10 ^ 5 / Mpc in
  let rho_crit_0 := 3 * H0cgs * H0cgs / (8 * PI * G_grav) in
  let abu_he_mass := 2486 / 10000 in
  let num_h_0 := (1 - abu_he_mass) * OmegaB * rho_crit_0 / m_p in
  Const h H0 Omega0 OmegaB lam lam (96 / 100) (8 / 10) (5 / 10 * Omega0 - lam)
        H0cgs rho_crit_0 (rho_crit_0 * Omega0)
        abu_he_mass (1 - abu_he_mass) (1 / (1 - abu_he_mass)) num_h_0
        (3 * lambda0 ^ 3 / (32 * PI) * A10 * Tstar * num_h_0 / (H0cgs / h) * 1000).

(** * Globals of conv.py *)
Record conv := Conv {
  boxsize : R; LB : R; nbox_fine : R; M_box : R; M_grid : R; lscale : R; tscale : R
}.
(** Lines 14-19 and 63-67. *)
Definition conv_of (c : const) (b nbox : R) : conv :=
  let LB := b / h c in
  let M_box := rho_matter c * (LB * Mpc) ^ 3 in
  Conv b LB nbox M_box (M_box / nbox ^ 3) (LB / nbox * Mpc)
       (2 / (3 * sqrt (Omega0 c) * H0 c / Mpc * 10 ^ 5)).
(** Lines 10-20: 244/h Mpc box. *)
Definition conv0 : conv := conv_of const0 244 8000.

Definition state : Type := const * conv.
Definition state0 : state := (const0, conv0).

(** [flt_comp(x, y)] (helper_functions.py:139-141) *)
Definition flt_comp (x y : R) : bool := if Rlt_dec (Rabs (x - y)) (1 / 10 ^ 4) then true else false.
(** The chain of [elif]s of [set_sim_constants] (conv.py:36-61). *)
Definition box_table : list (R * R) :=
  [(425, 10976); (114, 6144); (64, 3456); (37, 2048); (500, 13824); (244, 8000); (47, 3456); (200, 3456)].
Definition nbox_of (b : R) : option R :=
  match find (fun e => flt_comp b (fst e)) box_table with Some e => Some (snd e) | None => None end.

(** * The functions that assign globals *)
Inductive op :=
| SetHubble (v : R) | SetOmegaMatter (v : R) | SetOmegaBaryon (v : R) | SetOmegaLambda (v : R)
| SetNs (v : R) | SetSigma8 (v : R) | SetHelium (v : R) | SetSim (b : R).

(** [set_hubble_h], ... (const.py:20-23, 46-97). [set_omega_lambda] declares only [lam]
    global, so its [OmegaL] is a local variable. *)
Definition set_const (o : op) (c : const) : const :=
  match c with
  | Const h H0 Omega0 OmegaB lam OmegaL n_s sigma_8 q0 H0cgs rho_crit_0 rho_matter he hm mm num mdt =>
    match o with
    | SetHubble v => Const v (100 * v) Omega0 OmegaB lam OmegaL n_s sigma_8 q0 H0cgs rho_crit_0 rho_matter he hm mm num mdt
    | SetOmegaMatter v => Const h H0 v OmegaB (1 - v) OmegaL n_s sigma_8 (5 / 10 * v - (1 - v)) H0cgs rho_crit_0 rho_matter he hm mm num mdt
    | SetOmegaBaryon v => Const h H0 Omega0 v lam OmegaL n_s sigma_8 q0 H0cgs rho_crit_0 rho_matter he hm mm num mdt
    | SetOmegaLambda v => Const h H0 Omega0 OmegaB v OmegaL n_s sigma_8 q0 H0cgs rho_crit_0 rho_matter he hm mm num mdt
    | SetNs v => Const h H0 Omega0 OmegaB lam OmegaL v sigma_8 q0 H0cgs rho_crit_0 rho_matter he hm mm num mdt
    | SetSigma8 v => Const h H0 Omega0 OmegaB lam OmegaL n_s v q0 H0cgs rho_crit_0 rho_matter he hm mm num mdt
    | SetHelium v => Const h H0 Omega0 OmegaB lam OmegaL n_s sigma_8 q0 H0cgs rho_crit_0 rho_matter v (1 - v) mm num mdt
    | SetSim _ => c
    end
  end.
(** [set_sim_constants] (conv.py:22-67): [boxsize] and [LB] are assigned before the size is
    looked up. The flag says whether an exception was raised. *)
Definition set_sim_constants (b : R) (c : const) (v : conv) : conv * bool :=
  match nbox_of b with
  | Some n => (conv_of c b n, false)
  | None => (Conv b (b / h c) (nbox_fine v) (M_box v) (M_grid v) (lscale v) (tscale v), true)
  end.
Definition step (s : state) (o : op) : state :=
  match o with
  | SetSim b => (fst s, fst (set_sim_constants b (fst s) (snd s)))
  | _ => (set_const o (fst s), snd s)
  end.
(** A session: calls in some order (a raised exception is caught by the caller). *)
Definition run (os : list op) : state := fold_left step os state0.

(** [velconvert(z)] (lines 20, 67): the lambda reads the current globals. *)
Definition velconvert (v : conv) (z : R) : R := lscale v / tscale v * (1 + z) / 10 ^ 5.
(** [gridpos_to_mpc] (line 80) *)
Definition gridpos_to_mpc (v : conv) (x : R) : R := x * lscale v / Mpc.
(** [gridvel_to_kms] (line 94) *)
Definition gridvel_to_kms (v : conv) (x z : R) : R := x * velconvert v z.
(** [gridmass_to_msol] (line 107) *)
Definition gridmass_to_msol (v : conv) (m : R) : R := ln (m * M_grid v * solar_masses_per_gram) / ln 10.
(** [_ldist] (cosmo.py:81-84): the quantity under the square root. *)
Definition ldist_denom (c : const) (z : R) : R :=
  (1 + z) ^ 2 * (1 + 2 * (q0 c + lam c) * z) - z * (2 + z) * lam c.
