(** Galactic synchrotron foreground: [galactic_synch_fg] (foreground_model.py:12-51), over exact reals. *)
From Coq Require Import String List Arith ZArith Reals Bool.
From Verif Require Import RLib ConstModel FourierModel DftLib UnitsModel.
Import ListNotations.
Local Open Scope R_scope.

Inductive outcome (A : Type) := Returned (a : A) | Raised (e : string).
Arguments Returned {A}. Arguments Raised {A}.

(** The redshift argument (30-33): a float becomes an array of one entry, a list or array is used as it is; a Python int, say,
    becomes an array without axes. Simplification: the behaviour of [copy=False] before numpy 2. *)
Inductive redshift_arg := Float (z : R) | Array (zs : list R) | Scalar (z : R).

(** [np.mgrid[-ncells/2:ncells/2, ...] + 0.5] (42), along one axis. *)
Definition grid (n i : nat) : R := - (INR n / 2) + INR i + 1 / 2.
(** [l_cb] (42-43). [dist] is [z_to_cdist(z)]. *)
Definition multipole (n : nat) (box dist : R) (j : list nat) : R :=
  let u := fun i => grid n i * dist / box in 2 * PI * sqrt (u (nth 0 j 0%nat) ^ 2 + u (nth 1 j 0%nat) ^ 2).
(** [C_syn] (38, 44) where [l] is not zero. *)
Definition synch_power (nu l : R) : R :=
  513 * Rpower (1000 / l) (234 / 100) * Rpower (nu / 150) (- 2 * (28 / 10) - 2 * (1 / 10) * ln (nu / 150)).
(** [AA] (45-46). *)
Definition amplitude (n : nat) (box dist nu : R) (j : list nat) : R :=
  let solid_angle := box ^ 2 / dist ^ 2 in sqrt (solid_angle * synch_power nu (multipole n box dist j) / 2).
(** Lines 47-49 for one redshift. Where [l] is zero the amplitude is infinite, and the transform has no finite cell: [None]. *)
Definition synch_map (v : conv) (n : nat) (box dist z : R) (X Y : array) : option (list R) :=
  if existsb (fun j => if Req_EM_T (multipole n box dist j) 0 then true else false) (indices [n; n]) then None
  else
    let A := amplitude n box dist (z_to_nu z) in
    let P := fun j => A j * X j in let Q := fun j => A j * Y j in
    let T := map (fun a => cabs (ifft_re [n; n] P Q a) (ifft_im [n; n] P Q a)) (indices [n; n]) in
    Some (jansky_2_kelvin v dist (Z.of_nat n) (map (fun t => t * 10 ^ 6) T) z (Some box) (Some (Z.of_nat n))).
(** The random numbers (36-38): [state] is that of the global generator, [seeded s] the one [np.random.seed(s)] sets, and
    [normals st k] the [k]-th variate drawn from [st]. *)
Section Draws.
Context {St : Type} (normals : St -> nat -> R) (seeded : Z -> St).
Definition start (rseed : Z) (state : St) : St := if (rseed =? 0)%Z then state else seeded rseed.
Definition draw_X (n : nat) (st : St) : array := fun j => normals st (nth 0 j 0%nat * n + nth 1 j 0%nat)%nat.
Definition draw_Y (n : nat) (st : St) : array := fun j => normals st (n * n + (nth 0 j 0%nat * n + nth 1 j 0%nat))%nat.
(** The maps of all redshifts, along the last axis before [squeeze] (51). *)
Definition galactic_synch_fg (v : conv) (z_to_cdist : R -> R) (zarg : redshift_arg) (n : nat) (box : R) (rseed : Z) (state : St) : outcome (list (option (list R))) :=
  let st := start rseed state in
  let one := fun z => synch_map v n box (z_to_cdist z) z (draw_X n st) (draw_Y n st) in
  match zarg with
  | Float z => Returned [one z]
  | Array zs => Returned (map one zs)
  | Scalar _ => Raised "IndexError"
  end.
End Draws.
(** The shape after [squeeze]. *)
Definition squeezed (shape : list nat) : list nat := filter (fun m => negb (m =? 1)%nat) shape.
