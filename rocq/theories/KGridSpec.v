(** Discrete frequencies, independent of the code. *)
From Coq Require Import List Arith ZArith Reals Lia.
Import ListNotations.
Local Open Scope R_scope.

(** [m] is the signed frequency number of DFT output [j] of length [n]: congruent to j,
    in the symmetric range -n/2 <= m < n/2. *)
Definition signed_frequency (n j : nat) (m : Z) : Prop :=
  (m mod Z.of_nat n = Z.of_nat j /\ - Z.of_nat n <= 2 * m < Z.of_nat n)%Z.

(** Wave number of frequency [m] in a box of side [L]. *)
Definition wavenumber (L : R) (m : Z) : R := 2 * PI * IZR m / L.
