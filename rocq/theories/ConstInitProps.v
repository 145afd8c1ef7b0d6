(** C34: the conversion factors a program finds without choosing a simulation. *)
From Coq Require Import List Reals Lra.
From Verif Require Import ConstModel ConstSpec ConstProps.
Import ListNotations.
Local Open Scope R_scope.

(** A session that never chooses a simulation ends in the same state, whatever setters it calls, as one that chooses the documented
    244 Mpc/h simulation first: its box, its mesh of 8000 cells, and the masses, cell size and time scale of the initial cosmology. *)
Theorem C34_unset_is_244 : forall os, no_call os -> documented_box 244 8000 /\ run os = run (SetSim 244 :: os) /\
  boxsize (snd (run os)) = 244 /\ nbox_fine (snd (run os)) = 8000.
Proof.
  intros os N. split; [unfold documented_box; tauto|].
  assert (E : step state0 (SetSim 244) = state0).
  { unfold step, set_sim_constants, state0. cbn [fst snd]. unfold conv0.
    assert (Q : nbox_of 244 = Some 8000). { apply (proj1 (nbox_of_spec 244)). exists 244. split; [unfold documented_box; tauto|]. rewrite Rminus_diag_eq by reflexivity. rewrite Rabs_R0. lra. }
    rewrite Q. reflexivity. }
  split; [unfold run; cbn [fold_left]; now rewrite E|].
  assert (K : snd (run os) = conv0). { unfold run. rewrite (keep_nocall os _ N). reflexivity. }
  rewrite K. split; reflexivity.
Qed.
Print Assumptions C34_unset_is_244.
Example C34_unset_is_244_sat : no_call [SetHubble (68 / 100); SetOmegaMatter (3 / 10)].
Proof. intros b [H|[H|[]]]; discriminate. Qed.
