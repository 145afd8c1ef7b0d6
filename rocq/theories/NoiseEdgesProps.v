(** C93: the default bins end at the largest wavenumber of the map. *)
From Coq Require Import String List Arith ZArith Reals Lra Lia Bool.
From Verif Require Import RLib KGridModel FourierModel FourierSpec FourierProofs NoiseModel SpecModel NoisePsModel NoisePsProps.
Import ListNotations.
Local Open Scope R_scope.

Lemma fold_Rmax : forall l a, let m := fold_left Rmax l a in a <= m /\ (forall x, In x l -> x <= m) /\ (m = a \/ In m l).
Proof.
  induction l as [|y l IH]; intro a; cbn [fold_left]; [split; [apply Rle_refl|]; split; [intros x []|left; reflexivity]|]. destruct (IH (Rmax a y)) as (A & B & C). pose proof (Rmax_l a y). pose proof (Rmax_r a y). split; [lra|]. split; [intros x [<-|I]; [lra|apply B, I]|]. destruct C as [C|C]; [|right; right; exact C]. rewrite C. unfold Rmax. destruct (Rle_dec a y); [right; left; reflexivity|left; reflexivity].
Qed.
Lemma kmax_spec : forall n L, (0 < n)%nat -> (forall j, valid [n; n] j -> k2 n L j <= kmax n L) /\ exists j, valid [n; n] j /\ k2 n L j = kmax n L.
Proof.
  intros n L Hn. destruct (fold_Rmax (map (k_of [n; n] [L; L]) (indices [n; n])) 0) as (A & B & C). fold (kmax n L) in A, B, C. split; [intros j V; apply B, in_map, indices_valid, V|].
  destruct C as [C|C]; [|apply in_map_iff in C; destruct C as (j & E & I); exists j; split; [apply indices_valid, I|exact E]].
  assert (V : valid [n; n] [0%nat; 0%nat]) by (repeat constructor; exact Hn). exists [0%nat; 0%nat]. split; [exact V|]. apply Rle_antisym; [apply B, in_map, indices_valid, V|]. rewrite C. unfold k2, k_of. apply sqrt_pos.
Qed.
(** Both kinds of default bins reach from the fundamental wavenumber to the largest of all cells, so that no cell lies above them. *)
Theorem C93_last_edge : forall n L m, 0 < L -> (2 <= n)%nat -> (0 < m)%nat -> forall e, e = nth m (log_edges n L m) 0 \/ e = nth m (linear_edges n L m) 0 ->
  (forall j, valid [n; n] j -> k2 n L j <= e) /\ exists j, valid [n; n] j /\ k2 n L j = e.
Proof.
  intros n L m HL Hn Hm e He. destruct (kmax_spec n L ltac:(lia)) as [K1 K2]. pose proof PI_RGT_0 as P. assert (Q : 0 < 2 * PI / L) by (apply Rdiv_lt_0_compat; lra). assert (L10 : ln 10 <> 0) by (assert (0 < ln 10) by (rewrite <- ln_1; apply ln_increasing; lra); lra).
  assert (Sm : INR m <> 0) by (apply not_0_INR; lia).
  assert (KP : 0 < kmax n L). { assert (V : valid [n; n] [0%nat; 0%nat]) by (repeat constructor; lia). specialize (K1 _ V). apply Rlt_le_trans with (2 := K1). unfold k2, k_of. apply sqrt_lt_R0. unfold get_k_1d, k_component, center_half. change (INR 0) with 0. assert (1 <= INR (n - 1)) by (apply (le_INR 1); lia). assert (Z : 2 * PI * (0 - INR (n - 1) / 2) / L < 0); [|nra]. unfold Rdiv at 1. assert (0 < / L) by (apply Rinv_0_lt_compat; exact HL). nra. }
  assert (E : e = kmax n L). { destruct He as [-> | ->].
    - unfold log_edges. rewrite (nth_indep _ 0 (Rpower 10 (step (log10 (2 * PI / L)) (log10 (kmax n L)) m 0))) by (rewrite map_length, seq_length; lia). rewrite (map_nth (fun t => Rpower 10 (step (log10 (2 * PI / L)) (log10 (kmax n L)) m t))), seq_nth by lia. cbn [Nat.add]. replace (step (log10 (2 * PI / L)) (log10 (kmax n L)) m m) with (log10 (kmax n L)) by (unfold step; field; exact Sm). unfold Rpower, log10. replace (ln (kmax n L) / ln 10 * ln 10) with (ln (kmax n L)) by (field; exact L10). apply exp_ln, KP.
    - unfold linear_edges. rewrite (nth_indep _ 0 (step (2 * PI / L) (kmax n L) m 0)) by (rewrite map_length, seq_length; lia). rewrite (map_nth (step (2 * PI / L) (kmax n L) m)), seq_nth by lia. cbn [Nat.add]. unfold step. field. split; [lra|exact Sm]. }
  rewrite E. split; assumption.
Qed.
Print Assumptions C93_last_edge.
Example C93_last_edge_sat : exists n L m, 0 < L /\ (2 <= n)%nat /\ (0 < m)%nat /\ exists e, e = nth m (log_edges n L m) 0 \/ e = nth m (linear_edges n L m) 0.
Proof. exists 8%nat, 100, 5%nat. split; [lra|]. split; [lia|]. split; [lia|]. eexists. left. reflexivity. Qed.
