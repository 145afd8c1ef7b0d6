(** More of C62: mass-weighted means. *)
From Coq Require Import List Arith Reals Lra Lia.
From Verif Require Import RLib StatsModel StatsSpec StatsProps.
Import ListNotations.
Local Open Scope R_scope.

Lemma cells_len (cells : list (R * R)) : rsum (map snd cells) <> 0 -> 0 < INR (length cells).
Proof. intros H. destruct cells; [cbn in H; lra|]. apply lt_0_INR. cbn. lia. Qed.

(** It is the sum of the ionized masses over the mass. *)
Theorem C62_formula : forall cells, rsum (map snd cells) <> 0 ->
  mass_weighted_mean_xi cells * rsum (map snd cells) = rsum (map (fun c => fst c * snd c) cells).
Proof.
  intros cells H. pose proof (cells_len cells H) as L. unfold mass_weighted_mean_xi, mean. rewrite !map_length. field. lra.
Qed.
Print Assumptions C62_formula.
Example C62_formula_sat : exists cells : list (R * R), rsum (map snd cells) <> 0.
Proof. exists [(1, 2); (0, 1)]. cbn. lra. Qed.

(** It differs from the plain mean by the covariance of fraction and density over the mean
    density: it is larger iff dense cells are more ionized on average. *)
Theorem C62_covariance : forall cells, 0 < rsum (map snd cells) ->
  let mx := mean (map fst cells) in
  let mr := mean (map snd cells) in
  let cov := mean (map (fun c => (fst c - mx) * (snd c - mr)) cells) in
  mass_weighted_mean_xi cells - mx = cov / mr /\ (mx < mass_weighted_mean_xi cells <-> 0 < cov).
Proof.
  intros cells H mx mr cov. pose proof (cells_len cells ltac:(lra)) as L.
  assert (Emr : mr = rsum (map snd cells) / INR (length cells)) by (unfold mr, mean; now rewrite map_length).
  assert (Emx : mx = rsum (map fst cells) / INR (length cells)) by (unfold mx, mean; now rewrite map_length).
  assert (Pr : 0 < mr) by (rewrite Emr; now apply Rdiv_lt_0_compat).
  assert (Ec : cov = mean (map (fun c => fst c * snd c) cells) - mx * mr).
  { unfold cov, mean. rewrite !map_length.
    rewrite (rsum_ext (fun c => (fst c - mx) * (snd c - mr)) (fun c => (fst c * snd c - mx * snd c) - (fst c * mr - mx * mr))) by (intros; ring).
    rewrite (rsum_minus (fun c => fst c * snd c - mx * snd c) (fun c => fst c * mr - mx * mr)).
    rewrite (rsum_minus (fun c => fst c * snd c) (fun c => mx * snd c)), (rsum_minus (fun c => fst c * mr) (fun _ => mx * mr)).
    rewrite rsum_scale, rsum_scale_r, rsum_const.
    replace (rsum (map snd cells)) with (mr * INR (length cells)) by (rewrite Emr; field; lra).
    replace (rsum (map fst cells)) with (mx * INR (length cells)) by (rewrite Emx; field; lra). field. lra. }
  assert (E : mass_weighted_mean_xi cells - mx = cov / mr).
  { rewrite Ec. unfold mass_weighted_mean_xi. fold mr. field. lra. }
  split; [exact E|]. split; intros K.
  - assert (P : 0 < cov / mr) by lra. replace cov with (cov / mr * mr) by (field; lra). now apply Rmult_lt_0_compat.
  - assert (P : 0 < cov / mr) by (now apply Rdiv_lt_0_compat). lra.
Qed.
Print Assumptions C62_covariance.
Example C62_covariance_sat : exists cells : list (R * R), 0 < rsum (map snd cells).
Proof. exists [(1, 2); (0, 1)]. cbn. lra. Qed.

(** "Arbitrary units": a common factor on the densities does not matter; and the neutral
    fraction gets the complement. *)
Theorem C62_units : forall cells a, rsum (map snd cells) <> 0 -> a <> 0 ->
  mass_weighted_mean_xi (map (fun c => (fst c, a * snd c)) cells) = mass_weighted_mean_xi cells /\
  mass_weighted_mean_xi (map (fun c => (1 - fst c, snd c)) cells) = 1 - mass_weighted_mean_xi cells.
Proof.
  intros cells a H Ha. pose proof (cells_len cells H) as L.
  unfold mass_weighted_mean_xi, mean. rewrite !map_map, !map_length. cbn [fst snd]. split.
  - rewrite (rsum_ext (fun x => fst x * (a * snd x)) (fun x => a * (fst x * snd x))) by (intros; ring).
    rewrite !rsum_scale. field. repeat split; lra.
  - rewrite (rsum_ext (fun x => (1 - fst x) * snd x) (fun x => snd x - fst x * snd x)) by (intros; ring).
    rewrite (rsum_minus snd (fun x => fst x * snd x)). change (map (fun x : R * R => snd x) cells) with (map snd cells). field. lra.
Qed.
Print Assumptions C62_units.
Example C62_units_sat : exists (cells : list (R * R)) a, rsum (map snd cells) <> 0 /\ a <> 0.
Proof. exists [(1, 2); (0, 1)], 3. cbn. lra. Qed.

Example C62_more_sat : 0 < rsum (map snd [(1, 2); (0, 1)]) /\ mean (map fst [(1, 2); (0, 1)]) = 1 / 2.
Proof. unfold mean. cbn. split; lra. Qed.
