(** C112: wrappers of 21cmFAST. *)
From Coq Require Import String List QArith Bool Arith Lia.
From Verif Require Import FastModel.
Import ListNotations.
Local Open Scope nat_scope.

(** * Dictionaries *)
Definition keys {V} (d : list (Q * V)) : list Q := map fst d.
(** No two keys are equal numbers. *)
Fixpoint distinct (l : list Q) : Prop := match l with [] => True | x :: r => (forall y, In y r -> ~ x == y)%Q /\ distinct r end.

Lemma lookup_assign {V} (d : list (Q * V)) z v y : lookup (assign d z v) y = if Qeq_bool z y then Some v else lookup d y.
Proof.
  unfold lookup. induction d as [|[x w] d IH]; cbn [assign find fst].
  - destruct (Qeq_bool z y); reflexivity.
  - destruct (Qeq_bool x z) eqn:E; cbn [find fst].
    + apply Qeq_bool_iff in E. destruct (Qeq_bool x y) eqn:E1, (Qeq_bool z y) eqn:E2; try reflexivity.
      * exfalso. apply Qeq_bool_iff in E1. apply Qeq_bool_neq in E2. apply E2. now rewrite <- E, E1.
      * exfalso. apply Qeq_bool_iff in E2. apply Qeq_bool_neq in E1. apply E1. now rewrite E, E2.
    + destruct (Qeq_bool x y) eqn:E1; [|exact IH]. destruct (Qeq_bool z y) eqn:E2; [|reflexivity].
      exfalso. apply Qeq_bool_iff in E1, E2. apply Qeq_bool_neq in E. apply E. now rewrite E1, E2.
Qed.
Lemma keys_assign {V} (d : list (Q * V)) z v x : In x (keys (assign d z v)) -> In x (keys d) \/ x = z.
Proof.
  induction d as [|[y w] d IH]; cbn [assign keys map fst In].
  - intros [H|[]]; auto.
  - destruct (Qeq_bool y z); cbn [keys map fst In]; [intro H; now left|]. intros [H|H]; [now left; left|]. destruct (IH H); auto.
Qed.
Lemma keys_keep {V} (d : list (Q * V)) z v x : In x (keys d) -> In x (keys (assign d z v)).
Proof.
  induction d as [|[y w] d IH]; cbn [assign keys map fst In]; [intros []|]. destruct (Qeq_bool y z); cbn [keys map fst In]; [auto|]. intros [H|H]; auto.
Qed.
Lemma distinct_assign {V} (d : list (Q * V)) z v : distinct (keys d) -> distinct (keys (assign d z v)).
Proof.
  induction d as [|[y w] d IH]; cbn [assign keys map fst distinct]; [intros _; split; [intros x []|exact I]|].
  intros [H1 H2]. destruct (Qeq_bool y z) eqn:E; cbn [keys map fst distinct]; [auto|]. split; [|now apply IH].
  intros x X. apply keys_assign in X. destruct X as [X| ->]; [now apply H1|]. now apply Qeq_bool_neq in E.
Qed.
(** The last pair with the key. *)
Definition last_with {V} (l : list (Q * V)) (z : Q) : option V := option_map snd (find (fun p => Qeq_bool (fst p) z) (rev l)).
Lemma dict_snoc {V} (l : list (Q * V)) p : dict_of (l ++ [p]) = assign (dict_of l) (fst p) (snd p).
Proof. unfold dict_of. now rewrite fold_left_app. Qed.
Lemma dict_lookup {V} (l : list (Q * V)) z : lookup (dict_of l) z = last_with l z.
Proof.
  induction l as [|p l IH] using rev_ind; [reflexivity|]. rewrite dict_snoc, lookup_assign, IH. unfold last_with. rewrite rev_app_distr. cbn [rev app find].
  destruct (Qeq_bool (fst p) z); reflexivity.
Qed.
Lemma dict_keys {V} (l : list (Q * V)) : distinct (keys (dict_of l)) /\ (forall x, In x (keys (dict_of l)) -> In x (keys l)) /\ (forall x, In x (keys l) -> exists y, In y (keys (dict_of l)) /\ (y == x)%Q).
Proof.
  induction l as [|p l (D & A & B)] using rev_ind; [split; [exact I|split; intros x []]|]. rewrite dict_snoc. split; [now apply distinct_assign|]. split.
  - intros x X. unfold keys. rewrite map_app. apply in_or_app. apply keys_assign in X. destruct X as [X| ->]; [left; now apply A|right; now left].
  - intros x X. unfold keys in X. rewrite map_app in X. apply in_app_or in X. destruct X as [X|[<-|[]]].
    + destruct (B x X) as (y & Y & E). exists y. split; [now apply keys_keep|exact E].
    + assert (L : lookup (assign (dict_of l) (fst p) (snd p)) (fst p) = Some (snd p)) by (rewrite lookup_assign; destruct (Qeq_bool (fst p) (fst p)) eqn:E; [reflexivity|]; apply Qeq_bool_neq in E; destruct E; reflexivity).
      unfold lookup in L. destruct (find _ _) as [q|] eqn:F; [|discriminate]. apply find_some in F. destruct F as [F1 F2]. exists (fst q). split; [now apply in_map|now apply Qeq_bool_iff].
Qed.

Section Theorems.
Context {P K I F V : Type}.
Implicit Types (p : @package P K I F V) (s : @settings P K).

(** C112: without the package nothing is called and nothing returned. *)
Theorem C112_missing : forall r ib s m,
  run_21cmfast_init (V:=V) (F:=F) None s = (None (A:=I), []) /\
  run_21cmfast_matter (V:=V) (F:=F) (I:=I) None r ib s = (Returned None, []) /\
  run_21cmfast_coeval (V:=V) (F:=F) (I:=I) None r s m = (Returned None, []).
Proof. intros. repeat split. Qed.

(** C112: matter fields. Every requested redshift, and no other, is a key, once; its field is the one made for that redshift from the
    one box of initial conditions, which is the given one, or, only if none is given, that of the parameters. Saving, regenerating and
    the seed do not reach the fields. A single number raises, after the initial conditions have been made. *)
Theorem C112_matter : forall p zs r ib s, r = Array zs \/ r = Sequence zs ->
  let ic := match ib with Some ic => ic | None => initial_conditions p s end in
  exists d trace, run_21cmfast_matter (Some p) r ib s = (Returned (Some d), trace) /\
  distinct (keys d) /\ (forall z, In z (keys d) -> In z zs) /\ (forall z, In z zs -> exists y, In y (keys d) /\ (y == z)%Q) /\
  (forall y f, In (y, f) d -> exists z, In z zs /\ (z == y)%Q /\ f = perturb_field p z ic (global_kwargs s)) /\
  trace = match ib with Some _ => [] | None => [Initial s] end ++ map (fun z => Perturb z ic (global_kwargs s)) zs /\
  (forall s', global_kwargs s' = global_kwargs s -> ib <> None -> run_21cmfast_matter (Some p) r ib s' = (Returned (Some d), trace)).
Proof.
  intros p zs r ib s R ic. set (l := map (fun z => (z, perturb_field p z ic (global_kwargs s))) zs).
  exists (dict_of l), (match ib with Some _ => [] | None => [Initial s] end ++ map (fun z => Perturb z ic (global_kwargs s)) zs).
  assert (KL : keys l = zs) by (unfold keys, l; rewrite map_map; apply map_id).
  assert (IN : forall l' : list (Q * F), (forall y f, In (y, f) (dict_of l') -> exists z, In (z, f) l' /\ (z == y)%Q)).
  { clear. intro l. induction l as [|q l IH] using rev_ind; [intros y f []|]. rewrite dict_snoc. intros y f H.
    assert (G : forall d : list (Q * F), In (y, f) (assign d (fst q) (snd q)) -> In (y, f) d \/ (f = snd q /\ (fst q == y)%Q)).
    { clear. induction d as [|[x w] d IH]; cbn [assign In].
      - intros [E|[]]. injection E as <- <-. right. split; reflexivity.
      - destruct (Qeq_bool x (fst q)) eqn:E; cbn [In]; intros [X|X]; auto.
        + injection X as <- <-. right. split; [reflexivity|]. apply Qeq_bool_iff in E. now symmetry.
        + destruct (IH X); auto. }
    apply G in H. destruct H as [H|[-> H]].
    - apply IH in H. destruct H as (z & A & B). exists z. split; [apply in_or_app; now left|exact B].
    - exists (fst q). split; [apply in_or_app; right; left; now destruct q|exact H]. }
  destruct (dict_keys l) as (D1 & D2 & D3). rewrite KL in D2, D3.
  split; [|split; [exact D1|split; [exact D2|split; [exact D3|split; [|split; [reflexivity|]]]]]].
  - destruct R as [-> | ->], ib; reflexivity.
  - intros y f H. apply IN in H. destruct H as (z & A & B). unfold l in A. apply in_map_iff in A. destruct A as (z' & E & Z). injection E as -> <-. exists z. now split; [|split].
  - intros s' E NB. destruct ib as [b|]; [|contradiction]. unfold l, ic. destruct R as [-> | ->]; cbn [run_21cmfast_matter]; rewrite E; reflexivity.
Qed.
Theorem C112_matter_number : forall p z ib s,
  run_21cmfast_matter (Some p) (PyNumber z) ib s = (Raised "TypeError", match ib with Some _ => [] | None => [Initial s] end) /\
  run_21cmfast_matter (Some p) (OtherNumber z) ib s = run_21cmfast_matter (Some p) (PyNumber z) ib s.
Proof. intros p z ib s. destruct ib; split; reflexivity. Qed.

Lemma zip_all_some zs (vs : list V) : (exists l, zip_all zs vs = Some l) <-> length zs <= length vs.
Proof.
  revert vs. induction zs as [|z zs IH]; intros vs; [split; [cbn; lia|intros _; now exists []]|]. destruct vs as [|v vs]; cbn [zip_all length].
  - split; [intros (l & E); discriminate|lia].
  - specialize (IH vs). destruct (zip_all zs vs) as [l|]; split; intro H.
    + assert (length zs <= length vs) by (apply IH; now exists l). lia.
    + now eexists.
    + destruct H as (l & E). discriminate.
    + assert (H' : length zs <= length vs) by lia. apply IH in H'. destruct H' as (l & E). discriminate.
Qed.
Lemma zip_all_nth zs (vs : list V) l i : zip_all zs vs = Some l -> nth_error l i = match nth_error zs i, nth_error vs i with Some z, Some v => Some (z, v) | _, _ => None end.
Proof.
  revert vs l i. induction zs as [|z zs IH]; intros vs l i E; cbn [zip_all] in E.
  - injection E as <-. destruct i; reflexivity.
  - destruct vs as [|v vs]; [discriminate|]. destruct (zip_all zs vs) as [r|] eqn:Z; [|discriminate]. injection E as <-. destruct i as [|i]; [reflexivity|]. cbn [nth_error]. now apply IH.
Qed.
Lemma last_with_nth (l : list (Q * V)) z : match last_with l z with
  | Some v => exists i y, nth_error l i = Some (y, v) /\ (y == z)%Q /\ forall j y' v', i < j -> nth_error l j = Some (y', v') -> ~ (y' == z)%Q
  | None => forall j y' v', nth_error l j = Some (y', v') -> ~ (y' == z)%Q end.
Proof.
  induction l as [|[y v] l IH] using rev_ind; unfold last_with.
  - intros [|j] y' v' E; discriminate.
  - rewrite rev_app_distr. cbn [rev app find fst]. destruct (Qeq_bool y z) eqn:E; cbn [option_map snd].
    + exists (length l), y. split; [rewrite nth_error_app2, Nat.sub_diag by lia; reflexivity|]. split; [now apply Qeq_bool_iff|].
      intros j y' v' J N. assert (H : nth_error (l ++ [(y, v)]) j = None) by (apply nth_error_None; rewrite app_length; cbn; lia). congruence.
    + change (option_map snd (find (fun p : Q * V => Qeq_bool (fst p) z) (rev l))) with (last_with l z). apply Qeq_bool_neq in E.
      assert (LAST : forall j y' v', nth_error (l ++ [(y, v)]) j = Some (y', v') -> nth_error l j = Some (y', v') \/ y' = y).
      { intros j y' v' N. destruct (Nat.lt_ge_cases j (length l)) as [J|J]; [left; now rewrite nth_error_app1 in N|right]. rewrite nth_error_app2 in N by exact J.
        destruct (j - length l) as [|[|k]]; cbn in N; [now injection N as <- _|discriminate|discriminate]. }
      destruct (last_with l z) as [w|].
      * destruct IH as (i & x & N & Q' & M). exists i, x. split; [rewrite nth_error_app1; [exact N|apply nth_error_Some; congruence]|]. split; [exact Q'|].
        intros j y' v' J H. apply LAST in H. destruct H as [H| ->]; [now apply (M j y' v')|exact E].
      * intros j y' v' H. apply LAST in H. destruct H as [H| ->]; [now apply (IH j y' v')|exact E].
Qed.
(** C112: coeval boxes. One run for all redshifts, with all the parameters; the box found under a redshift is the one at the last
    place where that redshift was asked for, and nothing is found under any other number. A Python number is a list of one entry; a
    number of another type raises after the run. *)
Theorem C112_coeval : forall p zs r s m, r = Array zs \/ r = Sequence zs -> length (run_coeval p zs s m) = length zs ->
  exists d, run_21cmfast_coeval (Some p) r s m = (Returned (Some d), [Coeval zs s m]) /\ distinct (keys d) /\
  forall z, match lookup d z with
    | Some v => exists i y, nth_error zs i = Some y /\ (y == z)%Q /\ nth_error (run_coeval p zs s m) i = Some v /\ forall j y', i < j -> nth_error zs j = Some y' -> ~ (y' == z)%Q
    | None => forall y, In y zs -> ~ (y == z)%Q end.
Proof.
  intros p zs r s m R L. destruct (proj2 (zip_all_some zs (run_coeval p zs s m))) as (l & E); [lia|]. exists (dict_of l).
  split; [destruct R as [-> | ->]; cbn [run_21cmfast_coeval]; now rewrite E|]. split; [apply dict_keys|]. intro z. rewrite dict_lookup. pose proof (last_with_nth l z) as H.
  destruct (last_with l z) as [v|].
  - destruct H as (i & y & N & Y & M). rewrite (zip_all_nth _ _ _ i E) in N. destruct (nth_error zs i) as [z'|] eqn:EZ; [|discriminate]. destruct (nth_error (run_coeval p zs s m) i) as [v'|] eqn:EV; [|discriminate].
    injection N as -> ->. exists i, y. split; [exact EZ|]. split; [exact Y|]. split; [exact EV|]. intros j y' J N. destruct (nth_error (run_coeval p zs s m) j) as [w|] eqn:EW.
    + apply (M j y' w J). now rewrite (zip_all_nth _ _ _ j E), N, EW.
    + exfalso. apply nth_error_None in EW. assert (j < length zs) by (apply nth_error_Some; congruence). lia.
  - intros y Y. apply In_nth_error in Y. destruct Y as (j & N). destruct (nth_error (run_coeval p zs s m) j) as [w|] eqn:EW.
    + apply (H j y w). now rewrite (zip_all_nth _ _ _ j E), N, EW.
    + exfalso. apply nth_error_None in EW. assert (j < length zs) by (apply nth_error_Some; congruence). lia.
Qed.
Theorem C112_coeval_number : forall p z s m,
  (forall v, run_coeval p [z] s m = [v] -> run_21cmfast_coeval (Some p) (PyNumber z) s m = (Returned (Some [(z, v)]), [Coeval [z] s m])) /\
  run_21cmfast_coeval (Some p) (PyNumber z) s m = run_21cmfast_coeval (Some p) (Array [z]) s m /\
  run_21cmfast_coeval (Some p) (OtherNumber z) s m = (Raised "TypeError", [Coeval [z] s m]).
Proof. intros p z s m. split; [|split; reflexivity]. intros v E. cbn [run_21cmfast_coeval]. rewrite E. reflexivity. Qed.
End Theorems.
Print Assumptions C112_missing.
Print Assumptions C112_matter.
Print Assumptions C112_matter_number.
Print Assumptions C112_coeval.
Print Assumptions C112_coeval_number.
Definition toy : @package nat nat nat (Q * nat) Q :=
  {| initial_conditions := fun s => user_params s + cosmo_params s; perturb_field := fun z ic k => (z, ic + k); run_coeval := fun zs _ _ => zs |}.
Definition toy_settings : @settings nat nat := {| user_params := 1; cosmo_params := 2; write := true; direc := None; random_seed := 42; regenerate := false; global_kwargs := 5 |}.
Example C112_sat : fst (run_21cmfast_matter (Some toy) (Sequence [9; 8; 9]%Q) None toy_settings) = Returned (Some [(9%Q, (9%Q, 8)); (8%Q, (8%Q, 8))]) /\
  forall m, length (run_coeval toy [9; 8; 9]%Q toy_settings m) = 3.
Proof. split; reflexivity. Qed.
