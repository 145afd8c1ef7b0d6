(** C113: CubeP3M halo catalogues. *)
From Coq Require Import String Ascii List Arith ZArith Bool Reals Lia Lra.
From Verif Require Import ConstModel ConstSpec ConstProps CubepModel.
Import ListNotations.
Local Open Scope nat_scope.

(** * The format *)
(** One halo as it is stored: three grid coordinates, two masses, two radii, the centre of mass, the velocity, the angular momentum, the
    velocity dispersions and the shape, three words each; then the particles, or six more words. *)
Record stored (W : Type) := Stored { s_pos : W * W * W; s_mass : W * W; s_radius : W * W; s_cm : W * W * W; s_vel : W * W * W; s_ang : W * W * W; s_disp : W * W * W; s_shape : W * W * W; s_tail : list W }.
Arguments s_pos {W}. Arguments s_mass {W}. Arguments s_radius {W}. Arguments s_cm {W}. Arguments s_vel {W}. Arguments s_ang {W}. Arguments s_disp {W}. Arguments s_shape {W}. Arguments s_tail {W}.
Definition triple {W} (t : W * W * W) : list W := let '(a, b, c) := t in [a; b; c].
Definition pair {W} (t : W * W) : list W := [fst t; snd t].
Definition words_of {W} (s : stored W) : list W :=
  triple (s_pos s) ++ pair (s_mass s) ++ pair (s_radius s) ++ triple (s_cm s) ++ triple (s_vel s) ++ triple (s_ang s) ++ triple (s_disp s) ++ triple (s_shape s) ++ s_tail s.
Definition tail_size (pid : bool) : nat := if pid then 400 else 6.
(** What a user expects to get for it, in grid units. *)
Definition expected {W} (f32 : W -> R) (vir : bool) (s : stored W) : halo :=
  let side := fun t : W * W => if vir then fst t else snd t in
  let t3 := fun t : W * W * W => map f32 (triple t) in
  Halo (t3 (s_pos s)) (Some (f32 (side (s_mass s)))) (f32 (side (s_radius s))) (t3 (s_cm s)) (t3 (s_vel s)) (map Some (t3 (s_ang s)))
    (let '(a, b, c) := s_disp s in sqrt (f32 a ^ 2 + f32 b ^ 2 + f32 c ^ 2)).

Section Files.
Context {W : Type} (f32 : W -> R) (i32 : W -> Z).
Lemma skipn_exact {A} (a b : list A) n : length a = n -> skipn n (a ++ b) = b.
Proof. intros <-. now rewrite skipn_app, skipn_all, Nat.sub_diag. Qed.
Lemma firstn_exact {A} (a b : list A) n : length a = n -> firstn n (a ++ b) = a.
Proof. intros <-. now rewrite firstn_app, firstn_all, Nat.sub_diag, firstn_O, app_nil_r. Qed.
Lemma read_one vir pid (s : stored W) rest : length (s_tail s) = tail_size pid -> read_record f32 vir pid (words_of s ++ rest) = Returned (expected f32 vir s, rest).
Proof.
  intro T. destruct s as [[[a1 a2] a3] [m1 m2] [r1 r2] [[c1 c2] c3] [[v1 v2] v3] [[l1 l2] l3] [[d1 d2] d3] [[x1 x2] x3] t]. cbn [s_tail] in T.
  unfold words_of, read_record, expected. cbn [s_pos s_mass s_radius s_cm s_vel s_ang s_disp s_shape s_tail triple pair fst snd app].
  assert (X : pid = true -> length (firstn 300 (skipn 100 (t ++ rest))) =? 300 = true).
  { intros ->. cbn [tail_size] in T. apply Nat.eqb_eq. rewrite firstn_length, skipn_length, app_length, T. lia. }
  assert (Y : skipn (tail_size pid) (t ++ rest) = rest) by (apply skipn_exact, T). unfold tail_size in Y.
  revert X Y. set (n400 := 400). set (n300 := 300). set (n100 := 100). set (n6 := 6). clearbody n400 n300 n100 n6. intros X Y.
  cbn [firstn skipn]. cbn [floats map]. assert (N : norm [f32 d1; f32 d2; f32 d3] = sqrt (f32 d1 ^ 2 + f32 d2 ^ 2 + f32 d3 ^ 2)) by (unfold norm; cbn [map fold_right]; f_equal; ring). rewrite N.
  destruct pid; [rewrite X by reflexivity|]; rewrite Y; destruct vir; reflexivity.
Qed.
Lemma read_many vir pid (ss : list (stored W)) rest : (forall s, In s ss -> length (s_tail s) = tail_size pid) ->
  read_records f32 vir pid (length ss) (concat (map words_of ss) ++ rest) = Returned (map (expected f32 vir) ss).
Proof.
  induction ss as [|s ss IH]; intro H; [reflexivity|]. cbn [map concat length read_records]. rewrite <- app_assoc, read_one by (apply H; now left).
  cbn [bind fst snd]. rewrite IH by (intros x X; apply H; now right). reflexivity.
Qed.
(** A file of these haloes: their number, two words, the haloes; whatever follows is not looked at. *)
Definition file_of (n v o : W) (ss : list (stored W)) (rest : list W) : list W := n :: v :: o :: concat (map words_of ss) ++ rest.
(** C113: reading a file returns its haloes, in order, each field in its place, for either definition of mass and either format. *)
Theorem C113_file : forall vir pid n v o ss rest, i32 n = Z.of_nat (length ss) -> (forall s, In s ss -> length (s_tail s) = tail_size pid) ->
  read_node f32 i32 vir pid (file_of n v o ss rest) = Returned (Z.of_nat (length ss), map (expected f32 vir) ss).
Proof. intros vir pid n v o ss rest N T. unfold read_node, file_of. rewrite N, Nat2Z.id, read_many by exact T. reflexivity. Qed.

(** C113: files that end early. With particles every such file is refused. Without, the last halo may end anywhere after its radii: what is missing are
    empty or short arrays. *)
Definition record_size (pid : bool) : nat := 22 + tail_size pid.
Lemma read_record_returns vir pid ws : (exists p, read_record f32 vir pid ws = Returned p) <-> (if pid then 422 else 7) <= length ws.
Proof.
  unfold read_record. destruct (Nat.le_gt_cases 7 (length ws)) as [H|H].
  - assert (F : exists a b c d, firstn 4 (skipn 3 ws) = [a; b; c; d]).
    { assert (L : length (firstn 4 (skipn 3 ws)) = 4) by (rewrite firstn_length, skipn_length; lia).
      destruct (firstn 4 (skipn 3 ws)) as [|a [|b [|c [|d [|e q]]]]]; try discriminate. now exists a, b, c, d. }
    destruct F as (a & b & c & d & ->). destruct pid; [|split; [lia|intros _; eexists; reflexivity]].
    set (rest := skipn 3 (skipn 3 (skipn 3 (skipn 3 (skipn 3 (skipn 4 (skipn 3 ws))))))).
    assert (LR : length rest = length ws - 22) by (unfold rest; rewrite !skipn_length; lia).
    assert (LX : length (firstn 300 (skipn 100 rest)) = Nat.min 300 (length ws - 122)) by (rewrite firstn_length, skipn_length, LR; lia).
    rewrite LX. destruct (Nat.eqb_spec (Nat.min 300 (length ws - 122)) 300) as [E|E]; split; try lia; [intros _; eexists; reflexivity|intros (p & Q); discriminate].
  - assert (L : length (firstn 4 (skipn 3 ws)) < 4) by (rewrite firstn_length, skipn_length; lia).
    destruct (firstn 4 (skipn 3 ws)) as [|a [|b [|c [|d q]]]]; cbn in L; try lia; (split; [intros (p & Q); discriminate|destruct pid; lia]).
Qed.
Lemma read_record_rest vir pid ws p : read_record f32 vir pid ws = Returned p -> length (snd p) = length ws - record_size pid.
Proof.
  unfold read_record. destruct (firstn 4 (skipn 3 ws)) as [|a [|b [|c [|d [|e q]]]]]; try discriminate. destruct pid.
  - destruct (Nat.eqb (length (firstn 300 _)) 300); [|discriminate]. intro E. apply (f_equal (fun o => match o with Returned q => snd q | Raised _ => [] end)) in E. cbv beta iota in E. cbn [snd] in E. rewrite <- E. rewrite !skipn_length. unfold record_size, tail_size. lia.
  - intro E. apply (f_equal (fun o => match o with Returned q => snd q | Raised _ => [] end)) in E. cbv beta iota in E. cbn [snd] in E. rewrite <- E. rewrite !skipn_length. unfold record_size, tail_size. lia.
Qed.
Theorem C113_truncated : forall vir pid ws,
  (exists p, read_node f32 i32 vir pid ws = Returned p) <->
  exists n v o rest, ws = n :: v :: o :: rest /\
    ((i32 n <= 0)%Z \/ (Z.of_nat (length rest) >= if pid then i32 n * 422 else (i32 n - 1) * 28 + 7)%Z).
Proof.
  intros vir pid ws. destruct ws as [|n [|v [|o rest]]]; cbn [read_node]; try (split; [intros (p & E); discriminate|intros (? & ? & ? & ? & E & _); discriminate]).
  assert (M : forall k ws', (exists p, read_records f32 vir pid k ws' = Returned p) <-> (k = 0 \/ (if pid then k * 422 else (k - 1) * 28 + 7) <= length ws')).
  { induction k as [|k IH]; intro ws'; [split; [now left|intros _; now exists []]|]. cbn [read_records].
    pose proof (read_record_returns vir pid ws') as R1. pose proof (read_record_rest vir pid ws') as R2.
    destruct (read_record f32 vir pid ws') as [p|e]; cbn [bind].
    - assert (L : (if pid then 422 else 7) <= length ws') by (apply R1; now exists p). specialize (R2 p eq_refl). specialize (IH (snd p)). rewrite R2 in IH. unfold record_size, tail_size in IH.
      destruct (read_records f32 vir pid k (snd p)) as [hs|e]; cbn [bind].
      + assert (Q : k = 0 \/ (if pid then k * 422 else (k - 1) * 28 + 7) <= length ws' - (22 + (if pid then 400 else 6))) by (apply IH; now exists hs).
        split; [intros _; right; destruct pid; lia|intros _; eexists; reflexivity].
      + split; [intros (q & E); discriminate|]. intro Q. assert (X : exists q, Raised (A := list halo) e = Returned q); [|destruct X; discriminate].
        apply IH. destruct k as [|k]; [now left|right]. destruct pid; lia.
    - split; [intros (q & E); discriminate|]. intro Q. assert (X : exists q, Raised (A := halo * list W) e = Returned q); [|destruct X; discriminate].
      apply R1. destruct pid; lia. }
  specialize (M (Z.to_nat (i32 n)) rest). destruct (read_records f32 vir pid (Z.to_nat (i32 n)) rest) as [hs|e]; cbn [bind].
  - assert (Q : Z.to_nat (i32 n) = 0 \/ (if pid then Z.to_nat (i32 n) * 422 else (Z.to_nat (i32 n) - 1) * 28 + 7) <= length rest) by (apply M; now exists hs).
    split; [intros _|intros _; eexists; reflexivity]. exists n, v, o, rest. split; [reflexivity|]. destruct pid; lia.
  - split; [intros (p & E); discriminate|]. intros (n' & v' & o' & r' & E & H). injection E as <- <- <- <-.
    assert (X : exists q, Raised (A := list halo) e = Returned q); [|destruct X; discriminate]. apply M. destruct pid; lia.
Qed.

(** * Directories *)
Context (file : string -> nat -> option (list W)) (count : string -> nat).
Definition slash_ended (s : string) : Prop := exists t, s = (t ++ "/")%string.
Lemma ends_iff s : ends_with_slash s = true <-> slash_ended s.
Proof.
  unfold slash_ended. induction s as [|c s IH]; [split; [discriminate|intros ([|? ?] & E); discriminate]|]. destruct s as [|c' s].
  - cbn [ends_with_slash]. rewrite Ascii.eqb_eq. split; [intros ->; now exists EmptyString|]. intros ([|x t] & E); [now injection E|]. injection E as _ E. destruct t; discriminate.
  - change (ends_with_slash (String c (String c' s))) with (ends_with_slash (String c' s)). rewrite IH. split; intros (t & E).
    + exists (String c t). now rewrite E.
    + destruct t as [|x t]; [discriminate|]. injection E as -> E. now exists t.
Qed.
Lemma nodes_all vir pid dir (ss : nat -> list (stored W)) ks :
  (forall k, In k ks -> exists n v o rest, file dir k = Some (file_of n v o (ss k) rest) /\ i32 n = Z.of_nat (length (ss k)) /\ forall s, In s (ss k) -> length (s_tail s) = tail_size pid) ->
  read_nodes f32 i32 file vir pid dir ks = Returned (Z.of_nat (length (flat_map ss ks)), map (expected f32 vir) (flat_map ss ks)).
Proof.
  induction ks as [|k ks IH]; intro H; [reflexivity|]. cbn [read_nodes flat_map]. destruct (H k (or_introl eq_refl)) as (n & v & o & rest & -> & N & T).
  rewrite C113_file by assumption. cbn [bind]. rewrite IH by (intros x X; apply H; now right). cbn [bind fst snd]. rewrite map_app, app_length, Nat2Z.inj_add. reflexivity.
Qed.
(** C113: without a node number the haloes of all nodes, in order of the nodes, each once; with one those of that node. A slash at
    the end of the path makes no difference. [nhalo] is their number. *)
Theorem C113_catalogue : forall v h path z node vir pid dir (ss : nat -> list (stored W)),
  path <> EmptyString -> z <> 0%R -> (slash_ended path /\ dir = path \/ ~ slash_ended path /\ dir = (path ++ "/")%string) ->
  let ks := match node with Some k => [k] | None => seq 0 (count dir) end in
  (forall k, In k ks -> exists n v o rest, file dir k = Some (file_of n v o (ss k) rest) /\ i32 n = Z.of_nat (length (ss k)) /\ forall s, In s (ss k) -> length (s_tail s) = tail_size pid) ->
  HaloCubeP3M f32 i32 file count v h (Some path) (Some z) node vir pid false = Returned (Z.of_nat (length (flat_map ss ks)), map (expected f32 vir) (flat_map ss ks)) /\
  HaloCubeP3M f32 i32 file count v h (Some path) (Some z) node vir pid true = Returned (Z.of_nat (length (flat_map ss ks)), map (fun s => cosmological v h z (expected f32 vir s)) (flat_map ss ks)).
Proof.
  intros v h path z node vir pid dir ss NP NZ D ks H. unfold HaloCubeP3M. destruct (Req_EM_T z 0) as [E|_]; [contradiction|]. destruct path as [|c path]; [contradiction|].
  assert (DE : directory (String c path) = dir).
  { unfold directory. destruct (ends_with_slash (String c path)) eqn:E.
    - apply ends_iff in E. destruct D as [[_ D]|[N _]]; [now symmetry|contradiction].
    - destruct D as [[D _]|[_ D]]; [apply ends_iff in D; congruence|now symmetry]. }
  rewrite DE. fold ks. rewrite (nodes_all vir pid dir ss ks H). cbn [bind fst snd]. rewrite map_map. split; reflexivity.
Qed.
(** C113: redshift zero is taken for a missing redshift; a missing or empty path, a missing file of any node, raise. *)
Theorem C113_refused : forall v h path z node vir pid cosm,
  HaloCubeP3M f32 i32 file count v h path None node vir pid cosm = Raised "NameError" /\
  HaloCubeP3M f32 i32 file count v h path (Some 0%R) node vir pid cosm = Raised "NameError" /\
  HaloCubeP3M f32 i32 file count v h None (Some z) node vir pid cosm = Raised "NameError" /\
  (forall s k p, s <> EmptyString -> HaloCubeP3M f32 i32 file count v h (Some s) (Some z) node vir pid cosm = Returned p ->
     match node with Some k' => k = k' | None => k < count (directory s) end -> file (directory s) k <> None).
Proof.
  intros v h path z node vir pid cosm. split; [reflexivity|]. split; [cbn; destruct (Req_EM_T 0 0); [reflexivity|lra]|]. split; [cbn; destruct (Req_EM_T z 0); reflexivity|].
  intros s k p NS E K. unfold HaloCubeP3M in E. destruct (Req_EM_T z 0); [discriminate|]. destruct s as [|c s]; [contradiction|].
  set (dir := directory (String c s)) in *. set (ks := match node with Some k' => [k'] | None => seq 0 (count dir) end) in *.
  assert (IK : In k ks) by (unfold ks; destruct node; [left; now symmetry|apply in_seq; lia]).
  clearbody ks. clear K. destruct (read_nodes f32 i32 file vir pid dir ks) as [q|e] eqn:RN; [|discriminate]. clear E.
  revert q RN IK. induction ks as [|k' ks IH]; intros q RN IK; [destruct IK|]. cbn [read_nodes] in RN. destruct (file dir k') as [ws|] eqn:F; [|discriminate].
  destruct IK as [<-|IK]; [congruence|]. destruct (read_node f32 i32 vir pid ws); [|discriminate]. cbn [bind] in RN. destruct (read_nodes f32 i32 file vir pid dir ks) as [b|] eqn:R2; [|discriminate]. now apply (IH b).
Qed.
End Files.
Print Assumptions C113_file.
Example C113_file_sat : exists (ss : list (stored Z)), Z.of_nat 2 = Z.of_nat (length ss) /\ forall s, In s ss -> length (s_tail s) = tail_size false.
Proof. exists (repeat (Stored Z (1, 2, 3)%Z (4, 5)%Z (6, 7)%Z (8, 9, 10)%Z (1, 1, 1)%Z (2, 2, 2)%Z (3, 3, 3)%Z (0, 0, 0)%Z [0; 0; 0; 0; 0; 0]%Z) 2). split; [reflexivity|]. intros s H. apply repeat_spec in H. subst s. reflexivity. Qed.
Print Assumptions C113_truncated.
Print Assumptions C113_catalogue.
Print Assumptions C113_refused.

(** * Units *)
Local Open Scope R_scope.
Lemma solar_pos : 0 < solar_masses_per_gram.
Proof. unfold solar_masses_per_gram. apply Rdiv_lt_0_compat; [apply Rdiv_lt_0_compat; [lra|apply pow_lt; lra]|apply pow_lt; lra]. Qed.
(** C113: after any session whose last accepted box has side [b] Mpc/h and a mesh of [nbox] cells, and with the Hubble parameter of that
    moment, positions are grid positions times b/nbox, moved by one box length if outside; they lie in the box whenever the grid
    positions are at most one box away. Masses are in Msun/h, zero for zero and NaN below. A component of the angular momentum is
    multiplied by one factor for all components if it is not negative; a negative one becomes NaN. *)
Theorem C113_units : forall pre b nbox mid z, accepted_box b nbox -> no_call mid -> 0 < h (fst (run pre)) -> 0 < Omega0 (fst (run pre)) -> -1 < z ->
  let c := fst (run pre) in let v := snd (run (pre ++ SetSim b :: mid)) in
  (forall a, pos (cosmological v (h c) z a) = map (fun x => reposition b (x * (b / nbox))) (pos a) /\ pos_cm (cosmological v (h c) z a) = map (fun x => reposition b (x * (b / nbox))) (pos_cm a) /\
     r (cosmological v (h c) z a) = r a * (b / nbox)) /\
  (forall x, reposition b (x * (b / nbox)) = x * (b / nbox) \/ reposition b (x * (b / nbox)) = (x + nbox) * (b / nbox) \/ reposition b (x * (b / nbox)) = (x - nbox) * (b / nbox)) /\
  (forall x, - nbox <= x <= 2 * nbox -> 0 <= reposition b (x * (b / nbox)) <= b) /\
  (forall a x, m a = Some x -> m (cosmological v (h c) z a) =
     if Rlt_dec x 0 then None else Some (x / nbox ^ 3 * (rho_matter c * (b / h c * Mpc) ^ 3) * solar_masses_per_gram * h c)) /\
  (exists k, 0 < k /\ forall x, angular v (h c) z x = if Rlt_dec x 0 then None else Some (x * k)) /\
  (forall a, vel (cosmological v (h c) z a) = map (fun x => x * (b / h c / nbox * (3 / 2 * sqrt (Omega0 c) * H0 c)) * (1 + z)) (vel a) /\
     vel_disp (cosmological v (h c) z a) = vel_disp a * (b / h c / nbox * (3 / 2 * sqrt (Omega0 c) * H0 c)) * (1 + z)).
Proof.
  intros pre b nbox mid z A N Hh HO Hz c v. fold c in Hh, HO.
  assert (NA : no_accepted mid) by (intros b' I; destruct (N b' I)).
  destruct (C34_grid_units pre b nbox mid A NA Hh) as (G1 & G2 & G3). cbv zeta in G1, G2, G3. fold c in G1, G2, G3. fold v in G1, G2, G3. specialize (G2 HO).
  assert (BS : boxsize v = b).
  { unfold v. change (SetSim b :: mid) with ([SetSim b] ++ mid). rewrite app_assoc, run_app, (keep_nocall mid _ N). destruct (C34_accepted_box pre b nbox A) as (_ & _ & B1 & _). exact B1. }
  assert (NB : 0 < nbox /\ 0 < b).
  { clear -A. destruct A as (d & D & Q). apply Rabs_def2 in Q. unfold documented_box in D.
    repeat (match goal with H : _ \/ _ |- _ => destruct H end); repeat (match goal with H : _ /\ _ |- _ => destruct H end); subst; split; lra. }
  destruct NB as [NB BB]. assert (CP : 0 < b / nbox) by (apply Rdiv_lt_0_compat; lra). assert (CN : nbox * (b / nbox) = b) by (field; lra).
  assert (P : forall x, gridpos_to_mpc v x * h c = x * (b / nbox)) by (intro x; rewrite G1; field; lra).
  assert (MP : 0 < Mpc) by (unfold Mpc; apply Rmult_lt_0_compat; [apply pow_lt; lra|apply Rmult_lt_0_compat; [lra|apply pow_lt; lra]]).
  destruct (C35_setters pre) as (_ & _ & _ & _ & _ & _ & _ & SH & _ & _ & _ & _ & _ & SR & _). fold c in SH, SR. pose proof (rho_crit_pos pre) as RP. fold c in RP.
  set (M := / nbox ^ 3 * (rho_matter c * (b / h c * Mpc) ^ 3) * solar_masses_per_gram).
  assert (MM : 0 < M).
  { assert (P1 : 0 < b / h c * Mpc) by (apply Rmult_lt_0_compat; [apply Rdiv_lt_0_compat; lra|exact MP]). pose proof (pow_lt _ 3 P1). pose proof (Rinv_0_lt_compat _ (pow_lt _ 3 NB)). assert (0 < rho_matter c) by (rewrite SR; lra).
    unfold M. apply Rmult_lt_0_compat; [|apply solar_pos]. apply Rmult_lt_0_compat; [assumption|]. now apply Rmult_lt_0_compat. }
  assert (MS : forall x, msol v x = if Rlt_dec x 0 then None else Some (x * M)).
  { intro x. unfold msol. destruct (Rlt_dec x 0) as [L|L]; [reflexivity|]. destruct (Req_EM_T x 0) as [->|Z]; [now rewrite Rmult_0_l|]. rewrite G3 by lra. f_equal. unfold M, Rdiv. ring. }
  split; [|split; [|split; [|split; [|split]]]].
  - intro a. cbn [cosmological pos pos_cm r]. rewrite BS. repeat split; try (apply map_ext; intro x; now rewrite P). apply P.
  - intro x. unfold reposition. destruct (Rlt_dec (x * (b / nbox)) 0); [right; left; lra|]. destruct (Rlt_dec b (x * (b / nbox))); [right; right; lra|now left].
  - intros x [X1 X2]. assert (L1 : - nbox * (b / nbox) <= x * (b / nbox)) by (apply Rmult_le_compat_r; lra). assert (L2 : x * (b / nbox) <= 2 * nbox * (b / nbox)) by (apply Rmult_le_compat_r; lra).
    unfold reposition. destruct (Rlt_dec (x * (b / nbox)) 0); [lra|]. destruct (Rlt_dec b (x * (b / nbox))); lra.
  - intros a x E. cbn [cosmological m]. rewrite E, MS. destruct (Rlt_dec x 0); [reflexivity|]. cbn [scale_opt option_map]. f_equal. unfold M, Rdiv. ring.
  - set (q := b / h c / nbox * (3 / 2 * sqrt (Omega0 c) * H0 c) * (1 + z) * (b / h c / nbox)).
    assert (QP : 0 < q). { assert (Q1 : 0 < b / h c / nbox) by (repeat apply Rdiv_lt_0_compat; lra). pose proof (sqrt_lt_R0 _ HO) as Q2. assert (Q3 : 0 < H0 c) by (rewrite SH; lra). assert (Q4 : 0 < 3 / 2 * sqrt (Omega0 c) * H0 c) by (apply Rmult_lt_0_compat; [apply Rmult_lt_0_compat; lra|lra]). unfold q. apply Rmult_lt_0_compat; [|exact Q1]. apply Rmult_lt_0_compat; [|lra]. now apply Rmult_lt_0_compat. }
    exists (q * M * h c * h c). split; [apply Rmult_lt_0_compat; [|exact Hh]; apply Rmult_lt_0_compat; [|exact Hh]; now apply Rmult_lt_0_compat|]. intro x. unfold angular. rewrite G1, G2, MS.
    replace (x * (b / h c / nbox * (3 / 2 * sqrt (Omega0 c) * H0 c)) * (1 + z) * (b / h c / nbox)) with (x * q) by (unfold q; ring).
    destruct (Rlt_dec (x * q) 0) as [L|L], (Rlt_dec x 0) as [L'|L']; cbn [scale_opt option_map]; try reflexivity.
    + exfalso. assert (0 <= x * q) by (apply Rmult_le_pos; lra). lra.
    + exfalso. assert (0 < - x * q) by (apply Rmult_lt_0_compat; lra). lra.
    + f_equal. ring.
  - intro a. cbn [cosmological vel vel_disp]. split; [apply map_ext; intro x|]; apply G2.
Qed.
Print Assumptions C113_units.

(** C113: the full catalogue. Positions come out in units of the output length, in a box of that length; without the length of the simulated box, which only
    looks as if it were demanded, they cannot be computed; a box of an unknown size raises. *)
Theorem C113_full : forall c v box_len output_len,
  match box_len with
  | None => exists out, full_init c v None output_len = Returned (v, out, None) /\ forall x, full_position out None x = Raised "AttributeError"
  | Some b =>
      (forall n, accepted_box b n -> exists v', full_init c v (Some b) output_len = Returned (v', Some (match output_len with Some o => o | None => b end), Some n) /\ nbox_fine v' = n /\ boxsize v' = b) /\
      ((~ exists n, accepted_box b n) -> full_init c v (Some b) output_len = Raised "Exception")
  end.
Proof.
  intros c v [b|] output_len.
  - unfold full_init, set_sim_constants. destruct (nbox_of_spec b) as [S1 S2]. split.
    + intros n A. apply S1 in A. rewrite A. cbn [bind]. eexists. split; [destruct output_len; reflexivity|]. split; reflexivity.
    + intro NA. apply S2 in NA. rewrite NA. reflexivity.
  - exists output_len. split; [cbn; destruct output_len; reflexivity|]. intro x. unfold full_position. destruct output_len; reflexivity.
Qed.
Print Assumptions C113_full.
Theorem C113_full_position : forall out n x, 0 < out -> 0 < n ->
  exists y, full_position (Some out) (Some n) x = Returned y /\ (0 <= x <= n -> y = x / n * out) /\ (- n <= x <= 2 * n -> 0 <= y <= out) /\
  (y = x / n * out \/ y = (x + n) / n * out \/ y = (x - n) / n * out).
Proof.
  intros out n x O N. eexists. split; [reflexivity|]. assert (C : 0 < out / n) by (apply Rdiv_lt_0_compat; lra). assert (E : x * out / n = x * (out / n)) by (unfold Rdiv; ring).
  assert (U : n * (out / n) = out) by (field; lra). rewrite E. assert (E2 : x / n * out = x * (out / n)) by (unfold Rdiv; ring). assert (E3 : (x + n) / n * out = (x + n) * (out / n)) by (unfold Rdiv; ring). assert (E4 : (x - n) / n * out = (x - n) * (out / n)) by (unfold Rdiv; ring). rewrite E2, E3, E4.
  split; [|split].
  - intros [X1 X2]. assert (0 * (out / n) <= x * (out / n)) by (apply Rmult_le_compat_r; lra). assert (x * (out / n) <= n * (out / n)) by (apply Rmult_le_compat_r; lra).
    unfold reposition. destruct (Rlt_dec _ 0); [lra|]. destruct (Rlt_dec out _); [lra|reflexivity].
  - intros [X1 X2]. assert (- n * (out / n) <= x * (out / n)) by (apply Rmult_le_compat_r; lra). assert (x * (out / n) <= 2 * n * (out / n)) by (apply Rmult_le_compat_r; lra).
    unfold reposition. destruct (Rlt_dec _ 0); [lra|]. destruct (Rlt_dec out _); lra.
  - unfold reposition. destruct (Rlt_dec _ 0); [right; left; lra|]. destruct (Rlt_dec out _); [right; right; lra|now left].
Qed.
Print Assumptions C113_full_position.
Example C113_full_position_sat : exists (out : R) (n : R), 0 < out /\ 0 < n.
Proof. exists 100, 512. repeat split; first [lra | lia | reflexivity | discriminate | congruence | auto]. Qed.
Example C113_sat : accepted_box 114 6144 /\ no_call [] /\ 0 < h (fst (run [])) /\ 0 < Omega0 (fst (run [])) /\
  (exists s : stored nat, length (s_tail s) = tail_size false) /\ ~ slash_ended "halos".
Proof.
  split; [exact accepted_114|]. split; [intros b []|]. split; [cbn; lra|]. split; [cbn; lra|]. split.
  - exists (Stored nat (1, 2, 3)%nat (4, 5)%nat (6, 7)%nat (8, 9, 10)%nat (1, 1, 1)%nat (2, 2, 2)%nat (3, 3, 3)%nat (0, 0, 0)%nat [0; 0; 0; 0; 0; 0]%nat). reflexivity.
  - intros E. apply ends_iff in E. discriminate.
Qed.
