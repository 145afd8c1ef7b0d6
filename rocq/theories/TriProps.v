(** C116: what [plot_triangle] hands to the plotting packages, when it fails, and what it does to the caller's weights. *)
From Coq Require Import String List Arith Reals Bool Ascii Lia Lra.
From Verif Require Import RLib DiagModel WindowModel TriModel.
Import ListNotations.
Local Open Scope string_scope.
Local Open Scope list_scope.

Lemma lookup_in : forall A n (d : list (string * A)), (exists x, lookup n d = Some x) <-> In n (map fst d).
Proof.
  intros A n d. induction d as [|[m x] d IH]; cbn [lookup map fst In]; [split; [intros (y & K); discriminate|intros []]|]. destruct (String.eqb_spec n m) as [->|N]; [split; [left; reflexivity|intros _; exists x; reflexivity]|]. rewrite IH. intuition congruence.
Qed.
Lemma rescale_map : forall n d, map fst (rescale n d) = map fst d.
Proof. intros n d. unfold rescale. rewrite map_map. apply map_ext. intros [m x]. cbn [fst]. destruct (String.eqb n m); reflexivity. Qed.
Lemma rescale_nil : forall n d, rescale n d = [] <-> d = [].
Proof. intros n [|e d]; split; intro K; try reflexivity; discriminate. Qed.
(** The caller's weights with those of the chains in [shown] divided by their sum. *)
Definition divided (shown : list string) (ws : weights) : weights := map (fun e => if existsb (String.eqb (fst e)) shown then (fst e, normalise (snd e)) else e) ws.
Lemma divided_map : forall s ws, map fst (divided s ws) = map fst ws.
Proof. intros s ws. unfold divided. rewrite map_map. apply map_ext. intros [m x]. cbn [fst]. destruct (existsb (String.eqb m) s); reflexivity. Qed.
Lemma divided_nil : forall ws, divided [] ws = ws.
Proof. intro ws. unfold divided. cbn [existsb]. apply map_id. Qed.
Lemma divided_cons : forall n s ws, ~ In n s -> divided s (rescale n ws) = divided (n :: s) ws.
Proof.
  intros n s ws N. unfold divided, rescale. rewrite map_map. apply map_ext. intros [m x]. cbn [fst existsb]. destruct (String.eqb_spec n m) as [->|M]; cbn [fst snd].
  - rewrite String.eqb_refl. cbn [orb]. destruct (existsb (String.eqb m) s) eqn:E; [|reflexivity]. exfalso. apply existsb_exists in E. destruct E as (y & I & E). apply String.eqb_eq in E. subst y. contradiction.
  - destruct (String.eqb_spec m n); [congruence|]. reflexivity.
Qed.
Lemma divided_empty : forall s, divided s [] = [].
Proof. reflexivity. Qed.

(** When the statistics can be printed: the parameter names are given, not more than the columns of any chain, and each chain has weights if there are any. *)
Definition printable (cs : chains) (ws : weights) (names : option (list string)) : Prop :=
  forall n k, In (n, k) cs -> (ws = [] \/ In n (map fst ws)) /\ exists l, names = Some l /\ (length l <= k)%nat.
Lemma stats_ok : forall cs ws names, NoDup (map fst cs) ->
  (fst (stats_loop cs ws names) = Done tt <-> printable cs ws names) /\
  (fst (stats_loop cs ws names) = Done tt -> snd (stats_loop cs ws names) = divided (map fst cs) ws) /\
  exists done, (exists rest, map fst cs = done ++ rest) /\ snd (stats_loop cs ws names) = divided done ws.
Proof.
  induction cs as [|[n k] cs IH]; intros ws names ND; [split; [split; [intros _ n k []|reflexivity]|]; split; [intros _; symmetry; apply divided_nil|exists []; split; [exists []; reflexivity|symmetry; apply divided_nil]]|]. cbn [map fst] in ND. inversion ND as [|? ? N1 N2]; subst. cbn [stats_loop map fst].
  assert (A : forall b, (b = match ws with [] => false | _ => match lookup n ws with None => true | _ => false end end) -> (b = true <-> ~ (ws = [] \/ In n (map fst ws)))).
  { intros b ->. destruct ws as [|e ws]; [split; [discriminate|intro K; exfalso; apply K; left; reflexivity]|]. rewrite <- lookup_in. destruct (lookup n (e :: ws)) as [x|] eqn:E; split; try discriminate; try reflexivity; [intro K; exfalso; apply K; right; exists x; reflexivity|intros _ [K|(y & K)]; discriminate]. }
  set (b := match ws with [] => false | _ => match lookup n ws with None => true | _ => false end end) in *. specialize (A b eq_refl). destruct b.
  { cbn [fst snd]. split; [split; [discriminate|]; intro P; exfalso; apply (proj1 A eq_refl), (P n k); left; reflexivity|]. split; [discriminate|]. exists []. split; [exists (n :: map fst cs); reflexivity|symmetry; apply divided_nil]. }
  assert (B : ws = [] \/ In n (map fst ws)). { destruct ws as [|e ws]; [left; reflexivity|right]. apply lookup_in. destruct (lookup n (e :: ws)) as [x|] eqn:E; [exists x; reflexivity|exfalso]. assert (Z : false = true); [apply A|discriminate]. intros [K|K]; [discriminate|]. apply lookup_in in K. destruct K as (y & K). congruence. }
  assert (One : forall rest, exists done, (exists rest', n :: rest = done ++ rest') /\ rescale n ws = divided done ws). { intro rest. exists [n]. split; [exists rest; reflexivity|]. rewrite <- divided_cons by (intros []). symmetry. apply divided_nil. }
  destruct names as [l|]; [|cbn [fst snd]; split; [split; [discriminate|]; intro P; exfalso; destruct (P n k (or_introl eq_refl)) as (_ & l & K & _); discriminate|split; [discriminate|apply One]]].
  destruct (Nat.ltb_spec k (length l)) as [L|L]; [cbn [fst snd]; split; [split; [discriminate|]; intro P; exfalso; destruct (P n k (or_introl eq_refl)) as (_ & l' & K & K'); assert (l = l') by congruence; subst l'; lia|split; [discriminate|apply One]]|].
  destruct (IH (rescale n ws) (Some l) N2) as (I1 & I2 & I3). split; [|split].
  - rewrite I1. unfold printable. split; intros P m j I.
    + destruct I as [I|I]; [assert (m = n) by congruence; assert (j = k) by congruence; subst m j; split; [exact B|exists l; split; [reflexivity|exact L]]|]. destruct (P m j I) as [P1 P2]. split; [|exact P2]. rewrite rescale_nil, rescale_map in P1. exact P1.
    + destruct (P m j (or_intror I)) as [P1 P2]. split; [|exact P2]. rewrite rescale_nil, rescale_map. exact P1.
  - intro K. rewrite (I2 K). apply divided_cons, N1.
  - destruct I3 as (done & (rest & D1) & D2). exists (n :: done). split; [exists rest; rewrite D1; reflexivity|]. rewrite D2. apply divided_cons. intro K. apply N1. rewrite D1. apply in_or_app. left. exact K.
Qed.
(** The state of the weights after any call, failed or not. *)
Theorem C116_triangle_weights : forall dec cs ws a, NoDup (map fst cs) ->
  let after := snd (plot_triangle dec cs ws a) in
  (show_stats a = false -> after = ws) /\
  (show_stats a = true -> exists done rest, map fst cs = done ++ rest /\ after = divided done ws) /\
  (show_stats a = true -> forall calls, fst (plot_triangle dec cs ws a) = Done calls -> after = divided (map fst cs) ws).
Proof.
  intros dec cs ws a ND after. unfold after, plot_triangle. destruct (stats_ok cs ws (param_names a) ND) as (S1 & S2 & (done & (rest & D1) & D2)). destruct (show_stats a).
  - destruct (stats_loop cs ws (param_names a)) as [s ws'] eqn:E. cbn [fst snd] in *. split; [discriminate|]. split; [intros _; exists done, rest; split; assumption|]. intros _ calls K. destruct s as [[]|e]; [apply S2; reflexivity|discriminate].
  - cbn [fst snd]. split; [reflexivity|]. split; discriminate.
Qed.
Print Assumptions C116_triangle_weights.
Example C116_triangle_weights_sat : exists (cs : list (string * nat)), NoDup (map fst cs).
Proof. exists [("a", 2%nat); ("b", 3%nat)]. repeat constructor; cbn; intuition discriminate. Qed.
(** Without parameter names, the default, printing the statistics, also the default, fails for every backend; the weights of the first chain
    have been divided by their sum by then. *)
Theorem C116_triangle_default_refuted : forall dec n k cs ws a, show_stats a = true -> param_names a = None -> (ws = [] \/ In n (map fst ws)) ->
  plot_triangle dec ((n, k) :: cs) ws a = (Error "TypeError", divided [n] ws).
Proof.
  intros dec n k cs ws a S P W. unfold plot_triangle. rewrite S, P. cbn [stats_loop]. assert (B : (match ws with [] => false | _ => match lookup n ws with None => true | _ => false end end) = false). { destruct ws as [|e ws]; [reflexivity|]. destruct W as [W|W]; [discriminate|]. apply lookup_in in W. destruct W as (x & ->). reflexivity. }
  rewrite B. cbn [bind]. f_equal. rewrite <- divided_cons by (intros []). symmetry. apply divided_nil.
Qed.
Print Assumptions C116_triangle_default_refuted.
Example C116_triangle_default_refuted_sat : exists (n : string) (ws : list (string * list R)) (a : arguments), show_stats a = true /\ param_names a = None /\ (ws = [] \/ In n (map fst ws)).
Proof. exists "a", [("a", [1%R; 2%R])], (Args "corner" false None (Each [("a", "C0")]) None None true true). repeat split. right. left. reflexivity. Qed.

(** * The backends *)
Lemma all_ok : forall A B (f : A -> result B) (g : A -> B) (P : A -> Prop) l, (forall x, In x l -> (exists y, f x = Done y) <-> P x) -> (forall x y, In x l -> f x = Done y -> y = g x) ->
  ((exists ys, all f l = Done ys) <-> Forall P l) /\ (forall ys, all f l = Done ys -> ys = map g l).
Proof.
  intros A B f g P l. induction l as [|x l IH]; intros H1 H2; cbn [all].
  - split; [split; [constructor|exists []; reflexivity]|]. intros ys K. cbn. congruence.
  - destruct IH as [I1 I2]; [intros y I; apply H1; right; exact I|intros y z I; apply H2; right; exact I|]. pose proof (H1 x (or_introl eq_refl)) as H. split.
    + split.
      * intros (ys & K). destruct (f x) as [y|e] eqn:E; [|discriminate]. cbn [bind] in K. destruct (all f l) as [zs|e] eqn:E'; [|discriminate]. constructor; [apply H; exists y; reflexivity|apply I1; exists zs; reflexivity].
      * intro F. inversion F as [|? ? F1 F2]; subst. apply H in F1. apply I1 in F2. destruct F1 as (y & ->), F2 as (ys & ->). exists (y :: ys). reflexivity.
    + intros ys K. destruct (f x) as [y|e] eqn:E; [|discriminate]. cbn [bind] in K. destruct (all f l) as [zs|e] eqn:E'; [|discriminate]. cbn [bind] in K. assert (ys = y :: zs) by congruence. subst ys. cbn [map]. f_equal; [apply (H2 x y (or_introl eq_refl) E)|apply I2; reflexivity].
Qed.
(** The weights and the colour of a chain. *)
Definition w_of (ws : weights) (n : string) : option (list R) := lookup n ws.
Definition c_of (c : colours) (n : string) : option string := match c with Each d => lookup n d | Same s => s end.
Definition weighted (ws : weights) (n : string) : Prop := ws = [] \/ In n (map fst ws).
Definition coloured (c : colours) (n : string) : Prop := match c with Each d => In n (map fst d) | Same _ => True end.
Lemma weight_ok : forall ws n, ((exists w, weight_of ws n = Done w) <-> weighted ws n) /\ (forall w, weight_of ws n = Done w -> w = w_of ws n).
Proof.
  intros ws n. unfold weight_of, weighted, w_of. destruct ws as [|e ws]; [split; [split; [intros _; left; reflexivity|intros _; exists None; reflexivity]|]; intros w K; cbn; congruence|]. rewrite <- lookup_in. destruct (lookup n (e :: ws)) as [x|].
  - split; [split; [intros _; right; exists x; reflexivity|intros _; exists (Some x); reflexivity]|]. intros w K. congruence.
  - split; [split; [intros (w & K); discriminate|intros [K|(y & K)]; discriminate]|]. intros w K. discriminate.
Qed.
Lemma colour_ok : forall c n, ((exists w, colour c n = Done w) <-> coloured c n) /\ (forall w, colour c n = Done w -> w = c_of c n).
Proof.
  intros [d|s] n; unfold colour, coloured, c_of; [|split; [split; [exact (fun _ => I)|intros _; exists s; reflexivity]|intros w K; congruence]]. rewrite <- lookup_in. destruct (lookup n d) as [x|].
  - split; [split; [intros _; exists x; reflexivity|intros _; exists (Some x); reflexivity]|]. intros w K. congruence.
  - split; [split; intros (w & K); discriminate|]. intros w K. discriminate.
Qed.
(** The call for chain [n], the [i]-th: labels and truths go with the first only, and all draw on one figure. *)
Definition corner_call (a : arguments) (ws : weights) (i : nat) (n : string) : call :=
  Corner n (w_of ws n) (c_of (cols a) n) (if Nat.eqb i 0 then param_names a else None) (if Nat.eqb i 0 then truths a else None)
    (if fig0 a then Some false else if Nat.eqb i 0 then None else Some true).
Lemma corner_loop_ok : forall a ws l first fig,
  ((exists r, corner_loop a ws first fig l = Done r) <-> Forall (fun n => coloured (cols a) n /\ weighted ws n) l) /\
  (forall r, corner_loop a ws first fig l = Done r -> r = (match l with [] => [] | n :: t => Corner n (w_of ws n) (c_of (cols a) n) (if first then param_names a else None) (if first then truths a else None) fig ::
      map (fun n => Corner n (w_of ws n) (c_of (cols a) n) None None (match fig with Some f => Some f | None => Some true end)) t end,
    match l with [] => fig | _ => match fig with Some f => Some f | None => Some true end end)).
Proof.
  intros a ws l. induction l as [|n l IH]; intros first fig; cbn [corner_loop]; [split; [split; [constructor|exists ([], fig); reflexivity]|intros r K; congruence]|].
  destruct (colour_ok (cols a) n) as [C1 C2], (weight_ok ws n) as [W1 W2]. set (made := match fig with Some f => Some f | None => Some true end). destruct (IH false made) as [I1 I2]. split.
  - split.
    + intros (r & K). destruct (colour (cols a) n) as [c|e]; [|discriminate]. cbn [bind] in K. destruct (weight_of ws n) as [w|e]; [|discriminate]. cbn [bind] in K. destruct (corner_loop a ws false made l) as [[cl f]|e]; [|discriminate]. constructor; [split; [apply C1; exists c; reflexivity|apply W1; exists w; reflexivity]|apply I1; eexists; reflexivity].
    + intro F. inversion F as [|? ? [F1 F2] F3]; subst. apply C1 in F1. apply W1 in F2. apply I1 in F3. destruct F1 as (c & ->), F2 as (w & ->), F3 as ([cl f] & ->). cbn [bind]. eexists. reflexivity.
  - intros r K. destruct (colour (cols a) n) as [c|e]; [|discriminate]. cbn [bind] in K. destruct (weight_of ws n) as [w|e]; [|discriminate]. cbn [bind] in K. destruct (corner_loop a ws false made l) as [[cl f]|e]; [|discriminate]. cbn [bind] in K. specialize (I2 _ eq_refl). rewrite (C2 c eq_refl), (W2 w eq_refl) in K. assert (K' : r = (Corner n (w_of ws n) (c_of (cols a) n) (if first then param_names a else None) (if first then truths a else None) fig :: cl, f)) by congruence. rewrite K'. clear K K'.
    assert (E1 : cl = map (fun n0 => Corner n0 (w_of ws n0) (c_of (cols a) n0) None None made) l). { assert (cl = fst (cl, f)) as -> by reflexivity. rewrite I2. cbn [fst]. destruct l as [|m l]; [reflexivity|]. cbn [map]. unfold made. destruct fig; reflexivity. }
    assert (E2 : f = made). { assert (f = snd (cl, f)) as -> by reflexivity. rewrite I2. cbn [snd]. unfold made. destruct l, fig; reflexivity. } rewrite E1, E2. reflexivity.
Qed.
Lemma corner_calls : forall a ws l, fst (match l with [] => [] | n :: t => Corner n (w_of ws n) (c_of (cols a) n) (param_names a) (truths a) (if fig0 a then Some false else None) ::
      map (fun n => Corner n (w_of ws n) (c_of (cols a) n) None None (match (if fig0 a then Some false else None) with Some f => Some f | None => Some true end)) t end, tt) = map (fun '(i, n) => corner_call a ws i n) (combine (seq 0 (length l)) l).
Proof.
  intros a ws [|n l]; [reflexivity|]. cbn [fst length seq combine map]. f_equal. assert (G : forall k, map (fun m => Corner m (w_of ws m) (c_of (cols a) m) None None (match (if fig0 a then Some false else None) with Some f => Some f | None => Some true end)) l = map (fun '(i, m) => corner_call a ws i m) (combine (seq (S k) (length l)) l)). { induction l as [|m l IH]; intro k; [reflexivity|]. cbn [length seq combine map]. f_equal; [|apply IH]. unfold corner_call. cbn [Nat.eqb]. destruct (fig0 a); reflexivity. } apply G.
Qed.
(** What every backend needs first. *)
Definition ready (cs : chains) (ws : weights) (a : arguments) : Prop := show_stats a = true -> printable cs ws (param_names a).
(** The weights the packages see. *)
Definition seen (cs : chains) (ws : weights) (a : arguments) : weights := if show_stats a then divided (map fst cs) ws else ws.
Lemma triangle_start : forall dec cs ws a, NoDup (map fst cs) -> let l := map fst cs in
  let run := fun ws' => if String.eqb (lower (backend a)) "corner" then corner_plot a ws' l else if String.eqb (lower (backend a)) "getdist" then getdist_plot dec a ws' l
    else if String.eqb (lower (backend a)) "chainconsumer" then consumer_plot a ws' cs else Done [] in
  forall calls, fst (plot_triangle dec cs ws a) = Done calls <-> ready cs ws a /\ run (seen cs ws a) = Done calls.
Proof.
  intros dec cs ws a ND l run calls. unfold plot_triangle, ready, seen. destruct (stats_ok cs ws (param_names a) ND) as (S1 & S2 & _). destruct (show_stats a).
  - destruct (stats_loop cs ws (param_names a)) as [s ws'] eqn:E. cbn [fst snd] in *. destruct s as [[]|e]; cbn [bind].
    + rewrite (S2 eq_refl). split; [intro K; split; [intros _; apply S1; reflexivity|exact K]|intros [_ K]; exact K].
    + split; [discriminate|]. intros [K _]. specialize (proj2 S1 (K eq_refl)). discriminate.
  - cbn [fst bind]. split; [intro K; split; [discriminate|exact K]|intros [_ K]; exact K].
Qed.
Lemma weighted_divided : forall s ws n, weighted (divided s ws) n <-> weighted ws n.
Proof. intros s ws n. unfold weighted. rewrite divided_map. assert (E : divided s ws = [] <-> ws = []) by (destruct ws; split; intro K; try reflexivity; discriminate). rewrite E. reflexivity. Qed.
Lemma weighted_seen : forall cs ws a n, weighted (seen cs ws a) n <-> weighted ws n.
Proof. intros cs ws a n. unfold seen. destruct (show_stats a); [apply weighted_divided|reflexivity]. Qed.
Theorem C116_triangle_corner : forall dec cs ws a, NoDup (map fst cs) -> lower (backend a) = "corner" -> let l := map fst cs in
  ((exists calls, fst (plot_triangle dec cs ws a) = Done calls) <->
    ready cs ws a /\ (forall n, In n l -> coloured (cols a) n /\ weighted ws n) /\ (show_legend a = true -> l <> [] \/ fig0 a = true)) /\
  (forall calls, fst (plot_triangle dec cs ws a) = Done calls ->
    calls = map (fun '(i, n) => corner_call a (seen cs ws a) i n) (combine (seq 0 (length l)) l) ++ (if show_legend a then [Legend (map (fun n => (n, c_of (cols a) n)) l)] else [])).
Proof.
  intros dec cs ws a ND HB l. pose proof (triangle_start dec cs ws a ND) as T. cbv zeta in T. rewrite HB in T. cbn [String.eqb Ascii.eqb Bool.eqb] in T. fold l in T. set (sw := seen cs ws a) in *.
  destruct (corner_loop_ok a sw l true (if fig0 a then Some false else None)) as [L1 L2].
  destruct (all_ok _ _ (fun n => bind (colour (cols a) n) (fun c => Done (n, c))) (fun n => (n, c_of (cols a) n)) (coloured (cols a)) l) as [A1 A2].
  { intros n _. destruct (colour_ok (cols a) n) as [C1 _]. rewrite <- C1. split; [intros (y & K); destruct (colour (cols a) n) as [c|]; [exists c; reflexivity|discriminate]|intros (c & ->); eexists; reflexivity]. }
  { intros n y _ K. destruct (colour_ok (cols a) n) as [_ C2]. destruct (colour (cols a) n) as [c|]; [|discriminate]. cbn [bind] in K. rewrite <- (C2 c eq_refl). congruence. }
  assert (CW : Forall (fun n => coloured (cols a) n /\ weighted sw n) l <-> (forall n, In n l -> coloured (cols a) n /\ weighted ws n)). { rewrite Forall_forall. unfold sw. split; intros F n I; specialize (F n I); rewrite weighted_seen in *; exact F. }
  assert (R : forall calls, corner_plot a sw l = Done calls <-> (forall n, In n l -> coloured (cols a) n /\ weighted ws n) /\ (show_legend a = true -> l <> [] \/ fig0 a = true) /\
    calls = map (fun '(i, n) => corner_call a sw i n) (combine (seq 0 (length l)) l) ++ (if show_legend a then [Legend (map (fun n => (n, c_of (cols a) n)) l)] else [])).
  { intro calls. rewrite <- CW. unfold corner_plot. pose proof (corner_calls a sw l) as CC. cbn [fst] in CC. destruct (corner_loop a sw true (if fig0 a then Some false else None) l) as [[cl f]|e] eqn:E; cbn [bind].
    - pose proof (proj1 L1 (ex_intro _ _ eq_refl)) as F. specialize (L2 _ eq_refl). cbv iota in L2. assert (E1 : cl = map (fun '(i, n) => corner_call a sw i n) (combine (seq 0 (length l)) l)) by (rewrite <- CC; congruence). assert (E2 : f = match l with [] => (if fig0 a then Some false else None) | _ => match (if fig0 a then Some false else None) with Some f => Some f | None => Some true end end) by congruence. clear L2. destruct (show_legend a).
      + assert (FC : Forall (coloured (cols a)) l) by (revert F; apply Forall_impl; intros n [N _]; exact N). apply A1 in FC. destruct FC as (es & FC). rewrite FC. cbn [bind]. rewrite (A2 es FC). clear FC A1 A2. rewrite E2, E1. destruct l as [|n l'] eqn:EL.
        * destruct (fig0 a); [split; [intro K; split; [exact F|]; split; [intros _; right; reflexivity|congruence]|intros (_ & _ & ->); reflexivity]|]. split; [discriminate|]. intros (_ & K & _). destruct (K eq_refl) as [K'|K']; [contradiction|discriminate].
        * destruct (fig0 a); (split; [intro K; split; [exact F|]; split; [intros _; left; discriminate|congruence]|intros (_ & _ & ->); reflexivity]).
      + rewrite E1, app_nil_r. split; [intro K; split; [exact F|]; split; [discriminate|congruence]|intros (_ & _ & ->); reflexivity].
    - split; [discriminate|]. intros (F & _). apply L1 in F. destruct F as (r & F). discriminate. }
  split.
  - split.
    + intros (calls & K). apply T in K. destruct K as [K1 K2]. apply R in K2. destruct K2 as (K2 & K3 & _). split; [exact K1|]. split; assumption.
    + intros (K1 & K2 & K3). eexists. apply T. split; [exact K1|]. apply R. split; [exact K2|]. split; [exact K3|reflexivity].
  - intros calls K. apply T in K. destruct K as [_ K]. apply R in K. apply K.
Qed.
Print Assumptions C116_triangle_corner.
Lemma seq_nth_pairs : forall A (dec : nat -> string) (rg : list A) m, (m <= length rg)%nat -> forall (g : nat -> string * A), (forall i x, nth_error rg i = Some x -> g i = (internal dec i, x)) -> map g (seq 0 m) = combine (map (internal dec) (seq 0 m)) (firstn m rg).
Proof.
  intros A dec rg m. assert (G : forall rg' k m, (m <= length rg')%nat -> forall g : nat -> string * A, (forall i x, nth_error rg' i = Some x -> g (k + i)%nat = (internal dec (k + i)%nat, x)) -> map g (seq k m) = combine (map (internal dec) (seq k m)) (firstn m rg')). { clear. intros rg'. induction rg' as [|x rg' IH]; intros k m L g H; [cbn [length] in L; assert (m = 0%nat) by lia; subst m; reflexivity|]. destruct m as [|m]; [reflexivity|]. cbn [seq map firstn combine]. pose proof (H 0%nat x eq_refl) as H0. rewrite Nat.add_0_r in H0. rewrite H0. f_equal. apply IH; [cbn [length] in L; lia|]. intros i y K. rewrite Nat.add_succ_l, <- Nat.add_succ_r. apply H. exact K. }
  intros L g H. apply (G rg 0%nat m L g). intros i x K. cbn [Nat.add]. apply H, K.
Qed.
(** GetDist: the parameters are called p0, p1, ... with the caller's names, without dollars, as labels; each needs a range. *)
Theorem C116_triangle_getdist : forall dec cs ws a, NoDup (map fst cs) -> lower (backend a) = "getdist" -> let l := map fst cs in
  ((exists calls, fst (plot_triangle dec cs ws a) = Done calls) <->
    ready cs ws a /\ (forall n, In n l -> coloured (cols a) n /\ weighted ws n) /\
    exists pn, param_names a = Some pn /\ (pn = [] \/ exists rg, param_range a = Some rg /\ (length pn <= length rg)%nat)) /\
  (forall calls, fst (plot_triangle dec cs ws a) = Done calls -> exists pn rg, param_names a = Some pn /\ (param_range a = Some rg \/ pn = [] /\ rg = []) /\
    let names := map (internal dec) (seq 0 (length pn)) in
    calls = map (fun n => Samples n (w_of (seen cs ws a) n) names (map no_dollar pn) (combine names rg)) l ++
      [Triangle l (match cols a with Each d => Some (map (fun n => match lookup n d with Some c => c | None => "" end) l) | Same _ => None end) (truths a)]).
Proof.
  intros dec cs ws a ND HB l. pose proof (triangle_start dec cs ws a ND) as T. cbv zeta in T. rewrite HB in T. cbn [String.eqb Ascii.eqb Bool.eqb] in T. fold l in T. set (sw := seen cs ws a) in *.
  assert (W : forall n, weighted sw n <-> weighted ws n) by (intro n; apply weighted_seen).
  assert (CS : forall cs0, (match cols a with Each d => bind (all (fun n => match lookup n d with Some c => Done c | None => Error "KeyError" end) l) (fun cs => Done (Some cs)) | Same _ => Done None end) = Done cs0 <->
    (forall n, In n l -> coloured (cols a) n) /\ cs0 = match cols a with Each d => Some (map (fun n => match lookup n d with Some c => c | None => "" end) l) | Same _ => None end).
  { intro cs0. unfold coloured. destruct (cols a) as [d|s]; [|split; [intro K; split; [intros; exact I|congruence]|intros [_ ->]; reflexivity]].
    destruct (all_ok _ _ (fun n => match lookup n d with Some c => Done c | None => Error "KeyError" end) (fun n => match lookup n d with Some c => c | None => "" end) (fun n => In n (map fst d)) l) as [A1 A2].
    { intros n _. rewrite <- lookup_in. destruct (lookup n d) as [x|]; [split; intros _; eexists; reflexivity|split; intros (y & K); discriminate]. }
    { intros n y _ K. destruct (lookup n d); [congruence|discriminate]. }
    rewrite Forall_forall in A1. destruct (all (fun n => match lookup n d with Some c => Done c | None => Error "KeyError" end) l) as [ys|e]; cbn [bind].
    - specialize (A2 ys eq_refl). subst ys. split; [intro K; split; [apply A1; eexists; reflexivity|congruence]|intros [_ ->]; reflexivity].
    - split; [discriminate|]. intros [K _]. apply A1 in K. destruct K as (y & K). discriminate. }
  assert (R : forall calls, getdist_plot dec a sw l = Done calls <-> (forall n, In n l -> coloured (cols a) n /\ weighted ws n) /\ exists pn rg, param_names a = Some pn /\ (param_range a = Some rg /\ (length pn <= length rg)%nat \/ pn = [] /\ rg = []) /\
    let names := map (internal dec) (seq 0 (length pn)) in
    calls = map (fun n => Samples n (w_of sw n) names (map no_dollar pn) (combine names rg)) l ++
      [Triangle l (match cols a with Each d => Some (map (fun n => match lookup n d with Some c => c | None => "" end) l) | Same _ => None end) (truths a)]).
  { intro calls. unfold getdist_plot. destruct (param_names a) as [pn|]; [|split; [discriminate|intros (_ & pn & rg & K & _); discriminate]].
    set (names := map (internal dec) (seq 0 (length pn))). set (fr := fun i => match param_range a with None => Error "TypeError" | Some rg => match nth_error rg i with Some x => Done (internal dec i, x) | None => Error "IndexError" end end).
    assert (RG : forall ranges, all fr (seq 0 (length pn)) = Done ranges <-> exists rg, (param_range a = Some rg /\ (length pn <= length rg)%nat \/ pn = [] /\ rg = []) /\ ranges = combine names rg).
    { intro ranges. assert (CF : forall (x : list string) (y : list (R * R)), combine x (firstn (length x) y) = combine x y) by (clear; induction x as [|u x IH]; intros [|v y]; cbn [length firstn combine]; [reflexivity..|f_equal; apply IH]).
      destruct pn as [|p0 pn0]; [cbn [length seq all]; split; [intro K; exists []; split; [right; split; reflexivity|cbn; congruence]|intros (rg & _ & ->); reflexivity]|].
      set (pn := p0 :: pn0) in *. destruct (param_range a) as [rg|] eqn:ER; [|unfold fr; cbn; split; [discriminate|intros (rg & [[K _]|[K _]] & _); discriminate]].
      destruct (all_ok _ _ fr (fun i => match nth_error rg i with Some x => (internal dec i, x) | None => ("", (0%R, 0%R)) end) (fun i => (i < length rg)%nat) (seq 0 (length pn))) as [A1 A2].
      { intros i _. unfold fr. rewrite <- nth_error_Some. destruct (nth_error rg i); split; try (intros _; discriminate); try (intros _; eexists; reflexivity); [intros (y & K); discriminate|intro K; contradiction]. }
      { intros i y _ K. unfold fr in K. destruct (nth_error rg i); [congruence|discriminate]. }
      assert (LE : Forall (fun i => (i < length rg)%nat) (seq 0 (length pn)) <-> (length pn <= length rg)%nat). { rewrite Forall_forall. split; [intro K; specialize (K (length pn - 1)%nat); rewrite in_seq in K; cbn [pn length] in *; lia|intros K i I; apply in_seq in I; lia]. }
      rewrite LE in A1. assert (MP : (length pn <= length rg)%nat -> map (fun i => match nth_error rg i with Some x => (internal dec i, x) | None => ("", (0%R, 0%R)) end) (seq 0 (length pn)) = combine names rg).
      { intro K. unfold names. rewrite (seq_nth_pairs _ dec rg (length pn) K) by (intros i x ->; reflexivity). rewrite <- (CF (map (internal dec) (seq 0 (length pn))) rg). rewrite map_length, seq_length. reflexivity. }
      split.
      - intro K. exists rg. pose proof (proj1 A1 (ex_intro _ _ K)) as LL. split; [left; split; [reflexivity|exact LL]|]. rewrite (A2 _ K). apply MP, LL.
      - intros (rg' & [[K L]|[K _]] & ->); [|discriminate]. assert (rg' = rg) by congruence. subst rg'. destruct (proj2 A1 L) as (ys & Y). rewrite Y, (A2 _ Y). f_equal. apply MP, L. }
    destruct (all fr (seq 0 (length pn))) as [ranges|e]; cbn [bind]; [|split; [discriminate|]; intros (_ & pn' & rg & E & K & _); assert (pn' = pn) by congruence; subst pn'; assert (Z : Error e = Done (combine names rg)) by (apply RG; exists rg; split; [exact K|reflexivity]); discriminate].
    destruct (proj1 (RG ranges) eq_refl) as (rg & K & ->).
    destruct (all_ok _ _ (fun n => bind (weight_of sw n) (fun w => Done (Samples n w names (map no_dollar pn) (combine names rg)))) (fun n => Samples n (w_of sw n) names (map no_dollar pn) (combine names rg)) (weighted sw) l) as [A1 A2].
    { intros n _. destruct (weight_ok sw n) as [W1 _]. rewrite <- W1. split; [intros (y & Z); destruct (weight_of sw n) as [w|]; [exists w; reflexivity|discriminate]|intros (w & ->); eexists; reflexivity]. }
    { intros n y _ Z. destruct (weight_ok sw n) as [_ W2]. destruct (weight_of sw n) as [w|]; [|discriminate]. cbn [bind] in Z. rewrite <- (W2 w eq_refl). congruence. }
    rewrite Forall_forall in A1. destruct (all (fun n => bind (weight_of sw n) (fun w => Done (Samples n w names (map no_dollar pn) (combine names rg)))) l) as [ss|e]; cbn [bind].
    - specialize (A2 ss eq_refl). pose proof (proj1 A1 (ex_intro _ _ eq_refl)) as AW. destruct (match cols a with Each d => bind (all (fun n => match lookup n d with Some c => Done c | None => Error "KeyError" end) l) (fun cs => Done (Some cs)) | Same _ => Done None end) as [c0|e]; cbn [bind].
      + destruct (proj1 (CS c0) eq_refl) as [C1 C2]. rewrite <- C2. split.
        * intro Z. split; [intros n I; split; [apply C1, I|apply W, AW, I]|]. exists pn, rg. split; [reflexivity|]. split; [exact K|]. cbv zeta. fold names. rewrite <- A2. congruence.
        * intros (_ & pn' & rg' & E & K' & Z). assert (pn' = pn) by congruence. subst pn'. cbv zeta in Z. fold names in Z. rewrite Z. assert (EE : combine names rg' = combine names rg). { destruct K as [[K _]|[K1 K2]], K' as [[K' _]|[K1' K2']]; [congruence|subst pn; reflexivity|subst pn; reflexivity|congruence]. } rewrite EE, A2. reflexivity.
      + split; [discriminate|]. intros (F & _). assert (Z : Error e = Done (match cols a with Each d => Some (map (fun n => match lookup n d with Some c => c | None => "" end) l) | Same _ => None end)) by (apply CS; split; [intros n I; apply F, I|reflexivity]). discriminate.
    - split; [discriminate|]. intros (F & _). assert (Z : forall x, In x l -> weighted sw x) by (intros x I; apply W, F, I). apply A1 in Z. destruct Z as (y & Z). discriminate. }
  split.
  - split.
    + intros (calls & K). apply T in K. destruct K as [K1 K2]. apply R in K2. destruct K2 as (K2 & pn & rg & K3 & K4 & _). split; [exact K1|]. split; [exact K2|]. exists pn. split; [exact K3|]. destruct K4 as [[K4 K5]|[K4 _]]; [right; exists rg; split; assumption|left; exact K4].
    + intros (K1 & K2 & pn & K3 & K4). destruct K4 as [K4|(rg & K4 & K5)]; eexists; apply T; (split; [exact K1|]); apply R; (split; [exact K2|]).
      * exists pn, []. split; [exact K3|]. split; [right; split; [exact K4|reflexivity]|reflexivity].
      * exists pn, rg. split; [exact K3|]. split; [left; split; assumption|reflexivity].
  - intros calls K. apply T in K. destruct K as [_ K]. apply R in K. destruct K as (_ & pn & rg & K1 & K2 & K3). exists pn, rg. split; [exact K1|]. split; [destruct K2 as [[K2 _]|K2]; [left; exact K2|right; exact K2]|exact K3].
Qed.
Print Assumptions C116_triangle_getdist.
Example C116_triangle_getdist_sat : exists (cs : list (string * nat)) (a : arguments), NoDup (map fst cs) /\ lower (backend a) = "getdist".
Proof. exists [("a", 2%nat); ("b", 3%nat)], (Args "GetDist" false None (Each [("a", "C0")]) None None true true). split; [repeat constructor; cbn; intuition discriminate|reflexivity]. Qed.
(** ChainConsumer: a colour for each chain, one name per column and ranges are all needed. *)
Theorem C116_triangle_consumer : forall dec cs ws a, NoDup (map fst cs) -> lower (backend a) = "chainconsumer" ->
  ((exists calls, fst (plot_triangle dec cs ws a) = Done calls) <->
    ready cs ws a /\ exists pn rg, param_names a = Some pn /\ param_range a = Some rg /\ forall n k, In (n, k) cs -> k = length pn /\ weighted ws n /\ c_of (cols a) n <> None) /\
  (forall calls, fst (plot_triangle dec cs ws a) = Done calls -> exists pn rg, param_names a = Some pn /\ param_range a = Some rg /\
    calls = map (fun n => AddChain n (w_of (seen cs ws a) n) (Some pn) (match c_of (cols a) n with Some c => c | None => "" end)) (map fst cs) ++
      (match truths a with Some v => [AddTruth (combine pn v)] | None => [] end) ++ [PlotConfig (combine pn rg)]).
Proof.
  intros dec cs ws a ND HB. pose proof (triangle_start dec cs ws a ND) as T. cbv zeta in T. rewrite HB in T. cbn [String.eqb Ascii.eqb Bool.eqb] in T. set (sw := seen cs ws a) in *.
  assert (R : forall calls, consumer_plot a sw cs = Done calls <-> exists pn rg, param_names a = Some pn /\ param_range a = Some rg /\ (forall n k, In (n, k) cs -> k = length pn /\ weighted ws n /\ c_of (cols a) n <> None) /\
    calls = map (fun n => AddChain n (w_of sw n) (Some pn) (match c_of (cols a) n with Some c => c | None => "" end)) (map fst cs) ++
      (match truths a with Some v => [AddTruth (combine pn v)] | None => [] end) ++ [PlotConfig (combine pn rg)]).
  { intro calls. unfold consumer_plot.
    destruct (all_ok _ _ (fun '(n, k) => bind (colour (cols a) n) (fun c => if match param_names a with Some p => negb (Nat.eqb (length p) k) | None => false end then Error "ValueError" else
      bind (weight_of sw n) (fun w => match c with Some c => Done (AddChain n w (param_names a) c) | None => Error "ValueError" end)))
      (fun x => AddChain (fst x) (w_of sw (fst x)) (param_names a) (match c_of (cols a) (fst x) with Some c => c | None => "" end))
      (fun x => (forall p, param_names a = Some p -> snd x = length p) /\ weighted ws (fst x) /\ c_of (cols a) (fst x) <> None) cs) as [A1 A2].
    { intros [n k] _. cbn [fst snd]. destruct (colour_ok (cols a) n) as [C1 C2], (weight_ok sw n) as [W1 W2]. assert (W : weighted sw n <-> weighted ws n) by apply weighted_seen. rewrite <- W, <- W1. clear W W1. destruct (colour (cols a) n) as [c|e]; cbn [bind].
      - rewrite <- (C2 c eq_refl). clear C1 C2. assert (Q : (forall p, param_names a = Some p -> k = length p) <-> match param_names a with Some p => negb (Nat.eqb (length p) k) | None => false end = false). { destruct (param_names a) as [p|]; [|split; [reflexivity|intros _ p K; discriminate]]. rewrite negb_false_iff, Nat.eqb_eq. split; [intro K; symmetry; apply K; reflexivity|intros K q E; assert (q = p) by congruence; subst q; symmetry; exact K]. }
        rewrite Q. destruct (match param_names a with Some p => negb (Nat.eqb (length p) k) | None => false end); [split; [intros (y & K); discriminate|intros [K _]; discriminate]|]. destruct (weight_of sw n) as [w|e]; cbn [bind]; [|split; [intros (y & K); discriminate|intros (_ & (w & K) & _); discriminate]]. destruct c as [c|]; [split; [intros _; split; [reflexivity|]; split; [exists w; reflexivity|discriminate]|intros _; eexists; reflexivity]|split; [intros (y & K); discriminate|intros (_ & _ & K); contradiction]].
      - split; [intros (y & K); discriminate|]. intros (_ & _ & K). exfalso. assert (Z : exists w, (@Error (option string) e) = Done w); [|destruct Z; discriminate]. apply C1. unfold coloured. unfold c_of in K. destruct (cols a) as [d|s]; [|exact I]. apply lookup_in. destruct (lookup n d) as [x|]; [exists x; reflexivity|contradiction]. }
    { intros [n k] y _ K. cbn [fst]. destruct (colour_ok (cols a) n) as [_ C2], (weight_ok sw n) as [_ W2]. destruct (colour (cols a) n) as [c|e]; [|discriminate]. cbn [bind] in K. destruct (match param_names a with Some p => negb (Nat.eqb (length p) k) | None => false end); [discriminate|]. destruct (weight_of sw n) as [w|e]; [|discriminate]. cbn [bind] in K. rewrite <- (C2 c eq_refl), <- (W2 w eq_refl). destruct c; [congruence|discriminate]. }
    rewrite Forall_forall in A1. match type of A1 with (exists ys, ?x = Done ys) <-> _ => destruct x as [ss|e] end; cbn [bind].
    - specialize (A2 ss eq_refl). pose proof (proj1 A1 (ex_intro _ _ eq_refl)) as F. clear A1. unfold zip_names. destruct (param_names a) as [pn|].
      + assert (TR : (match truths a with None => Done [] | Some v => bind (Done (combine pn v)) (fun d => Done [AddTruth d]) end) = Done (match truths a with Some v => [AddTruth (combine pn v)] | None => [] end)) by (destruct (truths a); reflexivity). rewrite TR. cbn [bind]. destruct (param_range a) as [rg|]; cbn [bind]; [|split; [discriminate|intros (pn' & rg & _ & K & _); discriminate]]. rewrite A2. split.
        * intro K. exists pn, rg. rewrite map_map. split; [reflexivity|]. split; [reflexivity|]. split; [intros n k I; destruct (F (n, k) I) as (F1 & F2 & F3); cbn [fst snd] in *; split; [apply F1; reflexivity|split; assumption]|congruence].
        * intros (pn' & rg' & E1 & E2 & _ & ->). assert (pn' = pn) by congruence. assert (rg' = rg) by congruence. subst pn' rg'. rewrite map_map. reflexivity.
      + split; [|intros (pn & rg & K & _); discriminate]. destruct (truths a); cbn [bind]; discriminate.
    - split; [discriminate|]. intros (pn & rg & E1 & E2 & F & _). assert (Z : exists ys, @Error (list call) e = Done ys); [|destruct Z; discriminate]. apply A1. intros [n k] I. destruct (F n k I) as (F1 & F2 & F3). cbn [fst snd]. split; [intros p E; assert (p = pn) by congruence; subst p; exact F1|split; assumption]. }
  split.
  - split.
    + intros (calls & K). apply T in K. destruct K as [K1 K2]. apply R in K2. destruct K2 as (pn & rg & K2 & K3 & K4 & _). split; [exact K1|]. exists pn, rg. split; [exact K2|]. split; assumption.
    + intros (K1 & pn & rg & K2 & K3 & K4). eexists. apply T. split; [exact K1|]. apply R. exists pn, rg. split; [exact K2|]. split; [exact K3|]. split; [exact K4|reflexivity].
  - intros calls K. apply T in K. destruct K as [_ K]. apply R in K. destruct K as (pn & rg & K1 & K2 & _ & K3). exists pn, rg. split; [exact K1|]. split; [exact K2|exact K3].
Qed.
Print Assumptions C116_triangle_consumer.
Example C116_triangle_consumer_sat : exists (cs : list (string * nat)) (a : arguments), NoDup (map fst cs) /\ lower (backend a) = "chainconsumer".
Proof. exists [("a", 2%nat); ("b", 3%nat)], (Args "ChainConsumer" false None (Each [("a", "C0")]) None None true true). split; [repeat constructor; cbn; intuition discriminate|reflexivity]. Qed.
(** Any other backend draws nothing and says nothing. *)
Theorem C116_triangle_other : forall dec cs ws a calls, NoDup (map fst cs) -> ~ In (lower (backend a)) ["corner"; "getdist"; "chainconsumer"] ->
  (fst (plot_triangle dec cs ws a) = Done calls <-> ready cs ws a /\ calls = []).
Proof.
  intros dec cs ws a calls ND N. rewrite (triangle_start dec cs ws a ND). destruct (String.eqb_spec (lower (backend a)) "corner") as [E|_]; [exfalso; apply N; rewrite E; left; reflexivity|]. destruct (String.eqb_spec (lower (backend a)) "getdist") as [E|_]; [exfalso; apply N; rewrite E; right; left; reflexivity|]. destruct (String.eqb_spec (lower (backend a)) "chainconsumer") as [E|_]; [exfalso; apply N; rewrite E; right; right; left; reflexivity|].
  split; intros [K1 K2]; split; try exact K1; congruence.
Qed.
Print Assumptions C116_triangle_other.
Example C116_triangle_other_sat : exists (cs : list (string * nat)) (a : arguments), NoDup (map fst cs) /\ ~ In (lower (backend a)) ["corner"; "getdist"; "chainconsumer"].
Proof. exists [("a", 2%nat); ("b", 3%nat)], (Args "seaborn" false None (Each [("a", "C0")]) None None true true). split; [repeat constructor; cbn; intuition discriminate|cbn; intuition discriminate]. Qed.
(** The GetDist plot of a [DistributionDiagnostic]: distribution [i] with its own [k] parameters, their labels and its colour, or colour [i] of the cycle. *)
Theorem C116_getdist_backend : forall dec labels fallback ds i k c, fallback <> [] -> nth_error ds i = Some (k, c) -> (k <= length labels)%nat ->
  length (getdist_backend dec labels fallback ds) = length ds /\
  exists names ls col, nth_error (getdist_backend dec labels fallback ds) i = Some (names, ls, col) /\
  length names = k /\ length ls = k /\ (forall j, (j < k)%nat -> nth_error names j = Some ("p" ++ dec j)%string /\ nth_error ls j = nth_error labels j) /\
  match c with Some s => if String.eqb s "" then nth_error fallback (i mod length fallback) = Some col else col = s | None => nth_error fallback (i mod length fallback) = Some col end.
Proof.
  intros dec labels fallback ds i k c NF E L. assert (NL : length fallback <> 0%nat) by (destruct fallback; [contradiction|discriminate]). split; [unfold getdist_backend; rewrite map_length, combine_length, seq_length; lia|].
  assert (C : forall (l : list (nat * option string)) s j, nth_error (combine (seq s (length l)) l) j = match nth_error l j with Some x => Some ((s + j)%nat, x) | None => None end). { clear. induction l as [|x l IH]; intros s j; [destruct j; reflexivity|]. cbn [length seq combine]. destruct j as [|j]; cbn [nth_error]; [rewrite Nat.add_0_r; reflexivity|]. rewrite IH, Nat.add_succ_l, <- Nat.add_succ_r. reflexivity. }
  unfold getdist_backend. eexists _, _, _. split; [rewrite nth_error_map, C, E; cbn [option_map Nat.add]; reflexivity|]. split; [rewrite map_length, seq_length; reflexivity|]. split; [apply firstn_length_le, L|]. split.
  - intros j Hj. split; [rewrite nth_error_map, (nth_error_nth' _ 0%nat) by (rewrite seq_length; exact Hj); rewrite seq_nth by exact Hj; reflexivity|]. clear - Hj. revert k labels Hj. induction j as [|j IH]; intros [|k] [|x labels] Hj; try lia; try reflexivity. cbn [firstn nth_error]. apply IH. lia.
  - assert (F : nth_error fallback (i mod length fallback) = Some (nth (i mod length fallback) fallback "")) by (apply nth_error_nth', Nat.mod_upper_bound, NL). destruct c as [[|x r]|]; cbn [String.eqb]; try exact F. reflexivity.
Qed.
Print Assumptions C116_getdist_backend.
Example C116_getdist_backend_sat : exists (labels : list string) (fallback : list string) (ds : list (nat * option string)) (i : nat) (k : nat) (c : option string), fallback <> [] /\ nth_error ds i = Some (k, c) /\ (k <= length labels)%nat.
Proof. exists ["a"; "b"], ["p"], [(2%nat, Some "red")], 0%nat, 2%nat, (Some "red"). split; [discriminate|]. split; [reflexivity|]. cbn; lia. Qed.
Example C116_triangle_sat : let a := Args "Corner" false None (Each [("a", "C0"); ("b", "C1")]) (Some ["x"; "y"]) None true true in
  NoDup (map fst [("a", 2%nat); ("b", 3%nat)]) /\ ready [("a", 2%nat); ("b", 3%nat)] [] a /\ lower (backend a) = "corner" /\
  fst (plot_triangle (fun _ => "0") [("a", 2%nat); ("b", 3%nat)] [] a) =
    Done [Corner "a" None (Some "C0") (Some ["x"; "y"]) None None; Corner "b" None (Some "C1") None None (Some true); Legend [("a", Some "C0"); ("b", Some "C1")]].
Proof.
  cbv zeta. split; [repeat constructor; cbn; intuition discriminate|]. split; [|split; reflexivity]. intros _ n k I. split; [left; reflexivity|]. eexists. split; [reflexivity|]. cbn in I. destruct I as [I|[I|[]]]; assert (k = 2 \/ k = 3)%nat by (clear - I; inversion I; auto); cbn; lia.
Qed.
(** The GetDist labels are the names with every dollar sign, and nothing else, taken out. *)
Theorem C116_triangle_labels : forall s, list_ascii_of_string (no_dollar s) = filter (fun c => negb (Ascii.eqb c "$"%char)) (list_ascii_of_string s).
Proof. induction s as [|c s IH]; [reflexivity|]. cbn [no_dollar list_ascii_of_string filter]. destruct (Ascii.eqb c "$"%char); cbn [negb list_ascii_of_string]; rewrite IH; reflexivity. Qed.
Print Assumptions C116_triangle_labels.
