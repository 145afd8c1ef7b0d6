(** Proofs about the binary file models. *)
From Coq Require Import List Arith ZArith QArith Lia Bool.
From Verif Require Import BinModel BinSpec.
Import ListNotations.
Local Open Scope nat_scope.

(** ** Bytes *)

Lemma le_bytes_S w z : le_bytes (S w) z = (z mod 256)%Z :: le_bytes w (z / 256)%Z.
Proof.
  unfold le_bytes. cbn [seq map]. f_equal.
  - f_equal. change (256 ^ Z.of_nat 0)%Z with 1%Z. apply Z.div_1_r.
  - rewrite <- seq_shift, map_map. apply map_ext. intros k.
    rewrite Nat2Z.inj_succ, Z.pow_succ_r by lia.
    rewrite Z.div_div by (try apply Z.pow_pos_nonneg; lia). reflexivity.
Qed.

Lemma le_round w z : (0 <= z < 256 ^ Z.of_nat w)%Z -> le_value (le_bytes w z) = z.
Proof.
  revert z. induction w as [|w IH]; intros z H.
  - cbn in *. lia.
  - rewrite le_bytes_S. cbn [le_value]. rewrite IH.
    + pose proof (Z.div_mod z 256 ltac:(lia)). lia.
    + rewrite Nat2Z.inj_succ, Z.pow_succ_r in H by lia.
      split; [apply Z.div_pos; lia|]. apply Z.div_lt_upper_bound; lia.
Qed.

Lemma int32_round z : int32_value (int32_bytes z) = wrap32 z.
Proof.
  unfold int32_value, int32_bytes. rewrite le_round.
  - unfold wrap32. now rewrite Z.mod_mod by lia.
  - change (256 ^ Z.of_nat 4)%Z with (2 ^ 32)%Z. apply Z.mod_pos_bound. lia.
Qed.

Lemma wrap32_small z : (- 2 ^ 31 <= z < 2 ^ 31)%Z -> wrap32 z = z.
Proof.
  intros H. unfold wrap32. destruct (Z_lt_dec z 0) as [L|L].
  - replace (z mod 2 ^ 32)%Z with (z + 2 ^ 32)%Z.
    2:{ rewrite <- (Z.mod_add z 1) by lia. symmetry. apply Z.mod_small. lia. }
    destruct (Z.ltb_spec (z + 2 ^ 32) (2 ^ 31)); lia.
  - rewrite Z.mod_small by lia. destruct (Z.ltb_spec z (2 ^ 31)); lia.
Qed.

Lemma wrap32_range z : (- 2 ^ 31 <= wrap32 z < 2 ^ 31)%Z.
Proof.
  unfold wrap32. pose proof (Z.mod_pos_bound z (2 ^ 32) ltac:(lia)).
  destruct (Z.ltb_spec (z mod 2 ^ 32) (2 ^ 31)); lia.
Qed.

Lemma int32_bytes_length z : length (int32_bytes z) = 4.
Proof. reflexivity. Qed.

(** ** Reading back what was written *)

Lemma take_items_concat w items rest :
  Forall (fun i => length i = w) items ->
  take_items w (length items) (concat items ++ rest) = (items, rest).
Proof.
  induction 1 as [|i items Hi H IH]; cbn [length take_items concat]; [reflexivity|].
  rewrite <- app_assoc. rewrite app_length.
  destruct (Nat.ltb_spec (length i + length (concat items ++ rest)) w); [lia|].
  rewrite skipn_app, skipn_all2 by lia. replace (w - length i) with 0 by lia. cbn [skipn app].
  rewrite IH. rewrite firstn_app, firstn_all2 by lia. replace (w - length i) with 0 by lia.
  cbn [firstn]. now rewrite app_nil_r.
Qed.

Lemma concat_length_const {A} w (items : list (list A)) :
  Forall (fun i => length i = w) items -> length (concat items) = length items * w.
Proof. induction 1 as [|i l H _ IH]; simpl; [reflexivity|]. rewrite app_length, IH, H. reflexivity. Qed.

Lemma fromfile_all w items :
  0 < w -> Forall (fun i => length i = w) items ->
  fromfile w (-1) (concat items) = (items, []).
Proof.
  intros Hw H. unfold fromfile. cbn [Z.ltb Z.compare].
  rewrite (concat_length_const w) by exact H. rewrite Nat.div_mul by lia.
  rewrite <- (app_nil_r (concat items)). now apply take_items_concat.
Qed.

Lemma fromfile_neg w k items :
  0 < w -> (k < 0)%Z -> Forall (fun i => length i = w) items ->
  fromfile w k (concat items) = (items, []).
Proof.
  intros Hw Hk H. rewrite <- (fromfile_all w items Hw H). unfold fromfile.
  replace (k <? 0)%Z with true by (symmetry; apply Z.ltb_lt; lia). reflexivity.
Qed.

Lemma fromfile_count w items rest :
  Forall (fun i => length i = w) items ->
  fromfile w (Z.of_nat (length items)) (concat items ++ rest) = (items, rest).
Proof.
  intros H. unfold fromfile.
  replace (Z.of_nat (length items) <? 0)%Z with false by (symmetry; apply Z.ltb_ge; lia).
  rewrite Nat2Z.id. now apply take_items_concat.
Qed.

(** Reading fewer items than there are. *)
Lemma take_items_short w n items rest :
  Forall (fun i => length i = w) items -> n <= length items ->
  take_items w n (concat items ++ rest) = (firstn n items, concat (skipn n items) ++ rest).
Proof.
  intros H Hn. rewrite <- (firstn_skipn n items) at 1. rewrite concat_app, <- app_assoc.
  replace n with (length (firstn n items)) at 1 by (rewrite firstn_length; lia).
  apply take_items_concat. rewrite <- (firstn_skipn n items) in H. now apply Forall_app in H.
Qed.

Lemma read_ints_header zs rest :
  read_ints (length zs) (concat (map int32_bytes zs) ++ rest) = (map wrap32 zs, rest).
Proof.
  unfold read_ints. rewrite <- (map_length int32_bytes zs), fromfile_count.
  - rewrite map_map. f_equal. apply map_ext. apply int32_round.
  - apply Forall_forall. intros i Hi. apply in_map_iff in Hi as (z & <- & _). reflexivity.
Qed.

Lemma read_dims n s rest :
  dims_fit s -> length s = n ->
  read_ints n (concat (map int32_bytes (zdims s)) ++ rest) = (zdims s, rest).
Proof.
  intros Hf <-. replace (length s) with (length (zdims s)) by (unfold zdims; now rewrite map_length).
  rewrite read_ints_header. f_equal. unfold zdims. rewrite map_map. apply map_ext_in. intros n Hn.
  apply wrap32_small. unfold dims_fit in Hf. rewrite Forall_forall in Hf. specialize (Hf n Hn). lia.
Qed.

Lemma wrap32_dims s : dims_fit s -> map wrap32 (zdims s) = zdims s.
Proof.
  intros H. unfold zdims. rewrite map_map. apply map_ext_in. intros n Hn.
  apply wrap32_small. unfold dims_fit in H. rewrite Forall_forall in H. specialize (H n Hn). lia.
Qed.

Lemma nat_dims_zdims s : nat_dims (zdims s) = Some s.
Proof.
  unfold nat_dims, zdims. replace (forallb _ _) with true.
  - rewrite map_map. f_equal. rewrite <- (map_id s) at 2. apply map_ext. apply Nat2Z.id.
  - symmetry. apply forallb_forall. intros z Hz. apply in_map_iff in Hz as (n & <- & _). apply Z.leb_le. lia.
Qed.

Lemma prod_zdims s : fold_right Z.mul 1%Z (zdims s) = Z.of_nat (prod s).
Proof. induction s as [|n s IH]; cbn [zdims map fold_right prod]; [reflexivity|]. unfold zdims, prod in *. rewrite IH. lia. Qed.

(** ** Index arithmetic *)

Lemma indices_length s : length (indices s) = prod s.
Proof.
  induction s as [|n s IH]; [reflexivity|]. cbn [indices prod fold_right].
  assert (G : forall l, length (flat_map (fun i : nat => map (cons i) (indices s)) l) = length l * prod s).
  { induction l as [|a l IHl]; cbn [flat_map length]; [reflexivity|].
    rewrite app_length, map_length, IH, IHl. lia. }
  rewrite G, seq_length. reflexivity.
Qed.

Lemma indices_in s ix : In ix (indices s) <-> valid s ix.
Proof.
  revert ix. induction s as [|n s IH]; intros ix; cbn [indices]; unfold valid in *.
  - split; [intros [<-|[]]; constructor|]. intros H. inversion H. now left.
  - rewrite in_flat_map. split.
    + intros (i & Hi & H). apply in_map_iff in H as (ix' & <- & H). apply in_seq in Hi.
      constructor; [lia|]. now apply IH.
    + intros H. inversion H as [|i n' ix' s' Hi H']; subst. exists i. split; [apply in_seq; lia|].
      apply in_map_iff. exists ix'. split; [reflexivity|]. now apply IH.
Qed.

Lemma ravel_lt s ix : valid s ix -> ravel s ix < prod s.
Proof.
  intros H. induction H as [|i n ix s Hi H IH]; cbn [ravel prod fold_right]; [lia|].
  unfold prod in *. nia.
Qed.

Lemma nth_error_flat_map_const {A} (f : nat -> list A) m a k i r :
  (forall x, length (f x) = k) -> i < m -> r < k ->
  nth_error (flat_map f (seq a m)) (i * k + r) = nth_error (f (a + i)) r.
Proof.
  intros Hf. revert a i. induction m as [|m IH]; intros a i Hi Hr; [lia|].
  cbn [seq flat_map]. destruct i as [|i].
  - cbn [Nat.mul Nat.add]. rewrite nth_error_app1 by (rewrite Hf; exact Hr).
    now rewrite Nat.add_0_r.
  - rewrite nth_error_app2 by (rewrite Hf; lia). rewrite Hf.
    replace (S i * k + r - k) with (i * k + r) by lia.
    rewrite IH by lia. f_equal. f_equal. lia.
Qed.

Lemma nth_indices s ix : valid s ix -> nth_error (indices s) (ravel s ix) = Some ix.
Proof.
  intros H. induction H as [|i n ix s Hi H IH]; [reflexivity|].
  cbn [indices ravel].
  rewrite nth_error_flat_map_const with (k := prod s).
  - cbn [Nat.add]. rewrite nth_error_map, IH. reflexivity.
  - intros x. now rewrite map_length, indices_length.
  - exact Hi.
  - now apply ravel_lt.
Qed.

Lemma valid_rev s ix : valid s ix -> valid (rev s) (rev ix).
Proof.
  unfold valid. induction 1 as [|i n ix s Hi H IH]; cbn [rev]; [constructor|].
  apply Forall2_app; [exact IH|]. constructor; [exact Hi|constructor].
Qed.

Lemma prod_app s t : prod (s ++ t) = prod s * prod t.
Proof. induction s as [|n s IH]; cbn [prod fold_right app]; [unfold prod; lia|]. unfold prod in *. rewrite IH. lia. Qed.

Lemma prod_rev s : prod (rev s) = prod s.
Proof.
  induction s as [|n s IH]; [reflexivity|]. cbn [rev]. rewrite prod_app, IH.
  cbn [prod fold_right]. unfold prod. lia.
Qed.

Lemma flatten_length {V} o (a : array V) : length (flatten o a) = prod (shape a).
Proof.
  destruct o; cbn [flatten]; rewrite map_length, indices_length; [reflexivity|].
  cbn [transpose shape]. apply prod_rev.
Qed.

Lemma flatten_F {V} (a : array V) : flatten OC (transpose a) = flatten OF a.
Proof. reflexivity. Qed.

Lemma in_flatten {V} o (a : array V) v : In v (flatten o a) -> exists ix, valid (shape a) ix /\ v = get a ix.
Proof.
  destruct o; cbn [flatten]; intros H; apply in_map_iff in H as (ix & <- & H); apply indices_in in H.
  - eauto.
  - exists (rev ix). split; [|reflexivity].
    cbn [transpose shape] in H. rewrite <- (rev_involutive (shape a)). now apply valid_rev.
Qed.

(** reshape undoes flatten, elementwise through any map. *)
Lemma reshape_flatten {V W} (g : V -> W) d o (a : array V) :
  exists b, reshape d o (shape a) (map g (flatten o a)) = Some b /\ shape b = shape a /\
    forall ix, valid (shape a) ix -> get b ix = g (get a ix).
Proof.
  unfold reshape. rewrite map_length, flatten_length, Nat.eqb_refl.
  eexists. split; [reflexivity|]. destruct o; cbn [shape get flatten]; (split; [reflexivity|]); intros ix H.
  - apply nth_error_nth. rewrite map_map, nth_error_map, (nth_indices _ _ H). reflexivity.
  - apply nth_error_nth. cbn [transpose shape get].
    rewrite map_map, nth_error_map, (nth_indices _ _ (valid_rev _ _ H)).
    cbn [option_map]. now rewrite rev_involutive.
Qed.

(** ** Float payloads *)

Lemma payload_items {V} (c : codec V) (a : array V) o :
  (forall ix, valid (shape a) ix -> length (enc c (get a ix)) = width c) ->
  Forall (fun i => length i = width c) (map (enc c) (flatten o a)).
Proof.
  intros H. apply Forall_forall. intros i Hi. apply in_map_iff in Hi as (v & <- & Hv).
  apply in_flatten in Hv as (ix & Hix & ->). now apply H.
Qed.

Lemma read_floats_all {V} (c : codec V) a o k :
  0 < width c -> (k < 0)%Z ->
  (forall ix, valid (shape a) ix -> length (enc c (get a ix)) = width c) ->
  read_floats c k (tofile c (flatten o a)) = map (fun v => dec c (enc c v)) (flatten o a).
Proof.
  intros Hw Hk H. unfold read_floats, tofile. rewrite fromfile_neg by (try apply payload_items; assumption).
  cbn [fst]. now rewrite map_map.
Qed.

Lemma read_floats_count {V} (c : codec V) a o :
  (forall ix, valid (shape a) ix -> length (enc c (get a ix)) = width c) ->
  read_floats c (Z.of_nat (prod (shape a))) (tofile c (flatten o a))
  = map (fun v => dec c (enc c v)) (flatten o a).
Proof.
  intros H. unfold read_floats, tofile. rewrite <- (flatten_length o a), <- (map_length (enc c)).
  rewrite <- (app_nil_r (concat (map (enc c) (flatten o a)))).
  rewrite fromfile_count by (apply payload_items; exact H).
  cbn [fst]. now rewrite map_map.
Qed.

Lemma reshape_codec {V} (c : codec V) o (a : array V) :
  all_representable c a ->
  exists b, reshape (dflt c) o (shape a) (map (fun v => dec c (enc c v)) (flatten o a)) = Some b
    /\ same_array b a.
Proof.
  intros H. destruct (reshape_flatten (fun v => dec c (enc c v)) (dflt c) o a) as (b & E & Hs & Hg).
  exists b. split; [exact E|]. split; [exact Hs|]. rewrite Hs. intros ix Hix. rewrite Hg by exact Hix.
  apply (H ix Hix).
Qed.

Lemma rep_len {V} (c : codec V) a : all_representable c a ->
  forall ix, valid (shape a) ix -> length (enc c (get a ix)) = width c.
Proof. intros H ix Hix. apply (H ix Hix). Qed.

(** ** cbin *)

Lemma cbin_round_trip {V} (c : codec V) o (a : array V) :
  length (shape a) <= 3 -> dims_fit (shape a) -> all_representable c a ->
  exists b, read_cbin c o (length (shape a)) false (save_cbin c o a) = Some b /\ same_array b a.
Proof.
  intros Hd Hf Hr. unfold read_cbin, save_cbin.
  assert (EL : length (shape a) = length (zdims (shape a))) by (unfold zdims; now rewrite map_length).
  rewrite EL, read_ints_header, wrap32_dims by exact Hf.
  rewrite firstn_all2 by lia. rewrite prod_zdims.
  rewrite read_floats_count by (now apply rep_len).
  unfold reshapeZ. rewrite nat_dims_zdims. now apply reshape_codec.
Qed.

(** ** raw *)

Lemma filter_all {A} (p : A -> bool) l : (forall x, In x l -> p x = true) -> filter p l = l.
Proof.
  induction l as [|a l IH]; intros H; [reflexivity|]. cbn [filter].
  rewrite (H a (or_introl eq_refl)). f_equal. apply IH. intros x Hx. apply H. now right.
Qed.
Lemma filter_none {A} (p : A -> bool) l : (forall x, In x l -> p x = false) -> filter p l = [].
Proof.
  induction l as [|a l IH]; intros H; [reflexivity|]. cbn [filter].
  rewrite (H a (or_introl eq_refl)). apply IH. intros x Hx. apply H. now right.
Qed.

Lemma cube_mono x y : x <= y -> x * x * x <= y * y * y.
Proof. intros H. apply Nat.mul_le_mono; [apply Nat.mul_le_mono|]; lia. Qed.

(** The nearest integer to the cube root. *)
Lemma round_cbrt_spec len n :
  round_cbrt len = n <->
  (n = 0 \/ (2 * n - 1) * (2 * n - 1) * (2 * n - 1) <= 8 * len)
  /\ 8 * len < (2 * n + 1) * (2 * n + 1) * (2 * n + 1).
Proof.
  set (P := fun k => (2 * k - 1) * (2 * k - 1) * (2 * k - 1) <=? 8 * len).
  assert (Main : forall n,
     (n = 0 \/ (2 * n - 1) * (2 * n - 1) * (2 * n - 1) <= 8 * len) ->
     8 * len < (2 * n + 1) * (2 * n + 1) * (2 * n + 1) -> round_cbrt len = n).
  { clear n. intros n H1 H2. unfold round_cbrt. fold P.
    assert (Hn : n <= len).
    { destruct H1 as [->|H1]; [lia|]. destruct n as [|n]; [lia|].
      replace (2 * S n - 1) with (2 * n + 1) in H1 by lia.
      destruct (Nat.le_gt_cases (S n) len) as [|L]; [assumption|exfalso].
      assert (len <= n) by lia. assert (8 * n < (2*n+1)*(2*n+1)*(2*n+1)) by nia. lia. }
    replace len with (n + (len - n)) at 1 by lia. rewrite seq_app, filter_app, app_length.
    rewrite filter_all, filter_none.
    - rewrite seq_length. simpl. lia.
    - intros k Hk. apply in_seq in Hk. apply Nat.leb_gt.
      apply Nat.lt_le_trans with (1 := H2). apply cube_mono. lia.
    - intros k Hk. apply in_seq in Hk. apply Nat.leb_le. destruct H1 as [->|H1]; [lia|].
      apply Nat.le_trans with (2 := H1). apply cube_mono. lia. }
  split.
  - intros <-.
    assert (E : exists n, (n = 0 \/ (2 * n - 1) * (2 * n - 1) * (2 * n - 1) <= 8 * len)
               /\ 8 * len < (2 * n + 1) * (2 * n + 1) * (2 * n + 1)).
    { clear. induction len as [|len (n & H1 & H2)].
      - exists 0. split; [now left|]. simpl. lia.
      - destruct (Nat.lt_ge_cases (8 * S len) ((2 * n + 1) * (2 * n + 1) * (2 * n + 1))) as [L|L].
        + exists n. split; [|exact L]. destruct H1 as [->|H1]; [now left|right; lia].
        + exists (S n). split; [right; replace (2 * S n - 1) with (2 * n + 1) by lia; exact L|].
          replace (2 * S n + 1) with (2 * n + 3) by lia.
          apply Nat.lt_le_trans with ((2*n+1)*(2*n+1)*(2*n+1) + 8); [lia|]. nia. }
    destruct E as (m & E1 & E2). rewrite (Main m E1 E2). now split.
  - intros [H1 H2]. now apply Main.
Qed.

Lemma round_cbrt_cube n : round_cbrt (n * n * n) = n.
Proof.
  apply round_cbrt_spec. split.
  - destruct n as [|n]; [now left|right]. replace (2 * S n - 1) with (2 * n + 1) by lia. nia.
  - nia.
Qed.

Lemma raw_reads {V} (c : codec V) o (a : array V) :
  0 < width c -> (forall ix, valid (shape a) ix -> length (enc c (get a ix)) = width c) ->
  read_raw_binary c o (save_raw_binary c o a)
  = let n := round_cbrt (prod (shape a)) in
    reshape (dflt c) o [n; n; n] (map (fun v => dec c (enc c v)) (flatten o a)).
Proof.
  intros Hw Hl. unfold read_raw_binary, save_raw_binary.
  rewrite read_floats_all by (assumption || lia).
  now rewrite map_length, flatten_length.
Qed.

(** ** Density, clumping *)

Lemma density_round_trip {V} (c : codec V) (a : array V) bs :
  0 < width c -> dims_fit (shape a) -> all_representable c a ->
  write_density c (Some a) None false = Some bs ->
  exists b, read_density c false bs = Some b /\ same_array b a.
Proof.
  intros Hw Hf Hr. unfold write_density.
  destruct (Nat.eqb_spec (length (shape a)) 3) as [E3|]; [|discriminate].
  intros E. assert (Ebs := f_equal (fun o => match o with Some l => l | None => [] end) E).
  cbn beta iota in Ebs. rewrite <- Ebs. clear E Ebs.
  unfold read_density.
  rewrite read_dims by assumption.
  replace (length (zdims (shape a))) with 3 by (unfold zdims; now rewrite map_length).
  rewrite Nat.eqb_refl, flatten_F. rewrite read_floats_all; [|assumption|lia|now apply rep_len].
  unfold reshapeZ. rewrite nat_dims_zdims. now apply reshape_codec.
Qed.

(** ** xfrac *)

Lemma read_xfrac_header {V} (bin : bool) zs (rest : list byte) (k : list Z -> list byte -> V) :
  length zs = 3 ->
  (let '(m, r) := read_ints (if bin then 3 else 6)
        (concat (map int32_bytes (if bin then zs else [0%Z] ++ zs ++ [0; 0]%Z)) ++ rest) in
   k (if bin then m else firstn 3 (skipn 1 m)) r)
  = k (map wrap32 zs) rest.
Proof.
  intros H. destruct zs as [|a [|b [|d [|e zs]]]]; try discriminate. destruct bin; cbn [app].
  - change 3 with (length [a; b; d]). now rewrite read_ints_header.
  - change 6 with (length [0; a; b; d; 0; 0]%Z) at 1. now rewrite read_ints_header.
Qed.

Definition complement (n : bool) (a : array Q) : array Q :=
  if n then {| shape := shape a; get := fun ix => (1 - get a ix)%Q |} else a.

Lemma complement_shape n a : shape (complement n a) = shape a.
Proof. now destruct n. Qed.

Lemma xfrac_round_trip c32 c64 (old ntr ntr' bin : bool) xi bs :
  let c := if old then c32 else c64 in
  0 < width c -> length (shape xi) = 3 -> dims_fit (shape xi) ->
  (forall ix, valid (shape xi) ix ->
     representableQ c (if ntr then (1 - get xi ix)%Q else get xi ix)) ->
  write_xfrac c32 c64 old ntr bin xi = Some bs ->
  exists b, read_xfrac c32 c64 old ntr' bin bs = Some b /\
    same_arrayQ b (if Bool.eqb ntr ntr' then xi
                   else {| shape := shape xi; get := fun ix => (1 - get xi ix)%Q |}).
Proof.
  intros c Hw H3 Hf Hr E. unfold write_xfrac in E. fold c in E.
  fold (complement ntr xi) in E.
  assert (Em : match shape xi with [] => Some [0; 0; 0]%Z | [_; _; _] => Some (zdims (shape xi)) | _ => None end
     = Some (zdims (shape xi))).
  { destruct (shape xi) as [|? [|? [|? [|? ?]]]]; try discriminate; reflexivity. }
  rewrite Em in E.
  assert (Ebs := f_equal (fun o => match o with Some l => l | None => [] end) E).
  cbn beta iota in Ebs. rewrite <- Ebs. clear E Ebs Em.
  unfold read_xfrac. fold c.
  rewrite (read_xfrac_header bin (zdims (shape xi)) _ (fun mesh r =>
    if length mesh =? 3 then
      match reshapeZ (dflt c) OF mesh (read_floats c (-1) r) with
      | Some a => Some (if ntr' then {| shape := shape a; get := fun ix => (1 - get a ix)%Q |} else a)
      | None => None
      end else None)) by (unfold zdims; now rewrite map_length).
  rewrite wrap32_dims by exact Hf.
  replace (length (zdims (shape xi)) =? 3) with true
    by (symmetry; apply Nat.eqb_eq; unfold zdims; now rewrite map_length).
  rewrite flatten_F.
  set (a := complement ntr xi).
  assert (Sa : shape a = shape xi) by apply complement_shape.
  assert (Ga : forall ix, valid (shape a) ix -> representableQ c (get a ix)).
  { rewrite Sa. intros ix Hix. specialize (Hr ix Hix). unfold a, complement. destruct ntr; exact Hr. }
  rewrite read_floats_all; [|assumption|lia|intros ix Hix; apply (Ga ix Hix)].
  unfold reshapeZ. rewrite nat_dims_zdims, <- Sa.
  destruct (reshape_flatten (fun v => dec c (enc c v)) (dflt c) OF a) as (b & Eb & Sb & Gb).
  rewrite Eb. fold (complement ntr' b). eexists. split; [reflexivity|]. unfold same_arrayQ.
  rewrite complement_shape, Sb, Sa. split; [destruct (Bool.eqb ntr ntr'); reflexivity|].
  rewrite <- Sa. intros ix Hix. specialize (Gb ix Hix). destruct (Ga ix Hix) as [_ Hq].
  unfold complement. rewrite Sa in Hix.
  destruct ntr, ntr'; cbn [Bool.eqb get]; rewrite Gb, Hq; unfold a, complement; cbn [get]; ring.
Qed.

(** Mixing up the two float sizes is always detected. *)
Lemma take_items_len w n bs : 0 < w -> n * w <= length bs ->
  length (fst (take_items w n bs)) = n.
Proof.
  intros Hw. revert bs. induction n as [|n IH]; intros bs H; cbn [take_items]; [reflexivity|].
  destruct (Nat.ltb_spec (length bs) w); [lia|].
  specialize (IH (skipn w bs)). destruct (take_items w n (skipn w bs)) as [is r]. cbn [fst length] in *.
  rewrite IH; [reflexivity|]. rewrite skipn_length. lia.
Qed.

Lemma fromfile_all_len w bs k : 0 < w -> (k < 0)%Z -> length (fst (fromfile w k bs)) = length bs / w.
Proof.
  intros Hw Hk. unfold fromfile. replace (k <? 0)%Z with true by (symmetry; apply Z.ltb_lt; lia).
  apply take_items_len; [exact Hw|]. pose proof (Nat.div_mod (length bs) w ltac:(lia)). lia.
Qed.

Lemma xfrac_size_mismatch c32 c64 (old ntr ntr' bin : bool) xi bs :
  width c32 = 4 -> width c64 = 8 -> length (shape xi) = 3 -> dims_fit (shape xi) -> 0 < prod (shape xi) ->
  (forall v, length (enc (if old then c32 else c64) v) = width (if old then c32 else c64)) ->
  write_xfrac c32 c64 old ntr bin xi = Some bs ->
  read_xfrac c32 c64 (negb old) ntr' bin bs = None.
Proof.
  intros W4 W8 H3 Hf Hp Hl E. unfold write_xfrac in E. fold (complement ntr xi) in E.
  set (c := if old then c32 else c64) in *.
  assert (Em : match shape xi with [] => Some [0; 0; 0]%Z | [_; _; _] => Some (zdims (shape xi)) | _ => None end
     = Some (zdims (shape xi))).
  { destruct (shape xi) as [|? [|? [|? [|? ?]]]]; try discriminate; reflexivity. }
  rewrite Em in E.
  assert (Ebs := f_equal (fun o => match o with Some l => l | None => [] end) E).
  cbn beta iota in Ebs. rewrite <- Ebs. clear E Ebs Em.
  unfold read_xfrac. set (c' := if negb old then c32 else c64).
  rewrite (read_xfrac_header bin (zdims (shape xi)) _ (fun mesh r =>
    if length mesh =? 3 then
      match reshapeZ (dflt c') OF mesh (read_floats c' (-1) r) with
      | Some a => Some (if ntr' then {| shape := shape a; get := fun ix => (1 - get a ix)%Q |} else a)
      | None => None
      end else None)) by (unfold zdims; now rewrite map_length).
  rewrite wrap32_dims by exact Hf.
  replace (length (zdims (shape xi)) =? 3) with true
    by (symmetry; apply Nat.eqb_eq; unfold zdims; now rewrite map_length).
  unfold reshapeZ, reshape. rewrite nat_dims_zdims.
  unfold read_floats at 1. rewrite map_length, fromfile_all_len; [|unfold c'; destruct old; simpl; lia|lia].
  unfold tofile. rewrite (concat_length_const (width c)).
  2:{ apply Forall_forall. intros i Hi. apply in_map_iff in Hi as (v & <- & _). apply Hl. }
  rewrite map_length, flatten_F, flatten_length, complement_shape.
  assert (NE : prod (shape xi) * width c / width c' <> prod (shape xi)).
  { unfold c, c'. destruct old; cbn [negb]; rewrite W4, W8.
    - intros EQ. pose proof (Nat.div_mod (prod (shape xi) * 4) 8 ltac:(lia)) as D.
      rewrite EQ in D. lia.
    - replace (prod (shape xi) * 8) with (prod (shape xi) * 2 * 4) by lia.
      rewrite Nat.div_mul by lia. lia. }
  apply Nat.eqb_neq in NE. now rewrite NE.
Qed.

(** ** Velocity *)

Lemma velocity_round_trip {V} (c : codec V) mesh (a : array V) s :
  0 < width c -> shape a = 3 :: s -> length s = 3 -> dims_fit s -> all_representable c a ->
  exists b, read_velocity c (write_velocity c mesh a) = Some b /\ same_array b a.
Proof.
  intros Hw Hs H3 Hf Hr. unfold write_velocity. rewrite Hs, H3, Nat.eqb_refl.
  unfold read_velocity.
  rewrite read_dims by assumption.
  replace (length (zdims s)) with 3 by (unfold zdims; now rewrite map_length).
  rewrite Nat.eqb_refl. rewrite read_floats_all; [|assumption|lia|now apply rep_len].
  unfold reshapeZ. change (3%Z :: zdims s) with (zdims (3 :: s)). rewrite nat_dims_zdims, <- Hs.
  now apply reshape_codec.
Qed.

(** ** Temperature / rate files *)

(** Bytes of a well-formed record file: marker, mesh, two markers, then data in
    Fortran order (what C2-Ray writes and [XfracFile.write_to_file] imitates). *)
Definition record_file {V} (c : codec V) (m1 m2 m3 : Z) (a : array V) : list byte :=
  concat (map int32_bytes ([m1] ++ zdims (shape a) ++ [m2; m3])) ++ tofile c (flatten OF a).

Lemma temper_reads {V} (c : codec V) m1 m2 m3 (a : array V) :
  length (shape a) = 3 -> dims_fit (shape a) ->
  read_temper c false false (record_file c m1 m2 m3 a)
  = reshape (dflt c) OF (shape a)
      (read_floats c (wrap32 (Z.of_nat (prod (shape a)))) (tofile c (flatten OF a))).
Proof.
  intros H3 Hf. unfold read_temper, record_file.
  pose proof (wrap32_dims _ Hf) as WD.
  destruct (shape a) as [|x [|y [|z [|w s]]]] eqn:Es; try discriminate.
  cbn [zdims map app] in *.
  change 6 with (length [m1; Z.of_nat x; Z.of_nat y; Z.of_nat z; m2; m3]) at 1.
  rewrite read_ints_header. cbn [map skipn firstn].
  injection WD as -> -> ->.
  unfold reshapeZ. change [Z.of_nat x; Z.of_nat y; Z.of_nat z] with (zdims [x; y; z]).
  rewrite nat_dims_zdims. do 2 f_equal.
  unfold prod; cbn [fold_right].
  assert (W : forall p q, wrap32 (wrap32 p * q) = wrap32 (p * q)).
  { intros p q. unfold wrap32 at 1 3.
    replace ((wrap32 p * q) mod 2 ^ 32)%Z with ((p * q) mod 2 ^ 32)%Z; [reflexivity|].
    rewrite (Z.mul_mod (wrap32 p)), (Z.mul_mod p) by lia. f_equal. f_equal.
    unfold wrap32. destruct (Z.ltb_spec (p mod 2 ^ 32) (2 ^ 31)).
    - now rewrite Z.mod_mod by lia.
    - rewrite <- (Z.mod_add (p mod 2 ^ 32 - 2 ^ 32) 1) by lia.
      replace (p mod 2 ^ 32 - 2 ^ 32 + 1 * 2 ^ 32)%Z with (p mod 2 ^ 32)%Z by lia.
      now rewrite Z.mod_mod by lia. }
  rewrite W. f_equal. lia.
Qed.

Lemma take_items_prefix_len w n items :
  Forall (fun i => length i = w) items -> n <= length items ->
  length (fst (take_items w n (concat items))) = n.
Proof.
  intros H Hn. rewrite <- (app_nil_r (concat items)), take_items_short by assumption.
  cbn [fst]. rewrite firstn_length. lia.
Qed.

Lemma temper_iff {V} (c : codec V) m1 m2 m3 (a : array V) :
  0 < width c -> length (shape a) = 3 -> dims_fit (shape a) -> all_representable c a ->
  ((exists b, read_temper c false false (record_file c m1 m2 m3 a) = Some b /\ same_array b a)
   <-> (Z.of_nat (prod (shape a)) mod 2 ^ 32 >= 2 ^ 31 \/ Z.of_nat (prod (shape a)) < 2 ^ 32)%Z)
  /\ ((exists b, read_temper c false false (record_file c m1 m2 m3 a) = Some b) ->
      (Z.of_nat (prod (shape a)) mod 2 ^ 32 >= 2 ^ 31 \/ Z.of_nat (prod (shape a)) < 2 ^ 32)%Z).
Proof.
  intros Hw H3 Hf Hr. rewrite temper_reads by assumption.
  set (P := prod (shape a)) in *.
  pose proof (Z.mod_pos_bound (Z.of_nat P) (2 ^ 32) ltac:(lia)) as MB.
  assert (HL := rep_len c a Hr).
  assert (Good : (Z.of_nat P mod 2 ^ 32 >= 2 ^ 31 \/ Z.of_nat P < 2 ^ 32)%Z ->
    read_floats c (wrap32 (Z.of_nat P)) (tofile c (flatten OF a)) = map (fun v => dec c (enc c v)) (flatten OF a)).
  { intros H. destruct (Z_lt_dec (wrap32 (Z.of_nat P)) 0) as [N|N].
    - now apply read_floats_all.
    - assert (E : wrap32 (Z.of_nat P) = Z.of_nat P).
      { unfold wrap32 in *. destruct (Z.ltb_spec (Z.of_nat P mod 2 ^ 32) (2 ^ 31)) as [L|L]; [|lia].
        destruct H as [H|H]; [lia|]. apply Z.mod_small. lia. }
      rewrite E. now apply read_floats_count. }
  assert (Bad : (exists b, reshape (dflt c) OF (shape a)
        (read_floats c (wrap32 (Z.of_nat P)) (tofile c (flatten OF a))) = Some b) ->
     (Z.of_nat P mod 2 ^ 32 >= 2 ^ 31 \/ Z.of_nat P < 2 ^ 32)%Z).
  { intros [b Hb]. unfold reshape in Hb.
    destruct (Nat.eqb_spec (length (read_floats c (wrap32 (Z.of_nat P)) (tofile c (flatten OF a)))) (prod (shape a))) as [E|]; [|discriminate].
    fold P in E. destruct (Z_lt_dec (Z.of_nat P mod 2 ^ 32) (2 ^ 31)) as [L|L]; [right|left; lia].
    unfold wrap32 in E. replace (Z.of_nat P mod 2 ^ 32 <? 2 ^ 31)%Z with true in E by (symmetry; apply Z.ltb_lt; lia).
    unfold read_floats, fromfile in E. rewrite map_length in E.
    replace (Z.of_nat P mod 2 ^ 32 <? 0)%Z with false in E by (symmetry; apply Z.ltb_ge; lia).
    unfold tofile in E. rewrite take_items_prefix_len in E.
    - lia.
    - now apply payload_items.
    - rewrite map_length, flatten_length. fold P. 
      pose proof (Z.mod_le (Z.of_nat P) (2 ^ 32) ltac:(lia) ltac:(lia)). lia. }
  split; [split|exact Bad].
  - intros (b & Hb & _). apply Bad. eauto.
  - intros H. rewrite (Good H). now apply reshape_codec.
Qed.
