(** Finite sums over lists of reals, shared by several models. *)
From Coq Require Import List Arith Reals Lra Lia Bool Sorting.Permutation Logic.FinFun.
Import ListNotations.
Local Open Scope R_scope.

Definition rsum (l : list R) : R := fold_right Rplus 0 l.

Lemma rsum_app : forall a b, rsum (a ++ b) = rsum a + rsum b.
Proof. induction a; intro b; simpl; [|rewrite IHa]; lra. Qed.
Lemma rsum_ext : forall {A} (f g : A -> R) l,
  (forall x, In x l -> f x = g x) -> rsum (map f l) = rsum (map g l).
Proof. intros. f_equal. apply map_ext_in. auto. Qed.
Lemma rsum_plus : forall {A} (f g : A -> R) l,
  rsum (map (fun x => f x + g x) l) = rsum (map f l) + rsum (map g l).
Proof. induction l; simpl; [|rewrite IHl]; lra. Qed.
Lemma rsum_minus : forall {A} (f g : A -> R) l,
  rsum (map (fun x => f x - g x) l) = rsum (map f l) - rsum (map g l).
Proof. induction l; simpl; [|rewrite IHl]; lra. Qed.
Lemma rsum_scale : forall {A} (f : A -> R) c l,
  rsum (map (fun x => c * f x) l) = c * rsum (map f l).
Proof. induction l; simpl; [|rewrite IHl]; ring. Qed.
Lemma rsum_scale_r : forall {A} (f : A -> R) c l,
  rsum (map (fun x => f x * c) l) = rsum (map f l) * c.
Proof. induction l; simpl; [|rewrite IHl]; ring. Qed.
Lemma rsum_const : forall {A} c (l : list A),
  rsum (map (fun _ => c) l) = INR (length l) * c.
Proof. induction l; [simpl; ring|]. cbn [map rsum fold_right length]. rewrite S_INR. fold (rsum (map (fun _ : A => c) l)). rewrite IHl. ring. Qed.
Lemma rsum_zero : forall {A} (f : A -> R) l, (forall x, In x l -> f x = 0) -> rsum (map f l) = 0.
Proof.
  intros A f l H. rewrite (rsum_ext f (fun _ => 0)) by exact H. rewrite rsum_const. ring.
Qed.
Lemma rsum_nonneg : forall l, (forall x, In x l -> 0 <= x) -> 0 <= rsum l.
Proof.
  induction l; simpl; intro H; [lra|].
  assert (0 <= a) by auto. assert (0 <= rsum l) by auto. lra.
Qed.
Lemma rsum_le : forall {A} (f g : A -> R) l,
  (forall x, In x l -> f x <= g x) -> rsum (map f l) <= rsum (map g l).
Proof.
  induction l; simpl; intro H; [lra|].
  assert (f a <= g a) by auto. assert (rsum (map f l) <= rsum (map g l)) by auto. lra.
Qed.
Lemma rsum_swap : forall {A B} (f : A -> B -> R) la lb,
  rsum (map (fun a => rsum (map (f a) lb)) la)
  = rsum (map (fun b => rsum (map (fun a => f a b) la)) lb).
Proof.
  induction la; intro lb; simpl.
  - rewrite rsum_const. ring.
  - rewrite IHla, <- rsum_plus. reflexivity.
Qed.
Lemma rsum_perm : forall l l', Permutation l l' -> rsum l = rsum l'.
Proof. induction 1; simpl; try lra. Qed.
Lemma rsum_flat_map : forall {A} (f : A -> list R) l,
  rsum (flat_map f l) = rsum (map (fun a => rsum (f a)) l).
Proof. induction l; simpl; [reflexivity|]. rewrite rsum_app, IHl. reflexivity. Qed.
Lemma rsum_filter : forall {A} (w : A -> R) (f : A -> bool) l,
  rsum (map w (filter f l)) = rsum (map (fun x => if f x then w x else 0) l).
Proof. induction l; simpl; [lra|]. destruct (f a); simpl; lra. Qed.
Lemma rsum_delta : forall {A} (eqb : A -> A -> bool) (w : A -> R) l a,
  (forall x y, eqb x y = true <-> x = y) -> NoDup l -> In a l ->
  rsum (map (fun b => if eqb a b then w b else 0) l) = w a.
Proof.
  intros A eqb w l a E. induction l as [|b l IH]; intros ND H; [destruct H|].
  inversion ND as [|? ? Hb Hl]; subst. cbn [map rsum fold_right].
  fold (rsum (map (fun b => if eqb a b then w b else 0) l)).
  destruct (eqb a b) eqn:Eab.
  - apply E in Eab. subst b. rewrite (rsum_zero _ l); [lra|].
    intros x Hx. destruct (eqb a x) eqn:Ex; auto. apply E in Ex. subst x. contradiction.
  - destruct H as [H|H]; [subst b; rewrite (proj2 (E a a) eq_refl) in Eab; discriminate|].
    rewrite IH by auto. lra.
Qed.
