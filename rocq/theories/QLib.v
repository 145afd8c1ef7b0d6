(** Sums, order tests and counting over lists of rationals, shared by several models. *)
From Coq Require Import List Arith ZArith QArith Qabs Bool Lia Lqa.
Import ListNotations.
Local Open Scope nat_scope.

Definition Qltb (a b : Q) : bool := negb (Qle_bool b a).

Lemma Qltb_true : forall a b, Qltb a b = true <-> (a < b)%Q.
Proof.
  intros a b. unfold Qltb. rewrite negb_true_iff. split; intro H.
  - apply Qnot_le_lt. intro C. apply Qle_bool_iff in C. congruence.
  - destruct (Qle_bool b a) eqn:E; auto. apply Qle_bool_iff in E. lra.
Qed.
Lemma Qltb_false : forall a b, Qltb a b = false <-> (b <= a)%Q.
Proof.
  intros a b. unfold Qltb. rewrite negb_false_iff. apply Qle_bool_iff.
Qed.
Lemma Qle_bool_false : forall a b, Qle_bool a b = false <-> (b < a)%Q.
Proof.
  intros a b. rewrite <- Qltb_true. unfold Qltb. rewrite negb_true_iff. reflexivity.
Qed.

Definition qsum (l : list Q) : Q := fold_right Qplus 0%Q l.

Lemma qsum_app : forall a b, (qsum (a ++ b) == qsum a + qsum b)%Q.
Proof. induction a; intro b; simpl; [|rewrite IHa]; lra. Qed.
Lemma qsum_ext : forall {A} (f g : A -> Q) l,
  (forall x, In x l -> (f x == g x)%Q) -> (qsum (map f l) == qsum (map g l))%Q.
Proof.
  induction l; simpl; intros H; [reflexivity|].
  rewrite (H a (or_introl eq_refl)), IHl; [reflexivity|]. intros; apply H; auto.
Qed.
Lemma qsum_plus : forall {A} (f g : A -> Q) l,
  (qsum (map (fun x => f x + g x) l) == qsum (map f l) + qsum (map g l))%Q.
Proof. induction l; simpl; [|rewrite IHl]; lra. Qed.
Lemma qsum_scale : forall {A} (f : A -> Q) c l,
  (qsum (map (fun x => c * f x) l) == c * qsum (map f l))%Q.
Proof. induction l; simpl; [|rewrite IHl]; ring. Qed.
Lemma qsum_const : forall {A} c (l : list A),
  (qsum (map (fun _ => c) l) == inject_Z (Z.of_nat (length l)) * c)%Q.
Proof.
  induction l; simpl length; [cbn; ring|]. rewrite Nat2Z.inj_succ. unfold Z.succ.
  rewrite inject_Z_plus. cbn [map qsum fold_right]. fold (qsum (map (fun _ : A => c) l)).
  rewrite IHl. cbn [inject_Z]. ring.
Qed.
Lemma qsum_nonneg : forall l, (forall x, In x l -> (0 <= x)%Q) -> (0 <= qsum l)%Q.
Proof.
  induction l; simpl; intro H; [lra|].
  assert (0 <= a)%Q by auto. assert (0 <= qsum l)%Q by auto. lra.
Qed.
Lemma qsum_swap : forall {A B} (f : A -> B -> Q) la lb,
  (qsum (map (fun a => qsum (map (f a) lb)) la)
   == qsum (map (fun b => qsum (map (fun a => f a b) la)) lb))%Q.
Proof.
  induction la; intro lb; simpl.
  - rewrite qsum_const. ring.
  - rewrite IHla, <- qsum_plus. reflexivity.
Qed.

(** Number of elements satisfying a test, as a rational (numpy counts are converted to
    float before they are used in arithmetic). *)
Definition qlen {A} (l : list A) : Q := inject_Z (Z.of_nat (length l)).
Lemma qlen_nil : forall {A}, qlen (@nil A) = 0%Q.
Proof. reflexivity. Qed.
Lemma qlen_cons : forall {A} (a : A) l, (qlen (a :: l) == 1 + qlen l)%Q.
Proof.
  intros. unfold qlen. simpl length. rewrite Nat2Z.inj_succ. unfold Z.succ.
  rewrite inject_Z_plus. ring.
Qed.
Lemma qlen_nonneg : forall {A} (l : list A), (0 <= qlen l)%Q.
Proof.
  intros A l. unfold qlen. change 0%Q with (inject_Z 0). rewrite <- Zle_Qle. lia.
Qed.
Lemma qlen_zero : forall {A} (l : list A), (qlen l == 0)%Q <-> l = [].
Proof.
  intros A [|a l]; split; intro H; try reflexivity; try discriminate.
Qed.

(** Sum of [w] over the members of [l] that satisfy [f]: splitting by a test. *)
Lemma qsum_filter_split : forall {A} (w : A -> Q) (f : A -> bool) l,
  (qsum (map w l) == qsum (map w (filter f l)) + qsum (map w (filter (fun x => negb (f x)) l)))%Q.
Proof.
  induction l; simpl; [lra|]. destruct (f a); simpl; lra.
Qed.
Lemma qsum_filter_ind : forall {A} (w : A -> Q) (f : A -> bool) l,
  (qsum (map w (filter f l)) == qsum (map (fun x => if f x then w x else 0) l))%Q.
Proof.
  induction l; simpl; [lra|]. destruct (f a); simpl; lra.
Qed.
