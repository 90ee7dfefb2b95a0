(* Rational numbers standing for double: comparisons as booleans, absolute value, and the
   two comparison helpers of include/l_compar.h.  Rounding, infinities and NaN are not
   modelled. *)
Require Import ZArith QArith Qabs Qround Lqa Lia Bool.
Local Open Scope Q_scope.

(* a < b, a <= b, a == b on double *)
Definition qltb (a b : Q) : bool := negb (Qle_bool b a).
Definition qleb (a b : Q) : bool := Qle_bool a b.
Definition qeqb (a b : Q) : bool := Qeq_bool a b.

(* up_order  include/l_compar.h:27-31 *)
Definition up_order (a b c : Q) : bool := qleb a b && qleb b c.
(* in_order  include/l_compar.h:34-38 *)
Definition in_order (a b c : Q) : bool := up_order a b c || up_order c b a.

Lemma qleb_spec : forall a b, Bool.reflect (a <= b) (qleb a b).
Proof.
  intros a b; unfold qleb; destruct (Qle_bool a b) eqn:E; constructor.
  - now apply Qle_bool_iff.
  - intro H; apply Qle_bool_iff in H; congruence.
Qed.

Lemma qltb_spec : forall a b, Bool.reflect (a < b) (qltb a b).
Proof.
  intros a b; unfold qltb; destruct (Qle_bool b a) eqn:E; constructor.
  - apply Qle_bool_iff in E; intro; lra.
  - destruct (Qlt_le_dec a b) as [|L]; auto. apply Qle_bool_iff in L; congruence.
Qed.

Lemma qeqb_spec : forall a b, Bool.reflect (a == b) (qeqb a b).
Proof.
  intros a b; unfold qeqb; destruct (Qeq_bool a b) eqn:E; constructor.
  - now apply Qeq_bool_iff.
  - intro H; apply Qeq_bool_iff in H; congruence.
Qed.

Lemma Qabs_lt : forall x y, Qabs x < y <-> - y < x /\ x < y.
Proof.
  intros x y; split.
  - intros H; pose proof (Qle_Qabs x); pose proof (Qle_Qabs (- x)) as H1; rewrite Qabs_opp in H1; lra.
  - intros [H1 H2]; destruct (Qlt_le_dec x 0).
    + rewrite Qabs_neg by lra; lra.
    + rewrite Qabs_pos by lra; lra.
Qed.

Lemma Qabs_le : forall x y, Qabs x <= y <-> - y <= x /\ x <= y.
Proof.
  intros x y; split.
  - intros H; pose proof (Qle_Qabs x); pose proof (Qle_Qabs (- x)) as H1; rewrite Qabs_opp in H1; lra.
  - intros [H1 H2]; destruct (Qlt_le_dec x 0).
    + rewrite Qabs_neg by lra; lra.
    + rewrite Qabs_pos by lra; lra.
Qed.

Lemma in_order_iff : forall a b c,
  in_order a b c = true <-> (a <= b /\ b <= c) \/ (c <= b /\ b <= a).
Proof.
  intros; unfold in_order, up_order.
  rewrite orb_true_iff, !andb_true_iff.
  destruct (qleb_spec a b), (qleb_spec b c), (qleb_spec c b), (qleb_spec b a);
    intuition congruence.
Qed.

Lemma up_order_iff : forall a b c, up_order a b c = true <-> a <= b /\ b <= c.
Proof.
  intros; unfold up_order. rewrite andb_true_iff.
  destruct (qleb_spec a b), (qleb_spec b c); intuition congruence.
Qed.

Ltac qcase :=
  match goal with
  | |- context [qleb ?a ?b] => destruct (qleb_spec a b)
  | |- context [qltb ?a ?b] => destruct (qltb_spec a b)
  | |- context [qeqb ?a ?b] => destruct (qeqb_spec a b)
  | H : context [qleb ?a ?b] |- _ => destruct (qleb_spec a b)
  | H : context [qltb ?a ?b] |- _ => destruct (qltb_spec a b)
  | H : context [qeqb ?a ?b] |- _ => destruct (qeqb_spec a b)
  end.
