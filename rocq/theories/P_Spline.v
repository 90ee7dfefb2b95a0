(* C64: the curve drawn through a table of points (fit, table). *)
Require Import ZArith QArith Qabs List Bool Lia Lqa Field SpecFloat.
Require Import ZifyBool.
Require Import Verif.Loops Verif.Qnum Verif.Spline_Model Verif.Spline_Proofs.
Import ListNotations.
Local Open Scope Q_scope.

(* a boundary slope was given.  Independent of r. *)
Definition given (d : Q) : Prop := ~ d == sNI (SQ 0).

Section C64.
Variable r : Q.       (* OPT::roundofftol *)
Notation N := (SQ r).
Notation shows := (shows r).

Variables (t : list (Q * Q)) (below above : Q) (order : Z) (s : spline N).
Hypothesis two : (2 <= length t)%nat.
Hypothesis ord : (0 <= order <= 3)%Z.
Hypothesis ok : fit N t below above order = Some (Done _ s).

Lemma fit_sorted : forall a b, next_to t a b -> fst a < fst b.
Proof.
  intros a b Hab. revert ok. unfold fit. intros K.
  destruct (in_turn N (sBB N) t) eqn:T; [|discriminate].
  pose proof (in_turn_next r t _ T a b Hab) as Hle.
  destruct (Qlt_le_dec (fst a) (fst b)) as [|Hge]; [assumption|exfalso].
  assert (e : fst b == fst a) by lra.
  destruct Hab as (l & l' & ->). destruct (next_at r l a b l') as (Hi & e1 & e2 & _).
  unfold construct in K. cbv zeta in K.
  change (@length (Spline_Model.T N * Spline_Model.T N)) with (@length (Q * Q)) in K.
  replace (Z.of_nat (length (l ++ a :: b :: l')) - 1 <? 0)%Z with false in K by lia.
  rewrite steps_dup in K; [discriminate|lia| |].
  - intros i Hi1. apply column_has. lia.
  - exists (Z.of_nat (length l)). split; [exact Hi|]. rewrite <- e1, <- e2 in e. exact e.
Qed.

Lemma fit_built : exists c1 c2 c3 lo, built r t below above order s c1 c2 c3 lo.
Proof.
  destruct (construct_ok r t below above order ltac:(lia) ord fit_sorted) as (H & _).
  apply H. revert ok. unfold fit. destruct (in_turn N (sBB N) t); [auto|discriminate].
Qed.

Section Use.
Variables (c1 c2 c3 : Z -> Q) (lo : Q).
Hypothesis B : built r t below above order s c1 c2 c3 lo.
Notation X := (val r (column N fst t)).
Notation Y := (val r (column N snd t)).
Notation n := (Z.of_nat (length t) - 1)%Z.

Lemma X_asc : forall i, (0 <= i < n)%Z -> X i < X (i + 1).
Proof.
  intros i Hi. destruct (next_index r t i Hi) as (a & b & Hn & e1 & e2 & _).
  rewrite e1, e2. now apply fit_sorted.
Qed.

Definition poly (i : Z) (u : Q) : Q := Y i + (u - X i) * (c1 i + (u - X i) * (c2 i + (u - X i) * c3 i)).
Definition dpoly (i : Z) (u : Q) : Q := c1 i + (u - X i) * (2 * c2 i + 3 * (u - X i) * c3 i).

(* on a closed interval between neighbours one cubic gives the value, and for order 2 and 3
   the slope at both ends *)
Lemma closed : forall i u, (1 <= order)%Z -> (0 <= i < n)%Z -> X i <= u -> u <= X (i + 1) ->
  exists d, shows s u (poly i u) d /\ ((order = 1%Z -> u < X (i + 1)) -> d == dpoly i u).
Proof.
  intros i u Ho Hi H1 H2.
  destruct (Qlt_le_dec u (X (i + 1))) as [L|G].
  - exists (dpoly i u). split; [|reflexivity]. apply (pc_at _ _ _ _ _ _ _ _ _ (b_pieces _ _ _ _ _ _ _ _ _ _ B)); auto; lia.
  - assert (e : u == X (i + 1)) by lra.
    assert (S : shows s u (Y (i + 1) + (u - X (i + 1)) * (c1 (i + 1)%Z + (u - X (i + 1)) * (c2 (i + 1)%Z + (u - X (i + 1)) * c3 (i + 1)%Z)))
       (c1 (i + 1)%Z + (u - X (i + 1)) * (2 * c2 (i + 1)%Z + 3 * (u - X (i + 1)) * c3 (i + 1)%Z))).
    { apply (pc_at _ _ _ _ _ _ _ _ _ (b_pieces _ _ _ _ _ _ _ _ _ _ B)); [lia|assumption|].
      intros L. pose proof (X_asc (i + 1) ltac:(lia)). lra. }
    exists (c1 (i + 1)%Z). split.
    + destruct S as (v & d & E & ev & ed). exists v, d. split; [assumption|]. split.
      * rewrite ev. unfold poly. rewrite (b_value _ _ _ _ _ _ _ _ _ _ B Ho i Hi). cbv zeta. rewrite e. ring.
      * rewrite ed, e. ring.
    + intros L. unfold dpoly. rewrite e.
      assert (order = 1 \/ 2 <= order)%Z as [O|O] by lia; [specialize (L O); lra|].
      apply (b_slope _ _ _ _ _ _ _ _ _ _ B O i Hi).
Qed.
End Use.
End C64.

Arguments closed {r t below above order s} two ok {c1 c2 c3 lo} B i u.

Lemma square_pos : forall x : Q, 0 <= x * x.
Proof.
  intros x. destruct (Qlt_le_dec x 0).
  - setoid_replace (x * x) with (- x * - x) by ring. apply Qmult_le_0_compat; lra.
  - apply Qmult_le_0_compat; lra.
Qed.

Lemma at_fun : forall r s u v d v' d', shows r s u v d -> at_ (SQ r) s u = Some (u, v', d') -> v' == v /\ d' == d.
Proof. intros r s u v d v' d' (a & b & E & e1 & e2) E'. rewrite E in E'. injection E' as <- <-. now split. Qed.

(* Two neighbours where the second is not to the right of the first, or no points at all, are
   refused with an Exception, for every order and boundary slope. *)
Theorem C64_refused : forall r t below above order,
  t = [] \/ (exists a b, next_to t a b /\ fst b <= fst a) ->
  fit (SQ r) t below above order = Some (Thrown _).
Proof.
  intros r t below above order [->|(a & b & Hab & Hle)]; [reflexivity|].
  unfold fit. destruct (in_turn (SQ r) (sBB (SQ r)) t) eqn:T; [|reflexivity].
  pose proof (in_turn_next r t _ T a b Hab) as Hge. assert (e : fst b == fst a) by lra.
  destruct Hab as (l & l' & ->). destruct (next_at r l a b l') as (Hi & e1 & e2 & _).
  unfold construct. cbv zeta.
  change (@length (Spline_Model.T (SQ r) * Spline_Model.T (SQ r))) with (@length (Q * Q)).
  replace (Z.of_nat (length (l ++ a :: b :: l')) - 1 <? 0)%Z with false by lia.
  rewrite steps_dup; [reflexivity|lia| |].
  - intros i Hi1. apply column_has. lia.
  - exists (Z.of_nat (length l)). split; [exact Hi|]. rewrite <- e1, <- e2 in e. exact e.
Qed.

(* A table of two or more points in ascending order is accepted, except that a cubic with a
   boundary slope below other than zero is left out here: see C64_small_slope_refuted. *)
Theorem C64_accepted : forall r t below above order, (2 <= length t)%nat -> (0 <= order <= 3)%Z ->
  (forall a b, next_to t a b -> fst a < fst b) ->
  (forall p t', t = p :: t' -> sBB (SQ r) <= fst p) ->
  (order = 3%Z -> given below -> below == 0) ->
  exists s, fit (SQ r) t below above order = Some (Done _ s).
Proof.
  intros r t below above order Ht Ho Hlt Hf Hb. unfold fit.
  rewrite next_in_turn; [|exact Hf|intros a b Hab; pose proof (Hlt a b Hab); lra].
  destruct (construct_ok r t below above order ltac:(lia) Ho Hlt) as (_ & _ & H3 & H2).
  assert (order = 3 \/ order <= 2)%Z as [->|O] by lia; [|auto].
  apply H3; [reflexivity|].
  destruct (Qeq_dec below (sNI (SQ r))) as [e|ne]; [now left|right]. apply Hb; [reflexivity|exact ne].
Qed.

Section Theorems.
Variable r : Q.
Variables (t : list (Q * Q)) (below above : Q) (order : Z) (s : spline (SQ r)).
Hypothesis two : (2 <= length t)%nat.
Hypothesis ord : (0 <= order <= 3)%Z.
Hypothesis ok : fit (SQ r) t below above order = Some (Done _ s).
Notation shows := (shows r s).
Notation X := (val r (column (SQ r) fst t)).
Notation Y := (val r (column (SQ r) snd t)).
Notation n := (Z.of_nat (length t) - 1)%Z.

(* A value and a slope come out for every number. *)
Theorem C64_total : forall x, exists v d, at_ (SQ r) s x = Some (x, v, d).
Proof.
  intros x. destruct (fit_built r t below above order s two ord ok) as (c1 & c2 & c3 & lo & B).
  destruct (somewhere r n (column (SQ r) fst t) ltac:(lia) x) as [L|(i & Hi & A & C)].
  - destruct (pc_below _ _ _ _ _ _ _ _ _ (b_pieces _ _ _ _ _ _ _ _ _ _ B) x L) as (v & d & E & _).
    now exists v, d.
  - destruct (pc_at _ _ _ _ _ _ _ _ _ (b_pieces _ _ _ _ _ _ _ _ _ _ B) i x ltac:(lia) A C) as (v & d & E & _).
    now exists v, d.
Qed.

(* The curve goes through every point of the table. *)
Theorem C64_points : forall x y, In (x, y) t -> exists d, shows x y d.
Proof.
  intros x y H. destruct (fit_built r t below above order s two ord ok) as (c1 & c2 & c3 & lo & B).
  apply in_split in H. destruct H as (l & l' & e).
  assert (ex : X (Z.of_nat (length l)) = x) by (rewrite e; apply (column_val r fst l (x, y) l')).
  assert (ey : Y (Z.of_nat (length l)) = y) by (rewrite e; apply (column_val r snd l (x, y) l')).
  assert (Hl : (length t = length l + S (length l'))%nat) by (rewrite e, app_length; reflexivity).
  destruct (pc_at _ _ _ _ _ _ _ _ _ (b_pieces _ _ _ _ _ _ _ _ _ _ B) (Z.of_nat (length l)) x)
    as (v & d & E & ev & ed).
  - lia.
  - rewrite ex. lra.
  - intros L. rewrite <- ex at 1. apply (X_asc r t below above order s two ok). lia.
  - exists d, v, d. split; [assumption|]. split; [|reflexivity]. rewrite ev, ex, ey. ring.
Qed.

(* The slope that is reported is the derivative of the values: between neighbours the error of
   the tangent at u is at most a constant times the square of the distance.  For order 2 and 3
   this includes both end points from both sides, so the slope has no jumps. *)
Theorem C64_slope : (1 <= order)%Z -> forall a b, next_to t a b -> exists M,
  forall u w v d v' d', fst a <= u <= fst b -> fst a <= w <= fst b ->
  (order = 1%Z -> u < fst b) ->
  at_ (SQ r) s u = Some (u, v, d) -> at_ (SQ r) s w = Some (w, v', d') ->
  Qabs (v' - v - (w - u) * d) <= M * ((w - u) * (w - u)).
Proof.
  intros Ho a b (l & l' & e). destruct (fit_built r t below above order s two ord ok) as (c1 & c2 & c3 & lo & B).
  pose proof (next_at r l a b l') as NA. cbv zeta in NA. rewrite <- e in NA.
  destruct NA as (Hi & ea & eb & _). set (i := Z.of_nat (length l)) in *.
  pose proof (X_asc r t below above order s two ok i Hi) as Hlt. rewrite ea, eb in Hlt.
  exists (Qabs (c2 i) + 3 * (fst b - fst a) * Qabs (c3 i)).
  intros u w v d v' d' Hu Hw Hu1 E E'.
  destruct (closed two ok B i u Ho Hi) as (du & Su & Du); [rewrite ea; tauto|rewrite eb; tauto|].
  destruct (closed two ok B i w Ho Hi) as (dw & Sw & _); [rewrite ea; tauto|rewrite eb; tauto|].
  rewrite eb in Du. specialize (Du Hu1).
  destruct (at_fun _ _ _ _ _ _ _ Su E) as [e1 e2]. destruct (at_fun _ _ _ _ _ _ _ Sw E') as [e3 _].
  rewrite e1, e2, e3, Du. unfold poly, dpoly. rewrite ea. set (x := fst a) in *.
  assert (F : Y i + (w - x) * (c1 i + (w - x) * (c2 i + (w - x) * c3 i)) -
     (Y i + (u - x) * (c1 i + (u - x) * (c2 i + (u - x) * c3 i))) -
     (w - u) * (c1 i + (u - x) * (2 * c2 i + 3 * (u - x) * c3 i))
     == (c2 i + ((w - x) + 2 * (u - x)) * c3 i) * ((w - u) * (w - u))) by ring.
  rewrite F. rewrite Qabs_Qmult.
  assert (sq : 0 <= (w - u) * (w - u)) by apply square_pos.
  rewrite (Qabs_pos ((w - u) * (w - u))) by assumption.
  apply Qmult_le_compat_r; [|assumption].
  eapply Qle_trans; [apply Qabs_triangle|]. apply Qplus_le_r.
  rewrite Qabs_Qmult. apply Qmult_le_compat_r; [|apply Qabs_nonneg].
  rewrite Qabs_pos; lra.
Qed.

(* order 0: a staircase *)
Theorem C64_staircase : order = 0%Z ->
  (forall a b x, next_to t a b -> fst a <= x -> x < fst b -> shows x (snd a) 0) /\
  (forall p t' x, t = p :: t' -> x < fst p -> shows x (snd p) 0) /\
  (forall p l x, t = l ++ [p] -> fst p <= x -> shows x (snd p) 0).
Proof.
  intros Ho. destruct (fit_built r t below above order s two ord ok) as (c1 & c2 & c3 & lo & B).
  destruct (b_zero _ _ _ _ _ _ _ _ _ _ B Ho) as (z1 & z2 & z3 & z4).
  assert (W : forall u v d v' d', shows u v d -> v == v' -> d == d' -> shows u v' d').
  { intros u v d v' d' (x1 & x2 & E & q1 & q2) w1 w2. exists x1, x2.
    split; [assumption|]. split; [now rewrite q1|now rewrite q2]. }
  split; [|split].
  - intros a b x (l & l' & e) H1 H2. pose proof (next_at r l a b l') as NA. cbv zeta in NA.
    rewrite <- e in NA. destruct NA as (Hi & ea & eb & ya & _).
    eapply W; [apply (pc_at _ _ _ _ _ _ _ _ _ (b_pieces _ _ _ _ _ _ _ _ _ _ B) (Z.of_nat (length l)) x)| |].
    + lia.
    + now rewrite ea.
    + intros _. now rewrite eb.
    + rewrite ya, z1, z2, z3. ring.
    + rewrite z1, z2, z3. ring.
  - intros p t' x e H.
    assert (ex : X 0 = fst p) by (rewrite e; apply (column_val r fst [] p t')).
    assert (ey : Y 0 = snd p) by (rewrite e; apply (column_val r snd [] p t')).
    eapply W; [apply (pc_below _ _ _ _ _ _ _ _ _ (b_pieces _ _ _ _ _ _ _ _ _ _ B) x)| |].
    + now rewrite ex.
    + rewrite ey, z4. ring.
    + assumption.
  - intros p l x e H.
    assert (ex : X (Z.of_nat (length l)) = fst p) by (rewrite e; apply (column_val r fst l p [])).
    assert (ey : Y (Z.of_nat (length l)) = snd p) by (rewrite e; apply (column_val r snd l p [])).
    assert (Hl : (length t = length l + 1)%nat) by (rewrite e, app_length; reflexivity).
    eapply W; [apply (pc_at _ _ _ _ _ _ _ _ _ (b_pieces _ _ _ _ _ _ _ _ _ _ B) (Z.of_nat (length l)) x)| |].
    + lia.
    + now rewrite ex.
    + lia.
    + rewrite ey, z1, z2, z3. ring.
    + rewrite z1, z2, z3. ring.
Qed.

(* order 1: straight lines between neighbours *)
Theorem C64_straight : order = 1%Z -> forall a b x, next_to t a b -> fst a <= x -> x <= fst b ->
  exists d, shows x (snd a + (x - fst a) * ((snd b - snd a) / (fst b - fst a))) d.
Proof.
  intros Ho a b x (l & l' & e) H1 H2.
  destruct (fit_built r t below above order s two ord ok) as (c1 & c2 & c3 & lo & B).
  pose proof (next_at r l a b l') as NA. cbv zeta in NA. rewrite <- e in NA.
  destruct NA as (Hi & ea & eb & ya & yb). set (i := Z.of_nat (length l)) in *.
  pose proof (X_asc r t below above order s two ok i Hi) as Hlt. rewrite ea, eb in Hlt.
  destruct (closed two ok B i x ltac:(lia) Hi) as (d & S & _); [now rewrite ea|now rewrite eb|].
  exists d. destruct S as (v & d' & E & ev & ed). exists v, d'. split; [assumption|]. split; [|assumption].
  pose proof (b_value _ _ _ _ _ _ _ _ _ _ B ltac:(lia) i Hi) as K. cbv zeta in K.
  rewrite ev. unfold poly. rewrite ea, eb, ya, yb in *.
  rewrite (b_line _ _ _ _ _ _ _ _ _ _ B Ho), (b_quad _ _ _ _ _ _ _ _ _ _ B ltac:(lia)) in *.
  assert (k : snd b - snd a == (fst b - fst a) * c1 i) by (rewrite K; ring).
  rewrite k. field. lra.
Qed.

(* order 2 and 3: between neighbours the value is one polynomial of that degree, written here
   around either end; the slope at that end is its linear coefficient. *)
Theorem C64_degree : (2 <= order)%Z -> forall a b, next_to t a b ->
  exists da qa ka db qb kb,
  shows (fst a) (snd a) da /\ shows (fst b) (snd b) db /\ (order = 2%Z -> ka == 0 /\ kb == 0) /\
  forall x, fst a <= x -> x <= fst b -> exists d,
    shows x (snd a + (x - fst a) * (da + (x - fst a) * (qa + (x - fst a) * ka))) d /\
    shows x (snd b + (x - fst b) * (db + (x - fst b) * (qb + (x - fst b) * kb))) d.
Proof.
  intros Ho a b (l & l' & e).
  destruct (fit_built r t below above order s two ord ok) as (c1 & c2 & c3 & lo & B).
  pose proof (next_at r l a b l') as NA. cbv zeta in NA. rewrite <- e in NA.
  destruct NA as (Hi & ea & eb & ya & yb). set (i := Z.of_nat (length l)) in *.
  pose proof (X_asc r t below above order s two ok i Hi) as Hlt. rewrite ea, eb in Hlt.
  pose proof (b_value _ _ _ _ _ _ _ _ _ _ B ltac:(lia) i Hi) as K. cbv zeta in K.
  pose proof (b_slope _ _ _ _ _ _ _ _ _ _ B Ho i Hi) as K1. cbv zeta in K1.
  rewrite ea, eb in *. rewrite ya, yb in *.
  assert (W : forall u v d v' d', shows u v d -> v == v' -> d == d' -> shows u v' d').
  { intros u v d v' d' (x1 & x2 & E & q1 & q2) w1 w2. exists x1, x2.
    split; [assumption|]. split; [now rewrite q1|now rewrite q2]. }
  exists (c1 i), (c2 i), (c3 i), (c1 (i + 1)%Z), (c2 i + 3 * (fst b - fst a) * c3 i), (c3 i).
  split; [|split; [|split]].
  - destruct (closed two ok B i (fst a) ltac:(lia) Hi) as (d & S & D); [rewrite ea; lra|rewrite eb; lra|].
    eapply W; [exact S| |].
    + unfold poly. rewrite ea, ya. ring.
    + rewrite D by lia. unfold dpoly. rewrite ea. ring.
  - destruct (closed two ok B i (fst b) ltac:(lia) Hi) as (d & S & D); [rewrite ea; lra|rewrite eb; lra|].
    eapply W; [exact S| |].
    + unfold poly. rewrite ea, ya. rewrite K. ring.
    + rewrite D by lia. unfold dpoly. rewrite ea. rewrite K1. ring.
  - intros O. pose proof (b_quad _ _ _ _ _ _ _ _ _ _ B ltac:(lia) i). split; assumption.
  - intros x H1 H2.
    destruct (closed two ok B i x ltac:(lia) Hi) as (d & S & D); [now rewrite ea|now rewrite eb|].
    exists d. split; (eapply W; [exact S| |reflexivity]); unfold poly; rewrite ea, ya.
    + reflexivity.
    + rewrite K, K1. ring.
Qed.

(* order 3: around an inner point the two cubics agree in value, slope and curvature *)
Theorem C64_cubic : order = 3%Z -> forall l a b c l', t = l ++ a :: b :: c :: l' ->
  exists d q k k', shows (fst b) (snd b) d /\
  (forall x, fst a <= x -> x <= fst b -> exists e,
     shows x (snd b + (x - fst b) * (d + (x - fst b) * (q + (x - fst b) * k))) e) /\
  (forall x, fst b <= x -> x <= fst c -> exists e,
     shows x (snd b + (x - fst b) * (d + (x - fst b) * (q + (x - fst b) * k'))) e).
Proof.
  intros Ho l a b c l' e.
  destruct (fit_built r t below above order s two ord ok) as (c1 & c2 & c3 & lo & B).
  pose proof (next_at r l a b (c :: l')) as NA. cbv zeta in NA. rewrite <- e in NA.
  assert (e' : t = (l ++ [a]) ++ b :: c :: l') by (rewrite e, <- app_assoc; reflexivity).
  pose proof (next_at r (l ++ [a]) b c l') as NB. cbv zeta in NB. rewrite <- e' in NB.
  destruct NA as (Hi & ea & eb & ya & yb). destruct NB as (Hj & eb' & ec & yb' & yc).
  replace (Z.of_nat (length (l ++ [a]))) with (Z.of_nat (length l) + 1)%Z in * by (rewrite app_length; cbn; lia).
  set (i := Z.of_nat (length l)) in *.
  pose proof (X_asc r t below above order s two ok i Hi) as Hlt. rewrite ea, eb in Hlt.
  pose proof (X_asc r t below above order s two ok (i + 1) Hj) as Hlt'. rewrite eb', ec in Hlt'.
  pose proof (b_value _ _ _ _ _ _ _ _ _ _ B ltac:(lia) i Hi) as K. cbv zeta in K.
  pose proof (b_slope _ _ _ _ _ _ _ _ _ _ B ltac:(lia) i Hi) as K1. cbv zeta in K1.
  pose proof (b_bend _ _ _ _ _ _ _ _ _ _ B Ho (i + 1) ltac:(lia)) as K2. cbv zeta in K2.
  replace (i + 1 - 1)%Z with i in K2 by lia.
  rewrite ea, eb in *. rewrite ya, yb in *.
  assert (W : forall u v d v' d', shows u v d -> v == v' -> d == d' -> shows u v' d').
  { intros u v d v' d' (x1 & x2 & E & q1 & q2) w1 w2. exists x1, x2.
    split; [assumption|]. split; [now rewrite q1|now rewrite q2]. }
  exists (c1 (i + 1)%Z), (c2 (i + 1)%Z), (c3 i), (c3 (i + 1)%Z). split; [|split].
  - destruct (closed two ok B (i + 1) (fst b) ltac:(lia) Hj) as (d & S & D); [rewrite eb; lra|rewrite ec; lra|].
    eapply W; [exact S| |].
    + unfold poly. rewrite eb, yb. ring.
    + rewrite D by lia. unfold dpoly. rewrite eb. ring.
  - intros x H1 H2.
    destruct (closed two ok B i x ltac:(lia) Hi) as (d & S & D); [now rewrite ea|now rewrite eb|].
    exists d. eapply W; [exact S| |reflexivity]. unfold poly. rewrite ea, ya. rewrite K, K1, K2. ring.
  - intros x H1 H2.
    destruct (closed two ok B (i + 1) x ltac:(lia) Hj) as (d & S & D); [now rewrite eb|now rewrite ec|].
    exists d. eapply W; [exact S| |reflexivity]. unfold poly. rewrite eb, yb. reflexivity.
Qed.

(* order 3, the ends: a given slope is the slope there; without one the curvature is zero *)
Theorem C64_cubic_ends : order = 3%Z ->
  (forall p q t', t = p :: q :: t' -> exists d c k, shows (fst p) (snd p) d /\
     (forall x, fst p <= x -> x <= fst q -> exists e,
        shows x (snd p + (x - fst p) * (d + (x - fst p) * (c + (x - fst p) * k))) e) /\
     (given below -> d == below) /\ (~ given below -> c == 0)) /\
  (forall l p q, t = l ++ [p; q] -> exists d c k, shows (fst q) (snd q) d /\
     (forall x, fst p <= x -> x <= fst q -> exists e,
        shows x (snd q + (x - fst q) * (d + (x - fst q) * (c + (x - fst q) * k))) e) /\
     (given above -> d == above) /\ (~ given above -> c == 0)).
Proof.
  intros Ho. destruct (fit_built r t below above order s two ord ok) as (c1 & c2 & c3 & lo & B).
  assert (W : forall u v d v' d', shows u v d -> v == v' -> d == d' -> shows u v' d').
  { intros u v d v' d' (x1 & x2 & E & q1 & q2) w1 w2. exists x1, x2.
    split; [assumption|]. split; [now rewrite q1|now rewrite q2]. }
  split.
  - intros p q t' e. pose proof (next_at r [] p q t') as NA. cbv zeta in NA. cbn [app] in NA. rewrite <- e in NA.
    destruct NA as (Hi & ea & eb & ya & yb). cbn [length] in *. change (Z.of_nat 0) with 0%Z in *.
    pose proof (X_asc r t below above order s two ok 0 Hi) as Hlt. rewrite ea, eb in Hlt.
    exists (c1 0%Z), (c2 0%Z), (c3 0%Z). split; [|split; [|split]].
    + destruct (closed two ok B 0%Z (fst p) ltac:(lia) Hi) as (d & S & D); [rewrite ea; lra|rewrite eb; lra|].
      eapply W; [exact S| |].
      * unfold poly. rewrite ea, ya. ring.
      * rewrite D by lia. unfold dpoly. rewrite ea. ring.
    + intros x H1 H2.
      destruct (closed two ok B 0%Z x ltac:(lia) Hi) as (d & S & D); [now rewrite ea|now rewrite eb|].
      exists d. eapply W; [exact S| |reflexivity]. unfold poly. rewrite ea, ya. reflexivity.
    + intros G. apply (b_d0 _ _ _ _ _ _ _ _ _ _ B); [exact G|now left].
    + intros G. apply (b_nat0 _ _ _ _ _ _ _ _ _ _ B Ho).
      destruct (Qeq_dec below (sNI (SQ r))) as [K|K]; [assumption|destruct (G K)].
  - intros l p q e. pose proof (next_at r l p q []) as NA. cbv zeta in NA. rewrite <- e in NA.
    assert (Hl : (length t = length l + 2)%nat) by (rewrite e, app_length; reflexivity).
    destruct NA as (Hi & ea & eb & ya & yb).
    assert (en : n = (Z.of_nat (length l) + 1)%Z) by lia. set (i := Z.of_nat (length l)) in *.
    pose proof (X_asc r t below above order s two ok i Hi) as Hlt. rewrite ea, eb in Hlt.
    pose proof (b_value _ _ _ _ _ _ _ _ _ _ B ltac:(lia) i Hi) as K. cbv zeta in K.
    pose proof (b_slope _ _ _ _ _ _ _ _ _ _ B ltac:(lia) i Hi) as K1. cbv zeta in K1.
    rewrite ea, eb in *. rewrite ya, yb in *.
    exists (c1 (i + 1)%Z), (c2 i + 3 * (fst q - fst p) * c3 i), (c3 i). split; [|split; [|split]].
    + destruct (closed two ok B i (fst q) ltac:(lia) Hi) as (d & S & D); [rewrite ea; lra|rewrite eb; lra|].
      eapply W; [exact S| |].
      * unfold poly. rewrite ea, ya. rewrite K. ring.
      * rewrite D by lia. unfold dpoly. rewrite ea, K1. ring.
    + intros x H1 H2.
      destruct (closed two ok B i x ltac:(lia) Hi) as (d & S & D); [now rewrite ea|now rewrite eb|].
      exists d. eapply W; [exact S| |reflexivity]. unfold poly. rewrite ea, ya. rewrite K, K1. ring.
    + intros G. rewrite <- en. apply (b_dn _ _ _ _ _ _ _ _ _ _ B); [lia|exact G].
    + intros G. destruct (Qeq_dec above (sNI (SQ r))) as [K2|K2]; [|destruct (G K2)].
      pose proof (b_natn _ _ _ _ _ _ _ _ _ _ B Ho K2) as K3. cbv zeta in K3. rewrite en in K3.
      replace (i + 1 - 1)%Z with i in K3 by lia. rewrite ea, eb in K3. exact K3.
Qed.

(* order 2, the ends: the slope above is honoured; the slope below is when it is the only one;
   with neither, the last piece is straight *)
Theorem C64_quadratic_ends : order = 2%Z ->
  (forall p q t', t = p :: q :: t' -> given below -> ~ given above -> shows (fst p) (snd p) below) /\
  (forall l p q, t = l ++ [p; q] -> given above -> shows (fst q) (snd q) above) /\
  (forall l p q, t = l ++ [p; q] -> ~ given below -> ~ given above ->
     forall x, fst p <= x -> x <= fst q -> exists e,
       shows x (snd p + (x - fst p) * ((snd q - snd p) / (fst q - fst p))) e).
Proof.
  intros Ho. destruct (fit_built r t below above order s two ord ok) as (c1 & c2 & c3 & lo & B).
  assert (W : forall u v d v' d', shows u v d -> v == v' -> d == d' -> shows u v' d').
  { intros u v d v' d' (x1 & x2 & E & q1 & q2) w1 w2. exists x1, x2.
    split; [assumption|]. split; [now rewrite q1|now rewrite q2]. }
  assert (NG : forall d, ~ given d -> d == sNI (SQ r)).
  { intros d G. destruct (Qeq_dec d (sNI (SQ r))) as [K|K]; [assumption|destruct (G K)]. }
  split; [|split].
  - intros p q t' e G G'. pose proof (next_at r [] p q t') as NA. cbv zeta in NA. cbn [app] in NA. rewrite <- e in NA.
    destruct NA as (Hi & ea & eb & ya & yb). cbn [length] in *. change (Z.of_nat 0) with 0%Z in *.
    pose proof (X_asc r t below above order s two ok 0 Hi) as Hlt. rewrite ea, eb in Hlt.
    destruct (closed two ok B 0%Z (fst p) ltac:(lia) Hi) as (d & S & D); [rewrite ea; lra|rewrite eb; lra|].
    eapply W; [exact S| |].
    + unfold poly. rewrite ea, ya. ring.
    + rewrite D by lia. unfold dpoly. rewrite ea.
      rewrite (b_d0 _ _ _ _ _ _ _ _ _ _ B G (or_intror (conj Ho (NG _ G')))). ring.
  - intros l p q e G. pose proof (next_at r l p q []) as NA. cbv zeta in NA. rewrite <- e in NA.
    assert (Hl : (length t = length l + 2)%nat) by (rewrite e, app_length; reflexivity).
    destruct NA as (Hi & ea & eb & ya & yb).
    assert (en : n = (Z.of_nat (length l) + 1)%Z) by lia. set (i := Z.of_nat (length l)) in *.
    pose proof (X_asc r t below above order s two ok i Hi) as Hlt. rewrite ea, eb in Hlt.
    pose proof (b_value _ _ _ _ _ _ _ _ _ _ B ltac:(lia) i Hi) as K. cbv zeta in K.
    pose proof (b_slope _ _ _ _ _ _ _ _ _ _ B ltac:(lia) i Hi) as K1. cbv zeta in K1.
    rewrite ea, eb in *. rewrite ya, yb in *.
    destruct (closed two ok B i (fst q) ltac:(lia) Hi) as (d & S & D); [rewrite ea; lra|rewrite eb; lra|].
    eapply W; [exact S| |].
    + unfold poly. rewrite ea, ya. rewrite K. ring.
    + rewrite D by lia. unfold dpoly. rewrite ea, <- K1, <- en. apply (b_dn _ _ _ _ _ _ _ _ _ _ B); [lia|exact G].
  - intros l p q e G G' x H1 H2. pose proof (next_at r l p q []) as NA. cbv zeta in NA. rewrite <- e in NA.
    assert (Hl : (length t = length l + 2)%nat) by (rewrite e, app_length; reflexivity).
    destruct NA as (Hi & ea & eb & ya & yb).
    assert (en : (n - 1 = Z.of_nat (length l))%Z) by lia. set (i := Z.of_nat (length l)) in *.
    pose proof (X_asc r t below above order s two ok i Hi) as Hlt. rewrite ea, eb in Hlt.
    pose proof (b_value _ _ _ _ _ _ _ _ _ _ B ltac:(lia) i Hi) as K. cbv zeta in K.
    pose proof (b_end2 _ _ _ _ _ _ _ _ _ _ B Ho (NG _ G) (NG _ G')) as Z2. rewrite en in Z2.
    pose proof (b_quad _ _ _ _ _ _ _ _ _ _ B ltac:(lia) i) as Z3.
    rewrite ea, eb in *. rewrite ya, yb in *. rewrite Z2, Z3 in K.
    destruct (closed two ok B i x ltac:(lia) Hi) as (d & S & D); [rewrite ea; lra|rewrite eb; lra|].
    exists d. eapply W; [exact S| |reflexivity].
    unfold poly. rewrite ea, ya, Z2, Z3.
    assert (k : snd q - snd p == (fst q - fst p) * c1 i) by (rewrite K; ring).
    rewrite k. field. lra.
Qed.

(* Outside the table the curve goes on as a straight line, with the given slope if there is
   one.  Above, the slope is the one at the last point; below, without a given slope, the one
   at the first point (for order 3 with three or more points, unless it is negligible beside
   the slope at the second). *)
Theorem C64_above : (1 <= order)%Z -> forall l p, t = l ++ [p] -> exists m,
  (forall x, fst p <= x -> shows x (snd p + (x - fst p) * m) m) /\
  (given above -> m == above) /\
  (order = 1%Z -> ~ given above -> forall l' q, l = l' ++ [q] -> m == (snd p - snd q) / (fst p - fst q)).
Proof.
  intros Ho l p e. destruct (fit_built r t below above order s two ord ok) as (c1 & c2 & c3 & lo & B).
  assert (ex : X (Z.of_nat (length l)) = fst p) by (rewrite e; apply (column_val r fst l p [])).
  assert (ey : Y (Z.of_nat (length l)) = snd p) by (rewrite e; apply (column_val r snd l p [])).
  assert (Hl : (length t = length l + 1)%nat) by (rewrite e, app_length; reflexivity).
  assert (en : n = Z.of_nat (length l)) by lia.
  destruct (b_last _ _ _ _ _ _ _ _ _ _ B) as [z2 z3]. rewrite en in z2, z3.
  exists (c1 (Z.of_nat (length l))). split; [|split].
  - intros x H.
    destruct (pc_at _ _ _ _ _ _ _ _ _ (b_pieces _ _ _ _ _ _ _ _ _ _ B) (Z.of_nat (length l)) x)
      as (v & d & E & ev & ed); [lia|now rewrite ex|lia|].
    exists v, d. split; [assumption|]. rewrite ev, ed, ex, ey, z2, z3. split; ring.
  - intros G. rewrite <- en. apply (b_dn _ _ _ _ _ _ _ _ _ _ B Ho G).
  - intros O1 G l' q el. subst l. rewrite app_length in *. cbn [length] in *.
    assert (e' : t = l' ++ q :: p :: []) by (rewrite e, <- app_assoc; reflexivity).
    pose proof (next_at r l' q p []) as NA. cbv zeta in NA. rewrite <- e' in NA.
    destruct NA as (Hi & ea & eb & ya & yb). set (i := Z.of_nat (length l')) in *.
    pose proof (X_asc r t below above order s two ok i Hi) as Hlt. rewrite ea, eb in Hlt.
    destruct (Qeq_dec above (sNI (SQ r))) as [K2|K2]; [|destruct (G K2)].
    pose proof (b_dn1 _ _ _ _ _ _ _ _ _ _ B O1 K2) as K3. rewrite en in K3. rewrite K3.
    replace (Z.of_nat (length l' + 1) - 1)%Z with i by lia.
    pose proof (b_value _ _ _ _ _ _ _ _ _ _ B ltac:(lia) i Hi) as K. cbv zeta in K.
    rewrite ea, eb, ya, yb in K.
    rewrite (b_line _ _ _ _ _ _ _ _ _ _ B O1), (b_quad _ _ _ _ _ _ _ _ _ _ B ltac:(lia)) in K.
    assert (k : snd p - snd q == (fst p - fst q) * c1 i) by (rewrite K; ring).
    rewrite k. field. lra.
Qed.

Theorem C64_below : (1 <= order)%Z -> forall p q t', t = p :: q :: t' -> exists m d d1,
  shows (fst p) (snd p) d /\ shows (fst q) (snd q) d1 /\
  (forall x, x < fst p -> shows x (snd p + (x - fst p) * m) m) /\
  (given below -> m == below) /\
  (~ given below -> (order <= 2)%Z -> m == d) /\
  (~ given below -> order = 3%Z -> t' <> [] -> Qabs (d1 * r) <= Qabs d -> m == d).
Proof.
  intros Ho p q t' e. destruct (fit_built r t below above order s two ord ok) as (c1 & c2 & c3 & lo & B).
  pose proof (next_at r [] p q t') as NA. cbv zeta in NA. cbn [app] in NA. rewrite <- e in NA.
  destruct NA as (Hi & ea & eb & ya & yb). cbn [length] in *. change (Z.of_nat 0) with 0%Z in *.
  pose proof (X_asc r t below above order s two ok 0 Hi) as Hlt. change (0 + 1)%Z with 1%Z in *. rewrite ea, eb in Hlt.
  assert (NG : forall d, ~ given d -> d == sNI (SQ r)).
  { intros d G. destruct (Qeq_dec d (sNI (SQ r))) as [K|K]; [assumption|destruct (G K)]. }
  exists lo, (c1 0%Z), (c1 1%Z). split; [|split; [|split; [|split; [|split]]]].
  - destruct (pc_at _ _ _ _ _ _ _ _ _ (b_pieces _ _ _ _ _ _ _ _ _ _ B) 0%Z (fst p))
      as (v & d & E & ev & ed); [lia|rewrite ea; lra|intros; change (0 + 1)%Z with 1%Z; rewrite eb; assumption|].
    exists v, d. split; [assumption|]. rewrite ev, ed, ea, ya. split; ring.
  - destruct (pc_at _ _ _ _ _ _ _ _ _ (b_pieces _ _ _ _ _ _ _ _ _ _ B) 1%Z (fst q))
      as (v & d & E & ev & ed).
    + lia.
    + rewrite eb; lra.
    + intros L. rewrite <- eb at 1. apply (X_asc r t below above order s two ok 1%Z). lia.
    + exists v, d. split; [assumption|]. rewrite ev, ed, eb, yb. split; ring.
  - intros x H. rewrite <- ea, <- ya.
    apply (pc_below _ _ _ _ _ _ _ _ _ (b_pieces _ _ _ _ _ _ _ _ _ _ B) x). now rewrite ea.
  - intros G. apply (b_lo _ _ _ _ _ _ _ _ _ _ B Ho G).
  - intros G O. apply (b_lo1 _ _ _ _ _ _ _ _ _ _ B); [lia|auto].
  - intros G O Ht Hd. rewrite (b_lo3 _ _ _ _ _ _ _ _ _ _ B O (NG _ G)).
    assert (3 <= length t)%nat by (rewrite e; destruct t'; [now destruct Ht|cbn; lia]).
    replace (n =? 1)%Z with false by lia. unfold fixzero.
    match goal with |- context [sltb _ ?a ?b] => change (sltb (SQ r) a b) with (qltb a b);
      destruct (qltb_spec a b) as [L|] end; [|reflexivity].
    exfalso. exact (Qlt_not_le _ _ L Hd).
Qed.
End Theorems.

Print Assumptions C64_refused.
Print Assumptions C64_accepted.
Print Assumptions C64_total.
Print Assumptions C64_points.
Print Assumptions C64_slope.
Print Assumptions C64_staircase.
Print Assumptions C64_straight.
Print Assumptions C64_degree.
Print Assumptions C64_cubic.
Print Assumptions C64_cubic_ends.
Print Assumptions C64_quadratic_ends.
Print Assumptions C64_above.
Print Assumptions C64_below.

(* ---- cases ---- *)
Definition tol : Q := 1 # 10000000000000.            (* lib/u_opt1.cc:65 *)
Definition none : Q := sNI (SQ tol).
Definition look (t : list (Q * Q)) (lo hi : Q) (o : Z) (xs : list Q) : option (list (option (Q * Q))) :=
  match fit (SQ tol) t lo hi o with
  | Some (Done _ s) =>
    Some (map (fun x => match at_ (SQ tol) s x with Some (_, v, d) => Some (Qred v, Qred d) | None => None end) xs)
  | _ => None
  end.
Definition t3 : list (Q * Q) := [(0, 0); (1, 1); (3, 2)].
Definition t4 : list (Q * Q) := [(0, 0); (1, 1); (3, 2); (4, 0)].

Lemma run : forall t lo hi o, look t lo hi o [] <> None -> exists s, fit (SQ tol) t lo hi o = Some (Done _ s).
Proof.
  intros t lo hi o H. unfold look in H.
  destruct (fit (SQ tol) t lo hi o) as [[|s]|]; [now destruct H| |now destruct H]. now exists s.
Qed.

(* natural cubic: values and slopes below, at, between and above the points *)
Example C64_cubic_case : look t3 none none 3 [-1#1; 0; 1#2; 1; 2; 3; 4] =
  Some [Some (-13#12, 13#12); Some (0, 13#12); Some (17#32, 49#48); Some (1, 5#6);
        Some (13#8, 11#24); Some (2, 1#3); Some (7#3, 1#3)].
Proof. vm_compute. reflexivity. Qed.
(* clamped cubic, slopes 0 and 0 *)
Example C64_clamped_case : look t3 0 0 3 [-1#1; 0; 1; 3; 5] =
  Some [Some (0, 0); Some (0, 0); Some (1, 5#4); Some (2, 0); Some (2, 0)].
Proof. vm_compute. reflexivity. Qed.
(* parabolas: neither slope, one slope *)
Example C64_quadratic_case : look t3 none none 2 [-1#1; 0; 1#2; 1; 2; 3; 4] =
  Some [Some (-3#2, 3#2); Some (0, 3#2); Some (5#8, 1); Some (1, 1#2); Some (3#2, 1#2); Some (2, 1#2); Some (5#2, 1#2)].
Proof. vm_compute. reflexivity. Qed.
Example C64_quadratic_case1 : look t3 2 none 2 [-1#1; 0; 1; 3] =
  Some [Some (-2, 2); Some (0, 2); Some (1, 0); Some (2, 1)].
Proof. vm_compute. reflexivity. Qed.
Example C64_straight_case : look t3 none 5 1 [-1#1; 0; 1#2; 2; 3; 4] =
  Some [Some (-1, 1); Some (0, 1); Some (1#2, 1); Some (3#2, 1#2); Some (2, 5); Some (7, 5)].
Proof. vm_compute. reflexivity. Qed.
Example C64_staircase_case : look t3 none none 0 [-1#1; 1#2; 1; 2; 9] =
  Some [Some (0, 0); Some (0, 0); Some (1, 0); Some (1, 0); Some (2, 0)].
Proof. vm_compute. reflexivity. Qed.

(* the hypotheses are met: a four point natural cubic, and one with both slopes *)
Example C64_accepted_case : exists s, fit (SQ tol) t4 none none 3 = Some (Done _ s).
Proof.
  apply C64_accepted.
  - cbn. lia.
  - lia.
  - intros a b (l & l' & e). unfold t4 in e.
    do 3 (destruct l as [|? l]; [cbn in e; injection e as <- <- _; reflexivity|cbn in e; injection e as _ e]).
    destruct l as [|? l]; [discriminate|]. cbn in e. injection e as _ e. destruct l; discriminate.
  - intros p t' e. injection e as <- _. vm_compute. discriminate.
  - intros _ G. exfalso. apply G. reflexivity.
Qed.
Example C64_slope_case : exists s, fit (SQ tol) t4 none 0 3 = Some (Done _ s) /\
  (2 <= length t4)%nat /\ next_to t4 (1, 1) (3, 2) /\ (1 <= 3)%Z /\ given 0 /\ ~ given none.
Proof.
  destruct (run t4 none 0 3) as [s E]; [vm_compute; discriminate|]. exists s. split; [exact E|].
  split; [cbn; lia|]. split; [exists [(0, 0)], [(4, 0)]; reflexivity|].
  split; [lia|]. split; [intro H; vm_compute in H; discriminate|intro H; apply H; reflexivity].
Qed.
Example C64_quadratic_ends_case : exists s, fit (SQ tol) t3 2 none 2 = Some (Done _ s) /\ given 2 /\ ~ given none.
Proof.
  destruct (run t3 2 none 2) as [s E]; [vm_compute; discriminate|]. exists s. split; [exact E|].
  split; [intro H; vm_compute in H; discriminate|intro H; apply H; reflexivity].
Qed.
(* C64_below, the order 3 clause: the slopes at the first two points are 13/12 and 5/6 *)
Example C64_below_case : exists s, fit (SQ tol) t3 none none 3 = Some (Done _ s) /\
  [(3, 2)] <> @nil (Q * Q) /\ Qabs ((5 # 6) * tol) <= Qabs (13 # 12).
Proof.
  destruct (run t3 none none 3) as [s E]; [vm_compute; discriminate|]. exists s. split; [exact E|].
  split; [discriminate|]. vm_compute. discriminate.
Qed.
Example C64_refused_case : fit (SQ tol) [(0, 0); (1, 1); (1, 2)] none none 3 = Some (Thrown _) /\
  fit (SQ tol) [(0, 0); (2, 1); (1, 2)] none none 1 = Some (Thrown _).
Proof. split; reflexivity. Qed.

(* ---- where the statement fails ---- *)

(* One point, no boundary slopes: every order above 0 reads memory before the arrays
   (_f1[_n-1] or h[_n-1] with _n == 0) or behind them (_f1[1]). *)
Theorem C64_one_point_refuted : forall r x y order, (1 <= order <= 3)%Z -> sBB (SQ r) <= x ->
  fit (SQ r) [(x, y)] (sNI (SQ r)) (sNI (SQ r)) order = None.
Proof.
  intros r x y order Ho Hx. unfold fit. rewrite (next_in_turn r [(x, y)]).
  - assert (order = 1 \/ order = 2 \/ order = 3)%Z as [ -> | [ -> | -> ]] by lia; reflexivity.
  - intros p t' e. injection e as <- _. exact Hx.
  - intros a b (l & l' & e). destruct l as [|c [|]]; discriminate.
Qed.

(* Two points, order 3, no boundary slopes: fixzero compares the slope with the placeholder
   NOT_VALID, so below the table the curve is flat although it leaves the first point with the
   slope of the chord. *)
Theorem C64_two_points_refuted : exists t s, length t = 2%nat /\
  fit (SQ tol) t none none 3 = Some (Done _ s) /\ shows tol s 0 0 1 /\ shows tol s (-1) 0 0.
Proof.
  exists [(0, 0); (1, 1)].
  destruct (run [(0, 0); (1, 1)] none none 3) as [s E]; [vm_compute; discriminate|].
  exists s. split; [reflexivity|]. split; [exact E|].
  assert (L : look [(0, 0); (1, 1)] none none 3 [0; -1] = Some [Some (0, 1); Some (0, 0)]) by (vm_compute; reflexivity).
  unfold look in L. rewrite E in L. cbn [map] in L.
  destruct (at_ (SQ tol) s 0) as [[[u v] d]|] eqn:E0; [|discriminate].
  destruct (at_ (SQ tol) s (-1)) as [[[u' v'] d']|] eqn:E1; [|discriminate].
  injection L as a1 a2 a3 a4.
  destruct (C64_total tol [(0, 0); (1, 1)] none none 3 s ltac:(cbn; lia) ltac:(lia) E 0) as (p & q & Ep).
  destruct (C64_total tol [(0, 0); (1, 1)] none none 3 s ltac:(cbn; lia) ltac:(lia) E (-1)) as (p' & q' & Ep').
  rewrite Ep in E0. rewrite Ep' in E1. injection E0 as <- <- <-. injection E1 as <- <- <-.
  split.
  - exists p, q. split; [exact Ep|]. rewrite <- (Qred_correct p), <- (Qred_correct q), a1, a2. split; reflexivity.
  - exists p', q'. split; [exact Ep'|]. rewrite <- (Qred_correct p'), <- (Qred_correct q'), a3, a4. split; reflexivity.
Qed.

(* The same with a given slope: the assert that the slope was met fails. *)
Theorem C64_two_points_slope_refuted : exists t, length t = 2%nat /\ fit (SQ tol) t 1 none 3 = None.
Proof. exists [(0, 0); (1, 1)]. split; vm_compute; reflexivity. Qed.

(* More points, a given slope that is small beside the slope at the second point: it is taken
   for zero and the assert fails. *)
Theorem C64_small_slope_refuted : exists t below, (3 <= length t)%nat /\ 0 < below /\
  fit (SQ tol) t below none 3 = None.
Proof. exists t3, (1 # 100000000000000). split; [cbn; lia|]. split; vm_compute; reflexivity. Qed.

(* In double arithmetic the assert also fails through rounding alone, on points and a slope
   that are small integers; in exact arithmetic the same call is accepted. *)
Definition sf_pts : list (spec_float * spec_float) :=
  [(sf_int 1, sf_int 3); (sf_int 2, sf_int 1); (sf_int 4, sf_int 5)].
Theorem C64_rounding_refuted :
  match fit S64 sf_pts (sf_int 3) (sNI S64) 3 with None => true | _ => false end = true /\
  exists s, fit (SQ tol) [(1, 3); (2, 1); (4, 5)] 3 none 3 = Some (Done _ s).
Proof.
  split; [vm_compute; reflexivity|]. apply run. vm_compute. discriminate.
Qed.
(* the arithmetic is not at fault: with slope 2 the same points pass in double arithmetic *)
Example C64_rounding_case :
  match fit S64 sf_pts (sf_int 2) (sNI S64) 3 with Some (Done _ _) => true | _ => false end = true.
Proof. vm_compute. reflexivity. Qed.

(* order 2 with both slopes given: the slope at the first point is not the given one (the
   source says so at lib/m_spline.cc:160; include/m_spline.h:25 promises otherwise) *)
Theorem C64_both_slopes_refuted : exists t below above s, given below /\ given above /\
  fit (SQ tol) t below above 2 = Some (Done _ s) /\ ~ exists v, shows tol s 0 v below.
Proof.
  exists t3, 0, 0. destruct (run t3 0 0 2) as [s E]; [vm_compute; discriminate|].
  exists s. split; [intro H; vm_compute in H; discriminate|].
  split; [intro H; vm_compute in H; discriminate|]. split; [exact E|].
  assert (L : look t3 0 0 2 [0] = Some [Some (0, 1)]) by (vm_compute; reflexivity).
  unfold look in L. rewrite E in L. cbn [map] in L. intros (v & p & q & Ep & e1 & e2).
  rewrite Ep in L. injection L as a1 a2. rewrite <- (Qred_correct q), a2 in e2. vm_compute in e2. discriminate.
Qed.

Print Assumptions C64_one_point_refuted.
Print Assumptions C64_two_points_refuted.
Print Assumptions C64_two_points_slope_refuted.
Print Assumptions C64_small_slope_refuted.
Print Assumptions C64_rounding_refuted.
Print Assumptions C64_both_slopes_refuted.
