(* C38: switches *)
Require Import ZArith QArith Lqa Lia List Bool.
Require Import Verif.Qnum Verif.Loops Verif.Switch_Model.
Import ListNotations.
Local Open Scope Q_scope.

Lemma state_eqb_spec : forall a b, reflect (a = b) (state_eqb a b).
Proof. destruct a, b; constructor; congruence. Qed.

(* ---------- hysteresis, as the user understands it ---------- *)

(* the state after the control has taken the value x *)
Inductive hyst (m : swmodel) : state_t -> Q -> state_t -> Prop :=
| hyst_on : forall s x, von m <= x -> hyst m s x sON
| hyst_off : forall s x, x <= voff m -> x < von m -> hyst m s x sOFF
| hyst_keep : forall s x, voff m < x -> x < von m -> hyst m s x s.

(* the state after a sequence of control values *)
Inductive hysts (m : swmodel) : state_t -> list Q -> state_t -> Prop :=
| hysts_nil : forall s, hysts m s [] s
| hysts_snoc : forall s l x s1 s2, hysts m s l s1 -> hyst m s1 x s2 -> hysts m s (l ++ [x]) s2.

(* ---------- a transient ---------- *)

(* an attempt at a time point: the time, and the control values seen by the evaluations and at
   the end, by the review.  A step: rejected attempts, then the accepted one. *)
Record att := mkAt { a_t : Q; a_evals : list (bool * Q); a_x : Q }.

Fixpoint evals (m : swmodel) (l : list (bool * Q)) (w : sw) : option sw :=
  match l with
  | [] => Some w
  | (nb, x) :: r => let* p := evaluate m nb false x w in evals m r (fst p)
  end.
(* after moving to a new time the queue is evaluated at least once: [first] *)
Definition attempt (m : swmodel) (fwd : bool) (first : bool * Q) (a : att) (w : sw) : option sw :=
  let* w1 := (if fwd then tr_advance m (a_t a) w else tr_regress m (a_t a) w) in
  let* w2 := evals m (first :: a_evals a) w1 in
  Some (fst (tr_review m (a_x a) w2)).
Fixpoint retried (m : swmodel) (l : list ((bool * Q) * att)) (w : sw) : option sw :=
  match l with [] => Some w | (f, a) :: r => let* w1 := attempt m false f a w in retried m r w1 end.
(* a step: the first attempt, and the retries, the last of which is accepted *)
Definition one (m : swmodel) (p : ((bool * Q) * att) * list ((bool * Q) * att)) (w : sw) : option sw :=
  let* w1 := attempt m true (fst (fst p)) (snd (fst p)) w in retried m (snd p) w1.
Fixpoint steps (m : swmodel) (l : list (((bool * Q) * att) * list ((bool * Q) * att))) (w : sw) : option sw :=
  match l with [] => Some w | p :: r => let* w1 := one m p w in steps m r w1 end.

(* the control value at the accepted attempt of a step *)
Definition accepted_x (p : ((bool * Q) * att) * list ((bool * Q) * att)) : Q :=
  a_x (snd (last (snd p) (fst p))).

(* resistance, conductance and matrix entry are those of the state *)
Definition right (m : swmodel) (w : sw) : Prop :=
  yf1 w == res m (st0 w) /\ c1 w == 1 / res m (st0 w) /\
  (q_eval w = false -> q_load w = false -> loaded w == 1 / res m (st0 w)) /\
  (q_eval w = true -> st0 w <> st1 w) /\ (yf1 w = res m (st0 w) /\ c1 w = 1 / yf1 w).

Definition settled (m : swmodel) (w : sw) : Prop := right m w /\ q_eval w = false /\ q_load w = false.

Lemma cons_ok : forall m w, yf1 w = res m (st0 w) -> consistent m w = true.
Proof. intros m w E. unfold consistent. rewrite E. destruct (qeqb_spec (res m (st0 w)) (res m (st0 w))) as [|N]; [reflexivity|]. exfalso. apply N. reflexivity. Qed.

Lemma qeqb_refl : forall x, qeqb x x = true.
Proof. intros x. destruct (qeqb_spec x x) as [|N]; [reflexivity|]. exfalso. apply N. reflexivity. Qed.

(* an evaluation does not change the state and leaves everything settled *)
Lemma evaluate_ok : forall m nb x w, right m w -> (q_load w = true -> nb || q_eval w = true \/ True) ->
  exists w', evaluate m nb false x w = Some (w', true) /\ st0 w' = st0 w /\ st1 w' = st1 w /\
    in0 w' = in0 w /\ in1 w' = in1 w /\ tm0 w' = tm0 w /\ tm1 w' = tm1 w /\ settled m w'.
Proof.
  intros m nb x w (R1 & R2 & R3 & R4 & R5 & R6) _. unfold evaluate, do_tr. cbn [orb].
  destruct (nb || false || q_eval w) eqn:Q.
  - cbn [fst]. rewrite cons_ok by (cbn; exact R5). cbn [bind].
    destruct (state_eqb_spec (st0 w) (st1 w)) as [E|N]; cbn [negb q_load].
    + rewrite orb_false_r. destruct (q_load w) eqn:QL; eexists; (split; [reflexivity|]);
        cbn; repeat split; auto; intros; try (rewrite R6, R5; reflexivity); try discriminate.
      apply R3; auto. destruct (q_eval w) eqn:QE; [|reflexivity]. exfalso. now apply R4.
    + rewrite orb_true_r. eexists. split; [reflexivity|].
      cbn; repeat split; auto; intros; try (rewrite R6, R5; reflexivity); try discriminate.
  - apply orb_false_iff in Q. destruct Q as [_ QE]. cbn [bind]. rewrite QE in *.
    destruct (q_load w) eqn:QL; eexists; (split; [reflexivity|]); cbn; repeat split; auto;
      intros; try (rewrite R6, R5; reflexivity); try discriminate; try congruence.
Qed.

Lemma evals_ok : forall m l w, settled m w ->
  exists w', evals m l w = Some w' /\ st0 w' = st0 w /\ st1 w' = st1 w /\
    in0 w' = in0 w /\ in1 w' = in1 w /\ tm0 w' = tm0 w /\ tm1 w' = tm1 w /\ settled m w'.
Proof.
  intros m; induction l as [|[nb x] l IH]; intros w R; cbn [evals].
  - exists w. repeat split; auto; apply R.
  - destruct (evaluate_ok m nb x w (proj1 R) ltac:(tauto)) as (w1 & E & A1 & A2 & A3 & A4 & A5 & A6 & R1).
    rewrite E. cbn [bind fst]. destruct (IH w1 R1) as (w' & E' & B1 & B2 & B3 & B4 & B5 & B6 & R').
    exists w'. repeat split; try congruence; apply R'.
Qed.

Lemma evals_first : forall m f l w, right m w ->
  exists w', evals m (f :: l) w = Some w' /\ st0 w' = st0 w /\ st1 w' = st1 w /\
    in0 w' = in0 w /\ in1 w' = in1 w /\ tm0 w' = tm0 w /\ tm1 w' = tm1 w /\ settled m w'.
Proof.
  intros m [nb x] l w R. cbn [evals].
  destruct (evaluate_ok m nb x w R ltac:(tauto)) as (w1 & E & A1 & A2 & A3 & A4 & A5 & A6 & R1).
  rewrite E. cbn [bind fst]. destruct (evals_ok m l w1 R1) as (w' & E' & B1 & B2 & B3 & B4 & B5 & B6 & R').
  exists w'. repeat split; try congruence; apply R'.
Qed.

Lemma review_ok : forall m x w, settled m w ->
  let w' := fst (tr_review m x w) in
  st0 w' = st0 w /\ st1 w' = st1 w /\ in0 w' = x /\ in1 w' = in1 w /\ tm0 w' = tm0 w /\ tm1 w' = tm1 w /\ settled m w'.
Proof.
  intros m x w ((R1 & R2 & R3 & R4 & R5) & QE & QL). cbn. unfold settled, right; cbn. repeat split; auto; apply R5.
Qed.

Lemma advance_ok : forall m now w, settled m w ->
  exists w', tr_advance m now w = Some w' /\ st1 w' = st0 w /\ hyst m (st0 w) (in0 w) (st0 w') /\
    in1 w' = in0 w /\ tm0 w' = now /\ tm1 w' = tm0 w /\ right m w'.
Proof.
  intros m now w ((R1 & R2 & R3 & R4 & R5 & R6) & QE & QL). unfold tr_advance.
  set (new := if qleb (von m) (in0 w) then sON else if qleb (in0 w) (voff m) then sOFF else st0 w).
  assert (H : hyst m (st0 w) (in0 w) new).
  { unfold new. destruct (qleb_spec (von m) (in0 w)); [constructor; assumption|].
    destruct (qleb_spec (in0 w) (voff m)); constructor; lra. }
  destruct (state_eqb_spec (st0 w) new) as [E|N]; cbn [negb].
  - rewrite cons_ok by (cbn; rewrite <- E; exact R5). eexists. split; [reflexivity|]. unfold right; cbn.
    clearbody new. subst new. rewrite QE. cbn [orb]. repeat split; auto. discriminate.
  - rewrite cons_ok by (cbn; reflexivity). eexists. split; [reflexivity|]. unfold right; cbn.
    rewrite orb_true_r. repeat split; auto; try reflexivity; discriminate.
Qed.

Lemma regress_ok : forall m now w, settled m w ->
  exists w', tr_regress m now w = Some w' /\ st0 w' = st0 w /\ st1 w' = st1 w /\ in0 w' = in0 w /\
    in1 w' = in1 w /\ tm0 w' = now /\ tm1 w' = tm1 w /\ settled m w'.
Proof.
  intros m now w ((R1 & R2 & R3 & R4 & R5 & R6) & QE & QL). unfold tr_regress.
  rewrite cons_ok by (cbn; exact R5). rewrite R6, qeqb_refl. cbn [andb].
  eexists. split; [reflexivity|]. unfold settled, right; cbn. repeat split; auto; rewrite <- ?R6; auto.
Qed.

Lemma forward_ok : forall m f a w, settled m w ->
  exists w', attempt m true f a w = Some w' /\ hyst m (st0 w) (in0 w) (st0 w') /\ in0 w' = a_x a /\
    in1 w' = in0 w /\ tm0 w' = a_t a /\ tm1 w' = tm0 w /\ settled m w'.
Proof.
  intros m f a w R. unfold attempt. destruct (advance_ok m (a_t a) w R) as (w1 & E & A1 & A2 & A3 & A4 & A5 & R1).
  rewrite E. cbn [bind]. destruct (evals_first m f (a_evals a) w1 R1) as (w2 & E2 & B1 & B2 & B3 & B4 & B5 & B6 & R2).
  rewrite E2. cbn [bind]. destruct (review_ok m (a_x a) w2 R2) as (C1 & C2 & C3 & C4 & C5 & C6 & R3).
  eexists. split; [reflexivity|]. repeat split; try congruence; try apply R3.
Qed.

Lemma backward_ok : forall m f a w, settled m w ->
  exists w', attempt m false f a w = Some w' /\ st0 w' = st0 w /\ in0 w' = a_x a /\
    in1 w' = in1 w /\ tm0 w' = a_t a /\ tm1 w' = tm1 w /\ settled m w'.
Proof.
  intros m f a w R. unfold attempt. destruct (regress_ok m (a_t a) w R) as (w1 & E & A1 & A2 & A3 & A4 & A5 & A6 & R1).
  rewrite E. cbn [bind]. destruct (evals_first m f (a_evals a) w1 (proj1 R1)) as (w2 & E2 & B1 & B2 & B3 & B4 & B5 & B6 & R2).
  rewrite E2. cbn [bind]. destruct (review_ok m (a_x a) w2 R2) as (C1 & C2 & C3 & C4 & C5 & C6 & R3).
  eexists. split; [reflexivity|]. repeat split; try congruence; try apply R3.
Qed.

Lemma retried_ok : forall m l b w, settled m w -> in0 w = a_x (snd b) -> tm0 w = a_t (snd b) ->
  exists w', retried m l w = Some w' /\ st0 w' = st0 w /\ in0 w' = a_x (snd (last l b)) /\
    in1 w' = in1 w /\ tm0 w' = a_t (snd (last l b)) /\ tm1 w' = tm1 w /\ settled m w'.
Proof.
  intros m; induction l as [|[f a] l IH]; intros b w R H T; cbn [retried].
  - exists w. cbn [last]. repeat split; auto; apply R.
  - destruct (backward_ok m f a w R) as (w1 & E & A1 & A2 & A3 & A4 & A5 & R1). rewrite E. cbn [bind].
    destruct (IH (f, a) w1 R1 A2 A4) as (w' & E' & B1 & B2 & B3 & B4 & B5 & R').
    replace (last ((f, a) :: l) b) with (last l (f, a)).
    2: { clear. revert f a b. induction l as [|[f' a'] l IH]; intros f a b; [reflexivity|]. cbn [last] in *. destruct l; [reflexivity|]. now rewrite <- (IH f' a' (f, a)). }
    exists w'. repeat split; try congruence; apply R'.
Qed.

Lemma one_ok : forall m p w, settled m w ->
  exists w', one m p w = Some w' /\ hyst m (st0 w) (in0 w) (st0 w') /\ in0 w' = accepted_x p /\
    in1 w' = in0 w /\ tm1 w' = tm0 w /\ settled m w'.
Proof.
  intros m [[f a] l] w R. unfold one, accepted_x. cbn [fst snd].
  destruct (forward_ok m f a w R) as (w1 & E & A1 & A2 & A3 & A4 & A5 & R1). rewrite E. cbn [bind].
  destruct (retried_ok m l (f, a) w1 R1 A2 A4) as (w' & E' & B1 & B2 & B3 & B4 & B5 & R').
  exists w'. rewrite B1. repeat split; try congruence; try apply R'.
Qed.

Lemma hysts_app : forall m l1 l2 s s1 s2, hysts m s l1 s1 -> hysts m s1 l2 s2 -> hysts m s (l1 ++ l2) s2.
Proof.
  intros m l1 l2 s s1 s2 H1 H2. revert H1. induction H2 as [|s' l x s3 s4 H IH Hx]; intros H1.
  - now rewrite app_nil_r.
  - rewrite app_assoc. econstructor; eauto.
Qed.

(* C38: during any transient, with rejected steps and any number of evaluations, the state is
   the one hysteresis gives for the control values of the accepted points up to the previous
   one, and the resistance used in the matrix is that of the state *)
Lemma transient_inv : forall m l w, settled m w ->
  exists w', steps m l w = Some w' /\ settled m w' /\ loaded w' == 1 / res m (st0 w') /\
    match l with
    | [] => w' = w
    | _ => hysts m (st0 w) (in0 w :: map accepted_x (removelast l)) (st0 w')
    end.
Proof.
  intros m l. induction l as [|p l IH]; intros w R.
  - exists w. split; [reflexivity|]. split; [exact R|]. split; [|reflexivity].
    destruct R as ((_ & _ & R3 & _) & QE & QL). auto.
  - cbn [steps]. destruct (one_ok m p w R) as (w1 & E & H & I0 & _ & _ & R1). rewrite E. cbn [bind].
    destruct (IH w1 R1) as (w' & E' & R' & L' & H'). exists w'. split; [exact E'|]. split; [exact R'|]. split; [exact L'|].
    destruct l as [|p' l].
    + subst w'. cbn. apply (hysts_snoc m _ [] _ (st0 w)); [constructor|exact H].
    + change (removelast (p :: p' :: l)) with (p :: removelast (p' :: l)). cbn [map].
      rewrite I0 in H'.
      apply (hysts_app m [in0 w] _ _ (st0 w1)); [|exact H'].
      apply (hysts_snoc m _ [] _ (st0 w)); [constructor|exact H].
Qed.

(* what stands in the matrix is the conductance of the state: 1/ron when on, 1/roff otherwise *)
Definition conducts (m : swmodel) (w : sw) : Prop :=
  (st0 w = sON -> loaded w == 1 / ron m) /\ (st0 w <> sON -> loaded w == 1 / roff m).
Lemma conducts_ok : forall m w, loaded w == 1 / res m (st0 w) -> conducts m w.
Proof. intros m w H. split; intros E; rewrite H; unfold res; [now rewrite E|]. destruct (st0 w); [reflexivity|congruence|reflexivity]. Qed.
Theorem C38_transient : forall m l w, settled m w ->
  exists w', steps m l w = Some w' /\ settled m w' /\ conducts m w' /\
    match l with
    | [] => w' = w
    | _ => hysts m (st0 w) (in0 w :: map accepted_x (removelast l)) (st0 w')
    end.
Proof.
  intros m l w H. destruct (transient_inv m l w H) as (w' & A & B & C & D). exists w'. split; [exact A|]. split; [exact B|]. split; [now apply conducts_ok|exact D].
Qed.


(* the states are the ones a user expects of hysteresis *)
Theorem C38_changes_at_thresholds : forall m s x s', hyst m s x s' ->
  (s' = sON -> s <> sON -> von m <= x) /\ (s' = sOFF -> s <> sOFF -> x <= voff m) /\
  (voff m < x -> x < von m -> s' = s).
Proof.
  intros m s x s' H. inversion H; subst; repeat split; intros; try congruence; try assumption; lra.
Qed.

Lemma hysts_last : forall m s l x s', hysts m s (l ++ [x]) s' -> exists s1, hysts m s l s1 /\ hyst m s1 x s'.
Proof.
  intros m s l x s' H. remember (l ++ [x]) as L eqn:E. destruct H as [|s l' y s1 s2 H1 H2].
  - destruct l; discriminate.
  - apply app_inj_tail in E. destruct E as [-> ->]. exists s1. auto.
Qed.

(* once a control that only rises from x on has reached the on threshold the switch stays on;
   likewise off when it only falls *)
Theorem C38_monotone : forall m s l1 x l2 s', hysts m s (l1 ++ x :: l2) s' ->
  ((forall y, In y l2 -> x <= y) -> von m <= x -> s' = sON) /\
  ((forall y, In y l2 -> y <= x) -> x <= voff m -> x < von m -> s' = sOFF).
Proof.
  intros m s l1 x l2 s' H.
  destruct (exists_last (l := x :: l2) ltac:(discriminate)) as (l' & z & E).
  rewrite E, app_assoc in H. apply hysts_last in H. destruct H as (s1 & _ & Hz).
  assert (Iz : z = x \/ In z l2).
  { assert (I : In z (x :: l2)) by (rewrite E; apply in_or_app; right; left; reflexivity). destruct I as [-> | I]; auto. }
  split.
  - intros Mono L. assert (x <= z) by (destruct Iz as [-> | I]; [lra|now apply Mono]).
    inversion Hz; subst; try reflexivity; lra.
  - intros Mono L L2. assert (z <= x) by (destruct Iz as [-> | I]; [lra|now apply Mono]).
    inversion Hz; subst; try reflexivity; lra.
Qed.

(* the operating point: whatever the iterations, the state is decided by the last control value
   against the state before the analysis, and the device has not converged when it changes *)
Fixpoint dc_iter (m : swmodel) (l : list Q) (w : sw) : option (sw * bool) :=
  match l with
  | [] => Some (w, true)
  | x :: r => let* p := evaluate m true true x w in
              match r with [] => Some p | _ => dc_iter m r (fst p) end
  end.

Lemma dc_one : forall m x w, settled m w -> 
  exists w' ok, evaluate m true true x w = Some (w', ok) /\ settled m w' /\ st1 w' = st1 w /\
    st0 w' = (if qltb (von m) x then sON else if qltb x (voff m) then sOFF else st1 w) /\
    (ok = true <-> st0 w' = st0 w) /\ loaded w' == 1 / res m (st0 w').
Proof.
  intros m x w ((R1 & R2 & R3 & R4 & R5 & R6) & QE & QL). unfold evaluate, do_tr. cbn [orb].
  set (new := if qltb (von m) x then sON else if qltb x (voff m) then sOFF else st1 w).
  destruct (state_eqb_spec new (st0 w)) as [E|N].
  - cbn [fst]. rewrite cons_ok by (cbn; exact R5). cbn [bind q_load]. rewrite QL.
    eexists. eexists. split; [reflexivity|]. unfold settled, right; cbn. repeat split; auto; discriminate.
  - cbn [fst]. rewrite cons_ok by (cbn; reflexivity). cbn [bind q_load].
    eexists. eexists. split; [reflexivity|]. unfold settled, right; cbn.
    repeat split; auto; try reflexivity; try discriminate.
Qed.

Lemma operating_inv : forall m l x w, settled m w ->
  exists w' ok, dc_iter m (l ++ [x]) w = Some (w', ok) /\ settled m w' /\
    (von m < x -> st0 w' = sON) /\ (x < voff m -> x <= von m -> st0 w' = sOFF) /\
    (voff m <= x -> x <= von m -> st0 w' = st1 w) /\ loaded w' == 1 / res m (st0 w').
Proof.
  intros m l x. induction l as [|y l IH]; intros w R.
  - cbn [app dc_iter]. destruct (dc_one m x w R) as (w' & ok & E & R' & S1 & S0 & _ & Ld). rewrite E. cbn [bind].
    exists w', ok. split; [reflexivity|]. split; [exact R'|]. rewrite S0 in Ld |- *.
    split; [|split; [|split; [|exact Ld]]]; intros.
    + destruct (qltb_spec (von m) x); [reflexivity|contradiction].
    + destruct (qltb_spec (von m) x); [lra|]. destruct (qltb_spec x (voff m)); [reflexivity|contradiction].
    + destruct (qltb_spec (von m) x); [lra|]. destruct (qltb_spec x (voff m)); [lra|reflexivity].
  - cbn [app dc_iter]. destruct (dc_one m y w R) as (w1 & ok & E & R1 & S1 & _ & _ & _). rewrite E. cbn [bind fst].
    destruct (l ++ [x]) as [|z r] eqn:El; [destruct l; discriminate|].
    destruct (IH w1 R1) as (w' & ok' & E' & H). exists w', ok'. rewrite S1 in H. split; [exact E'|exact H].
Qed.
Theorem C38_operating_point : forall m l x w, settled m w ->
  exists w' ok, dc_iter m (l ++ [x]) w = Some (w', ok) /\ settled m w' /\
    (von m < x -> st0 w' = sON) /\ (x < voff m -> x <= von m -> st0 w' = sOFF) /\
    (voff m <= x -> x <= von m -> st0 w' = st1 w) /\ conducts m w'.
Proof.
  intros m l x w H. destruct (operating_inv m l x w H) as (w' & ok & A & B & C & D & E & L). exists w', ok. repeat (split; [assumption|]). now apply conducts_ok.
Qed.

(* the predicted switching time: when the control goes on along the line through the last two
   points, it reaches the threshold then; and that is within the step when the step crossed it *)
Theorem C38_predicted : forall m x w e, tm1 w < tm0 w -> snd (tr_review m x w) = Some e ->
  exists th, (th = von m /\ in1 w < x /\ st0 w <> sON \/ th = voff m /\ x < in1 w /\ st0 w <> sOFF) /\
    in1 w + (x - in1 w) / (tm0 w - tm1 w) * (e - tm1 w) == th /\
    (in1 w < th /\ th <= x \/ x <= th /\ th < in1 w -> tm1 w < e /\ e <= tm0 w).
Proof.
  intros m x w e Lt E. unfold tr_review in E. cbn [snd] in E.
  assert (G : forall th, ~ x - in1 w == 0 -> e = tm1 w + (tm0 w - tm1 w) * (th - in1 w) / (x - in1 w) ->
     in1 w + (x - in1 w) / (tm0 w - tm1 w) * (e - tm1 w) == th /\
     (in1 w < th /\ th <= x \/ x <= th /\ th < in1 w -> tm1 w < e /\ e <= tm0 w)).
  { intros th Nz ->. set (d := tm0 w - tm1 w) in *. assert (Dp : 0 < d) by (unfold d; lra). split.
    - field. split; [exact Nz|]. lra.
    - intros B. set (k := (th - in1 w) / (x - in1 w)).
      assert (Ek : d * (th - in1 w) / (x - in1 w) == d * k) by (unfold k; field; exact Nz).
      assert (K : 0 < k /\ k <= 1).
      { unfold k. destruct B as [[B1 B2]|[B1 B2]].
        - split; [apply Qlt_shift_div_l; lra|apply Qle_shift_div_r; lra].
        - assert (Kx : (th - in1 w) / (x - in1 w) == (in1 w - th) / (in1 w - x)) by (field; split; lra). rewrite Kx.
          split; [apply Qlt_shift_div_l; lra|apply Qle_shift_div_r; lra]. }
      destruct K as [K0 K1]. assert (P0 : 0 < d * k) by (now apply Qmult_lt_0_compat).
      assert (P1 : d * k <= d * 1) by (apply Qmult_le_l; assumption). split; unfold d in *; lra. }
  destruct (state_eqb_spec (st0 w) sON) as [S1|S1]; cbn [negb andb] in E.
  - destruct (state_eqb_spec (st0 w) sOFF) as [S2|S2]; cbn [negb andb] in E; [discriminate|].
    destruct (qltb_spec (x - in1 w) 0) as [L|L]; [|discriminate]. inversion E; subst e.
    exists (voff m). destruct (G (voff m) ltac:(lra) eq_refl) as [G1 G2]. split; [right; repeat split; auto; lra|]. split; assumption.
  - destruct (qltb_spec 0 (x - in1 w)) as [L|L].
    + inversion E; subst e. exists (von m). destruct (G (von m) ltac:(lra) eq_refl) as [G1 G2].
      split; [left; repeat split; auto; lra|]. split; assumption.
    + destruct (state_eqb_spec (st0 w) sOFF) as [S2|S2]; cbn [negb andb] in E; [discriminate|].
      destruct (qltb_spec (x - in1 w) 0) as [L2|L2]; [|discriminate]. inversion E; subst e.
      exists (voff m). destruct (G (voff m) ltac:(lra) eq_refl) as [G1 G2]. split; [right; repeat split; auto; lra|]. split; assumption.
Qed.

(* a control resting exactly on the on threshold: off at the operating point, on as soon as the
   transient starts *)
Theorem C38_threshold_differs_refuted : exists m w w1 w2,
  settled m w /\ st1 w = sOFF /\ evaluate m true true (von m) w = Some (w1, true) /\ st0 w1 = sOFF /\
  tr_advance m 1 (fst (tr_review m (von m) (dc_advance w1))) = Some w2 /\ st0 w2 = sON.
Proof.
  pose (m := mkM 2 1 1 1000). pose (w := mkW 0 0 sOFF sOFF 0 0 1000 (1 / 1000) (1 / 1000) false false).
  exists m, w. eexists. eexists.
  split; [unfold settled, right; cbn; repeat split; auto; try discriminate|].
  split; [reflexivity|]. split; [reflexivity|]. split; [reflexivity|]. split; [reflexivity|]. reflexivity.
Qed.

Definition m12 : swmodel := mkM 2 1 1 1000.
Example C38_case :
  settled m12 (tr_begin m12 sOFF (mkW 0 0 sUNKNOWN sUNKNOWN 0 0 0 0 0 false false)) /\
  exists w', steps m12
    [ (((false, 0), mkAt 1 [] 3), [((false, 0), mkAt (1#2) [] (3#2))])
    ; (((false, 0), mkAt 2 [(true, 2)] (5#2)), [])
    ; (((false, 0), mkAt 3 [] (3#2)), [])
    ; (((false, 0), mkAt 4 [] 0), [])
    ; (((false, 0), mkAt 5 [] 0), []) ]
    (tr_begin m12 sOFF (mkW 0 0 sUNKNOWN sUNKNOWN 0 0 0 0 0 false false)) = Some w' /\ st0 w' = sOFF /\ st1 w' = sON.
Proof.
  split; [unfold settled, right; cbn; repeat split; auto; discriminate|].
  eexists. split; [vm_compute; reflexivity|]. split; reflexivity.
Qed.

Print Assumptions C38_transient.
Print Assumptions C38_changes_at_thresholds.
Print Assumptions C38_monotone.
Print Assumptions C38_operating_point.
Print Assumptions C38_predicted.
Print Assumptions C38_threshold_differs_refuted.
