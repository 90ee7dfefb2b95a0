(* Lemmas about Trln_Model.v *)
Require Import ZArith QArith Qabs Lqa Lia List Bool.
Require Import Verif.Qnum Verif.Interp_Model Verif.Interp_Proofs Verif.Trln_Model.
Import ListNotations.
Local Open Scope Q_scope.

(* y is what a line that was sent the samples S (time, value) lets out for what was sent at time s: on the straight
   line between the two neighbouring samples, or the last sample *)
Definition Delayed (S : list (Q * Q)) (s y : Q) : Prop :=
  (exists i a b, nth_error S i = Some a /\ nth_error S (Datatypes.S i) = Some b /\ fst a <= s /\ s < fst b /\
     y == snd a + (snd b - snd a) / (fst b - fst a) * (s - fst a)) \/
  (exists S' a, S = S' ++ [a] /\ s == fst a /\ y == snd a).

Definition shift (d : Q) (s : Q * Q) : Q * Q := (fst s + d, snd s).

Lemma key_shift : forall d S i, (i < length S)%nat -> key (map (shift d) S) i = key S i + d.
Proof.
  intros d S i H. unfold key. rewrite nth_indep with (d' := shift d (0, 0)) by now rewrite map_length.
  rewrite map_nth. reflexivity.
Qed.
Lemma valu_shift : forall d S i, (i < length S)%nat -> valu (map (shift d) S) i = valu S i.
Proof.
  intros d S i H. unfold valu. rewrite nth_indep with (d' := shift d (0, 0)) by now rewrite map_length.
  rewrite map_nth. reflexivity.
Qed.

(* what was sent is in order *)
Definition sorted (S : list (Q * Q)) : Prop := nondec S.
(* the time s is inside, and not at a doubled last key *)
Definition inside (S : list (Q * Q)) (s : Q) : Prop :=
  key S 0 <= s /\ s <= key S (length S - 1) /\ (s < key S (length S - 1) \/ key S (length S - 2) < key S (length S - 1)).

Lemma v_out_ok : forall d S t, sorted S -> (2 <= length S)%nat -> inside S (t - d) ->
  exists f, v_out (mk_wave (map (shift d) S) d) t = Val f /\ Delayed S (t - d) (f0 f).
Proof.
  intros d S t Hs Hn (I0 & I1 & I2). unfold v_out. cbn [w].
  assert (Hs' : nondec (map (shift d) S)).
  { intros i j Hij Hj. rewrite map_length in Hj. rewrite !key_shift by lia. pose proof (Hs i j Hij Hj). lra. }
  assert (Hn' : (2 <= length (map (shift d) S))%nat) by now rewrite map_length.
  replace (interpolate (map (shift d) S) t (Some 0) (Some 0)) with (interpolate (copies 1 (map (shift d) S)) t (Some 0) (Some 0))
    by (cbn [copies]; now rewrite app_nil_r).
  destruct (Qlt_le_dec (t - d) (key S (length S - 1))) as [L|L].
  - (* in some interval *)
    assert (E : exists i, (Datatypes.S i < length S)%nat /\ key S i <= t - d /\ t - d < key S (Datatypes.S i)).
    { clear - I0 L Hn. revert L. remember (length S - 1)%nat as m. assert (Hm : (m < length S)%nat) by lia. clear Heqm Hn.
      induction m; intros L; [lra|]. destruct (Qlt_le_dec (t - d) (key S m)) as [L1|L1]; [apply IHm; [lia|exact L1]|].
      exists m. auto. }
    destruct E as (i & Hi & L1 & L2).
    eexists. split.
    + rewrite (interp_inner 1 (map (shift d) S) ltac:(lia) Hs' Hn' t (Some 0) (Some 0) i); [reflexivity|now rewrite map_length| |];
        rewrite key_shift by lia; lra.
    + left. exists i, (key S i, valu S i), (key S (Datatypes.S i), valu S (Datatypes.S i)).
      split; [apply nth_error_key; lia|]. split; [apply nth_error_key; lia|]. cbn [fst snd f0].
      split; [exact L1|]. split; [exact L2|]. rewrite !key_shift, !valu_shift by lia. field. lra.
  - destruct I2 as [I2|I2]; [lra|].
    eexists. split.
    + rewrite (interp_high 1 (map (shift d) S) ltac:(lia) Hs' Hn' t (Some 0) (Some 0)) by (rewrite map_length, key_shift by lia; lra).
      rewrite map_length. destruct (qltb_spec (key (map (shift d) S) (length S - 1)) t) as [G|G]; [rewrite key_shift in G by lia; lra|].
      destruct (qleb_spec (key (map (shift d) S) (length S - 1)) (key (map (shift d) S) (length S - 2))) as [G2|G2];
        [rewrite !key_shift in G2 by lia; lra|]. reflexivity.
    + right. destruct (exists_last (l := S)) as (S' & a & ->); [destruct S; [cbn in Hn; lia|discriminate]|].
      exists S', a. rewrite app_length in *. cbn [length] in *.
      replace (length S' + 1 - 1)%nat with (length S') in * by lia.
      assert (KA : key (S' ++ [a]) (length S') = fst a) by (unfold key; now rewrite nth_middle).
      assert (VA : valu (S' ++ [a]) (length S') = snd a) by (unfold valu; now rewrite nth_middle).
      split; [reflexivity|]. split; [rewrite KA in *; lra|]. cbn [f0].
      replace (Datatypes.S (length S' + 1 - 2)) with (length S') by lia.
      rewrite !key_shift, !valu_shift by (rewrite app_length; cbn; lia). rewrite <- VA.
      set (k0 := key (S' ++ [a]) (length S' + 1 - 2)) in *. set (v0 := valu (S' ++ [a]) (length S' + 1 - 2)) in *.
      set (k1 := key (S' ++ [a]) (length S')) in *. set (v1 := valu (S' ++ [a]) (length S')) in *.
      assert (ET : t == k1 + d) by lra. setoid_replace (t - (k0 + d)) with (k1 - k0) by lra.
      field. lra.
Qed.

Lemma nth_error_app_l : forall {T} (l l' : list T) i x, nth_error l i = Some x -> nth_error (l ++ l') i = Some x.
Proof. intros T l l' i x H. rewrite nth_error_app1; [exact H|]. apply nth_error_Some. congruence. Qed.

(* one value *)
Lemma Delayed_unique : forall S s y y', sorted S -> Delayed S s y -> Delayed S s y' -> y == y'.
Proof.
  assert (KE : forall S i a, nth_error S i = Some a -> key S i = fst a /\ (i < length S)%nat).
  { intros S i a H. split; [unfold key; now rewrite (nth_error_nth S i (0, 0) H)|apply nth_error_Some; congruence]. }
  assert (KL : forall S' a, key (S' ++ [a]) (length S') = fst a) by (intros; unfold key; now rewrite nth_middle).
  intros S s y y' Hs [(i & a & b & A & B & L1 & L2 & E)|(S' & a & ES & L & E)] [(i' & a' & b' & A' & B' & L1' & L2' & E')|(S2 & a' & ES' & L' & E')].
  - destruct (KE _ _ _ A) as [KA IA]. destruct (KE _ _ _ B) as [KB IB]. destruct (KE _ _ _ A') as [KA' IA']. destruct (KE _ _ _ B') as [KB' IB'].
    assert (i = i').
    { destruct (Nat.lt_trichotomy i i') as [H|[H|H]]; [|exact H|].
      - pose proof (Hs (Datatypes.S i) i' ltac:(lia) ltac:(lia)) as M. rewrite KB, KA' in M. lra.
      - pose proof (Hs (Datatypes.S i') i ltac:(lia) ltac:(lia)) as M. rewrite KB', KA in M. lra. }
    subst i'. rewrite A in A'. rewrite B in B'. injection A' as <-. injection B' as <-. rewrite E, E'. reflexivity.
  - exfalso. destruct (KE _ _ _ B) as [KB IB]. pose proof (KL S2 a') as KK. rewrite <- ES' in KK. 
    assert (LL : length S = Datatypes.S (length S2)) by (rewrite ES', app_length; cbn; lia).
    pose proof (Hs (Datatypes.S i) (length S2) ltac:(lia) ltac:(lia)) as M. rewrite KB, KK in M. lra.
  - exfalso. destruct (KE _ _ _ B') as [KB IB]. pose proof (KL S' a) as KK. rewrite <- ES in KK. 
    assert (LL : length S = Datatypes.S (length S')) by (rewrite ES, app_length; cbn; lia).
    pose proof (Hs (Datatypes.S i') (length S') ltac:(lia) ltac:(lia)) as M. rewrite KB, KK in M. lra.
  - rewrite ES in ES'. apply app_inj_tail in ES' as [_ <-]. rewrite E, E'. reflexivity.
Qed.

(* sending more, later, changes nothing of what was sent *)
Lemma Delayed_more : forall S a s y, (s < fst a) -> Delayed S s y -> Delayed (S ++ [a]) s y.
Proof.
  intros S a s y H [(i & b & c & A & B & L1 & L2 & E)|(S' & b & ES & L & E)].
  - left. exists i, b, c. split; [now apply nth_error_app_l|]. split; [now apply nth_error_app_l|]. auto.
  - left. exists (length S'), b, a. subst S. rewrite <- app_assoc. cbn [app].
    split; [rewrite nth_error_app2, Nat.sub_diag by lia; reflexivity|].
    split; [rewrite nth_error_app2 by lia; now replace (Datatypes.S (length S') - length S')%nat with 1%nat by lia|].
    split; [lra|]. split; [exact H|]. rewrite E. setoid_replace (s - fst b) with 0 by lra. ring.
Qed.

Lemma key_app_l : forall S S' i, (i < length S)%nat -> key (S ++ S') i = key S i.
Proof. intros. unfold key. now rewrite app_nth1. Qed.
Lemma key_snoc : forall S a, key (S ++ [a]) (length S) = fst a.
Proof. intros; unfold key; now rewrite nth_middle. Qed.

Lemma sorted_snoc : forall S a, sorted S -> (1 <= length S)%nat -> key S (length S - 1) <= fst a -> sorted (S ++ [a]).
Proof.
  intros S a Hs Hn H i j Hij Hj. rewrite app_length in Hj. cbn in Hj.
  destruct (Nat.eq_dec j (length S)) as [->|N].
  - rewrite key_snoc. destruct (Nat.eq_dec i (length S)) as [->|N]; [rewrite key_snoc; lra|].
    rewrite key_app_l by lia. pose proof (Hs i (length S - 1)%nat ltac:(lia) ltac:(lia)). lra.
  - rewrite !key_app_l by lia. apply Hs; lia.
Qed.

Lemma dn_diff_near : forall tol a b, Qabs (dn_diff tol a b - (a - b)) <= tol * Qabs a \/ tol < 0.
Proof.
  intros tol a b. destruct (Qlt_le_dec tol 0) as [|T]; [now right|left]. unfold dn_diff.
  assert (EA : Qabs (a * tol) == tol * Qabs a).
  { rewrite Qabs_Qmult, (Qabs_pos tol) by exact T. ring. }
  destruct (qltb_spec (Qabs (a - b)) (Qabs (a * tol))) as [L|L].
  - setoid_replace (0 - (a - b)) with (- (a - b)) by ring. rewrite Qabs_opp. lra.
  - setoid_replace (a - b - (a - b)) with 0 by ring. change (Qabs 0) with 0.
    apply Qmult_le_0_compat; [exact T|apply Qabs_nonneg].
Qed.

Lemma dn_diff_zero : forall tol a b, tol == 0 -> dn_diff tol a b == a - b.
Proof.
  intros tol a b H. unfold dn_diff. destruct (qltb_spec (Qabs (a - b)) (Qabs (a * tol))) as [L|L]; [|reflexivity].
  exfalso. setoid_replace (a * tol) with 0 in L by (rewrite H; ring). change (Qabs 0) with 0 in L. pose proof (Qabs_nonneg (a - b)). lra.
Qed.

Lemma dn_diff_same : forall tol a, dn_diff tol a a == 0.
Proof. intros. unfold dn_diff. destruct (qltb _ _); [reflexivity|ring]. Qed.

(* ---------------------------------------------------------------- the sources *)
(* the line is consistent: what is in the system is what was last computed, when nothing is rounded away *)
Definition tracks (o : tols) (l : line) : Prop := roundofftol o == 0 -> s_f l == if1 l /\ s_r l == ir1 l.

Lemma iteration_keeps : forall o l m,
  forward (iteration o l m) = forward l /\ reflect (iteration o l m) = reflect l /\ if0 (iteration o l m) = if0 l /\ ir0 (iteration o l m) = ir0 l.
Proof. intros o l m. destruct m; cbn; [auto|auto|]. destruct (queued o l); cbn; auto. Qed.

Lemma iterations_keep : forall o ms l, let l' := fold_left (iteration o) ms l in
  forward l' = forward l /\ reflect l' = reflect l /\ if0 l' = if0 l /\ ir0 l' = ir0 l.
Proof.
  intros o ms. induction ms as [|m r IH]; intros l; cbn; [auto|].
  destruct (IH (iteration o l m)) as (A & B & C & D). destruct (iteration_keeps o l m) as (A1 & B1 & C1 & D1). cbn in *. repeat split; congruence.
Qed.

Lemma iteration_tracks : forall o l m, tracks o l -> tracks o (iteration o l m).
Proof.
  intros o l m H Z. specialize (H Z) as [H1 H2].
  assert (D : s_f (tr_load o true l) == if0 l /\ s_r (tr_load o true l) == ir0 l).
  { cbn. rewrite !dn_diff_zero by exact Z. split; lra. }
  destruct m; cbn [iteration]; [cbn; split; reflexivity|exact D|]. destruct (queued o l); [exact D|auto].
Qed.
Lemma iterations_track : forall o ms l, tracks o l -> tracks o (fold_left (iteration o) ms l).
Proof. intros o ms. induction ms; intros l H; cbn; [exact H|]. apply IHms. now apply iteration_tracks. Qed.

(* exactly what was computed *)
Definition exactly (l : line) : Prop := s_f l == if0 l /\ s_r l == ir0 l /\ if1 l = if0 l /\ ir1 l = ir0 l.
Lemma exactly_iteration : forall o l m, exactly l -> exactly (iteration o l m).
Proof.
  intros o l m (A & B & C & D).
  assert (E : exactly (tr_load o true l)).
  { unfold exactly. cbn. rewrite C, D, !dn_diff_same. repeat split; lra. }
  destruct m; cbn [iteration]; [unfold exactly; cbn; repeat split; reflexivity|exact E|]. destruct (queued o l); [exact E|unfold exactly; auto].
Qed.
Lemma exactly_iterations : forall o ms l, In Full ms \/ exactly l -> exactly (fold_left (iteration o) ms l).
Proof.
  intros o ms. induction ms as [|m r IH]; intros l H; cbn; [destruct H as [[]|H]; exact H|].
  apply IH. destruct H as [[->|H]|H]; [right|left; exact H|right; now apply exactly_iteration].
  unfold exactly. cbn. repeat split; reflexivity.
Qed.

(* within what the queue lets pass *)
Definition nearly (o : tols) (x i : Q) : Prop := Qabs (x - i) <= reltol o * (1#100) * Qabs x + abstol o.
Lemma nearly_same : forall o x i, 0 <= reltol o -> 0 <= abstol o -> x == i -> nearly o x i.
Proof.
  intros o x i R A E. unfold nearly. setoid_replace (x - i) with 0 by lra. change (Qabs 0) with 0.
  assert (0 <= reltol o * (1#100) * Qabs x) by (apply Qmult_le_0_compat; [lra|apply Qabs_nonneg]). lra.
Qed.
Lemma iterations_near : forall o ms l, 0 <= reltol o -> 0 <= abstol o -> roundofftol o == 0 -> tracks o l -> ms <> [] ->
  let l' := fold_left (iteration o) ms l in nearly o (s_f l') (if0 l') /\ nearly o (s_r l') (ir0 l').
Proof.
  intros o ms l R A Z T N.
  destruct (exists_last N) as (ms' & m & ->). rewrite fold_left_app. cbn [fold_left].
  pose proof (iterations_track o ms' l T Z) as [T1 T2]. set (l1 := fold_left (iteration o) ms' l) in *. clearbody l1. clear - R A Z T1 T2.
  assert (D : s_f (tr_load o true l1) == if0 l1 /\ s_r (tr_load o true l1) == ir0 l1).
  { cbn. rewrite !dn_diff_zero by exact Z. split; lra. }
  assert (D' : nearly o (s_f (tr_load o true l1)) (if0 (tr_load o true l1)) /\ nearly o (s_r (tr_load o true l1)) (ir0 (tr_load o true l1))).
  { split; apply nearly_same; try assumption; apply D. }
  destruct m; cbn [iteration].
  - split; apply nearly_same; try assumption; reflexivity.
  - exact D'.
  - destruct (queued o l1) eqn:Q; [exact D'|]. unfold queued in Q. apply orb_false_iff in Q as [Q1 Q2].
    apply negb_false_iff in Q1, Q2. unfold conchk in Q1, Q2. 
    destruct (qleb_spec (Qabs (if1 l1 - if0 l1)) (reltol o * (1#100) * Qabs (if1 l1) + abstol o)) as [L1|]; [|discriminate].
    destruct (qleb_spec (Qabs (ir1 l1 - ir0 l1)) (reltol o * (1#100) * Qabs (ir1 l1) + abstol o)) as [L2|]; [|discriminate].
    unfold nearly. rewrite T1, T2. auto.
Qed.

(* ---------------------------------------------------------------- a step *)
(* the line holds what was sent: A from the IN port, B from the OUT port *)
Definition holds (p : params) (A B : list (Q * Q)) (l : line) : Prop :=
  forward l = mk_wave (map (shift (td p)) A) (td p) /\ reflect l = mk_wave (map (shift (td p)) B) (td p).
Definition ready (A : list (Q * Q)) (s : Q) : Prop := sorted A /\ (2 <= length A)%nat /\ inside A s.

Lemma advance_ok : forall p A B l t, holds p A B l -> ready A (t - td p) -> ready B (t - td p) ->
  exists l', advance p t l = Val l' /\ holds p A B l' /\ if1 l' = if1 l /\ ir1 l' = ir1 l /\ s_f l' = s_f l /\ s_r l' = s_r l /\
    exists ya yb, Delayed A (t - td p) ya /\ Delayed B (t - td p) yb /\ if0 l' = ya / z0 p /\ ir0 l' = yb / z0 p.
Proof.
  intros p A B l t (HF & HR) (SA & NA & IA) (SB & NB & IB). unfold advance. rewrite HF, HR.
  destruct (v_out_ok (td p) A t SA NA IA) as (f & EF & DF). destruct (v_out_ok (td p) B t SB NB IB) as (r & ER & DR).
  rewrite EF, ER. eexists. split; [reflexivity|]. cbn. unfold holds. cbn. rewrite <- ?HF, <- ?HR.
  repeat split; auto. exists (f0 f), (f0 r). auto.
Qed.

Lemma push_shift : forall d S t v, wave_push (mk_wave (map (shift d) S) d) t v = mk_wave (map (shift d) (S ++ [(t, v)])) d.
Proof. intros. unfold wave_push. cbn. now rewrite map_app. Qed.

(* one more sample, at a time t after which the last one comes out *)
Lemma ready_push : forall S t v d, 0 < d -> ready S (t - d) -> key S (length S - 1) <= t -> ready (S ++ [(t, v)]) (t - d).
Proof.
  intros S t v d Hd (A & B & I0 & I1 & I2) L. split; [apply sorted_snoc; [exact A|lia|exact L]|].
  split; [rewrite app_length; lia|]. unfold inside. rewrite app_length. cbn [length].
  replace (length S + 1 - 1)%nat with (length S) by lia. rewrite key_snoc. cbn [fst]. rewrite key_app_l by lia.
  split; [exact I0|]. split; [lra|]. left. lra.
Qed.

Lemma reflect_ok : forall tol d S t v, 0 <= tol -> ready S (t - d) ->
  exists x y, v_reflect tol (mk_wave (map (shift d) S) d) t v = Val x /\ Delayed S (t - d) y /\
    Qabs (x - (2 * v - y)) <= tol * Qabs (2 * v).
Proof.
  intros tol d S t v T (A & B & I). destruct (v_out_ok d S t A B I) as (f & E & D). unfold v_reflect. rewrite E.
  exists (dn_diff tol (v * 2) (f0 f)), (f0 f). split; [reflexivity|]. split; [exact D|].
  destruct (dn_diff_near tol (v * 2) (f0 f)) as [H|H]; [|lra].
  setoid_replace (2 * v - f0 f) with (v * 2 - f0 f) by ring. setoid_replace (2 * v) with (v * 2) by ring. exact H.
Qed.

Lemma accept_ok : forall p o A B l t v1 v2, 0 < td p -> 0 <= roundofftol o -> holds p A B l -> ready A (t - td p) -> ready B (t - td p) ->
  key A (length A - 1) <= t -> key B (length B - 1) <= t ->
  exists l' a b ya yb, tr_accept p o t v1 v2 l = Val l' /\ holds p (A ++ [(t, a)]) (B ++ [(t, b)]) l' /\
    if1 l' = if1 l /\ ir1 l' = ir1 l /\ s_f l' = s_f l /\ s_r l' = s_r l /\
    Delayed A (t - td p) ya /\ Delayed B (t - td p) yb /\
    Qabs (a - (2 * v1 - yb)) <= roundofftol o * Qabs (2 * v1) /\ Qabs (b - (2 * v2 - ya)) <= roundofftol o * Qabs (2 * v2).
Proof.
  intros p o A B l t v1 v2 Hd Ho (HF & HR) RA RB LA LB. unfold tr_accept. rewrite HF, HR.
  destruct (reflect_ok (roundofftol o) (td p) A t v2 Ho RA) as (b & ya & E1 & D1 & N1). rewrite E1, push_shift.
  pose proof (ready_push B t b (td p) Hd RB LB) as RB'.
  destruct (reflect_ok (roundofftol o) (td p) (B ++ [(t, b)]) t v1 Ho RB') as (a & yb & E2 & D2 & N2). rewrite E2, push_shift.
  assert (exists y, Delayed B (t - td p) y) as (y & DY).
  { destruct RB as (R1 & R2 & R3). destruct (v_out_ok (td p) B t R1 R2 R3) as (f & _ & D). eauto. }
  assert (YE : yb == y).
  { apply (Delayed_unique (B ++ [(t, b)]) (t - td p)); [apply RB'|exact D2|]. apply Delayed_more; [cbn; lra|exact DY]. }
  exists (Line (mk_wave (map (shift (td p)) (A ++ [(t, a)])) (td p)) (mk_wave (map (shift (td p)) (B ++ [(t, b)])) (td p))
            (if0 l) (ir0 l) (if1 l) (ir1 l) (s_f l) (s_r l)), a, b, ya, y.
  split; [reflexivity|]. split; [split; reflexivity|]. repeat split; auto. rewrite <- YE. exact N2.
Qed.

(* where the next time may be *)
Definition within (p : params) (A : list (Q * Q)) (t : Q) : Prop :=
  key A (length A - 1) <= t /\ ready A (t - td p).

Lemma try_ok : forall p o A B l a, holds p A B l -> tracks o l -> ready A (at_t a - td p) -> ready B (at_t a - td p) ->
  exists l', try p o l a = Val l' /\ holds p A B l' /\ tracks o l' /\
    (exists ya yb, Delayed A (at_t a - td p) ya /\ Delayed B (at_t a - td p) yb /\ if0 l' = ya / z0 p /\ ir0 l' = yb / z0 p) /\
    (In Full (at_modes a) -> s_f l' == if0 l' /\ s_r l' == ir0 l') /\
    (0 <= reltol o -> 0 <= abstol o -> roundofftol o == 0 -> at_modes a <> [] -> nearly o (s_f l') (if0 l') /\ nearly o (s_r l') (ir0 l')).
Proof.
  intros p o A B l a H T RA RB. unfold try.
  destruct (advance_ok p A B l (at_t a) H RA RB) as (l1 & E & H1 & P1 & P2 & P3 & P4 & ya & yb & D1 & D2 & F1 & F2). rewrite E.
  destruct (iterations_keep o (at_modes a) l1) as (K1 & K2 & K3 & K4).
  assert (T1 : tracks o l1) by (intros Z; rewrite P1, P2, P3, P4; exact (T Z)).
  eexists. split; [reflexivity|]. split; [unfold holds; rewrite K1, K2; exact H1|]. split; [now apply iterations_track|].
  split; [exists ya, yb; rewrite K3, K4; auto|]. split.
  - intros F. destruct (exactly_iterations o (at_modes a) l1 (or_introl F)) as (X1 & X2 & _). auto.
  - intros R Ab Z N. now apply iterations_near.
Qed.

Lemma tries_ok : forall p o A B aa l, holds p A B l -> tracks o l ->
  Forall (fun a => ready A (at_t a - td p) /\ ready B (at_t a - td p)) aa ->
  exists l', try_all p o l aa = Val l' /\ holds p A B l' /\ tracks o l'.
Proof.
  intros p o A B aa. induction aa as [|a r IH]; intros l H T F; cbn [try_all]; [eauto|].
  inversion F as [|x y [R1 R2] F']; subst. destruct (try_ok p o A B l a H T R1 R2) as (l1 & E & H1 & T1 & _). rewrite E. now apply IH.
Qed.
Lemma try_all_app : forall p o aa bb l, try_all p o l (aa ++ bb) = match try_all p o l aa with Val l1 => try_all p o l1 bb | Throw => Throw | UB => UB end.
Proof. intros p o aa. induction aa as [|a r IH]; intros bb l; cbn; [reflexivity|]. destruct (try p o l a); auto. Qed.
Lemma try_all_one : forall p o l a, try_all p o l [a] = try p o l a.
Proof. intros. cbn. now destruct (try p o l a). Qed.

(* ---------------------------------------------------------------- a run *)
(* the step reloads the sources *)
Definition reloads (o : tols) (s : step) : Prop :=
  In Full (at_modes (st_at s)) \/ (roundofftol o == 0 /\ at_modes (st_at s) <> []).
(* what may be missing in a source of value x: nothing when everything was loaded *)
Definition missing (o : tols) (s : step) (x : Q) : Q :=
  if existsb (fun m => match m with Full => true | _ => false end) (at_modes (st_at s)) then 0 else reltol o * (1#100) * Qabs x + abstol o.

(* every attempt of a step is at an allowed time *)
Definition allowed (p : params) (A B : list (Q * Q)) (s : step) : Prop :=
  Forall (fun a => within p A (at_t a) /\ within p B (at_t a)) (st_tried s ++ [st_at s]).

Definition follows (p : params) (o : tols) (A B : list (Q * Q)) (s : step) (l : line) (a b : Q) : Prop :=
  exists ya yb,
    Delayed A (at_t (st_at s) - td p) ya /\ Delayed B (at_t (st_at s) - td p) yb /\
    Qabs (s_f l - ya / z0 p) <= missing o s (s_f l) /\ Qabs (s_r l - yb / z0 p) <= missing o s (s_r l) /\
    Qabs (a - (2 * st_in s - yb)) <= roundofftol o * Qabs (2 * st_in s) /\
    Qabs (b - (2 * st_out s - ya)) <= roundofftol o * Qabs (2 * st_out s).

Lemma step_ok : forall p o A B l s, 0 < td p -> 0 <= roundofftol o -> 0 <= reltol o -> 0 <= abstol o ->
  holds p A B l -> tracks o l -> allowed p A B s -> reloads o s ->
  exists l2 l3 a b, try_all p o l (st_tried s ++ [st_at s]) = Val l2 /\ tr_accept p o (at_t (st_at s)) (st_in s) (st_out s) l2 = Val l3 /\
    holds p (A ++ [(at_t (st_at s), a)]) (B ++ [(at_t (st_at s), b)]) l3 /\ tracks o l3 /\ follows p o A B s l2 a b.
Proof.
  intros p o A B l s Hd Ho Hr Ha H T AL RL. unfold allowed in AL. apply Forall_app in AL as [AL1 AL2].
  inversion AL2 as [|x y [[W1 W2] [W3 W4]] _]; subst x y.
  destruct (tries_ok p o A B (st_tried s) l H T) as (l1 & E1 & H1 & T1).
  { eapply Forall_impl; [|exact AL1]. cbn. intros a [[_ X] [_ Y]]. auto. }
  destruct (try_ok p o A B l1 (st_at s) H1 T1 W2 W4) as (l2 & E2 & H2 & T2 & (ya & yb & D1 & D2 & F1 & F2) & X1 & X2).
  rewrite try_all_app, E1, try_all_one.
  destruct (accept_ok p o A B l2 (at_t (st_at s)) (st_in s) (st_out s) Hd Ho H2 W2 W4 W1 W3)
    as (l3 & a & b & ya' & yb' & E3 & H3 & P1 & P2 & P3 & P4 & D1' & D2' & N1 & N2).
  exists l2, l3, a, b. split; [exact E2|]. split; [exact E3|]. split; [exact H3|].
  split; [intros Z; rewrite P1, P2, P3, P4; exact (T2 Z)|].
  exists ya, yb. split; [exact D1|]. split; [exact D2|].
  pose proof (Delayed_unique A _ _ _ (proj1 W2) D1 D1') as U1. pose proof (Delayed_unique B _ _ _ (proj1 W4) D2 D2') as U2.
  rewrite U1, U2. rewrite F1, F2 in X1, X2.
  assert (M : Qabs (s_f l2 - ya' / z0 p) <= missing o s (s_f l2) /\ Qabs (s_r l2 - yb' / z0 p) <= missing o s (s_r l2)).
  { unfold missing. destruct (existsb _ (at_modes (st_at s))) eqn:EX.
    - apply existsb_exists in EX as (m & IM & EM). destruct m; try discriminate. destruct (X1 IM) as [Y1 Y2]. rewrite U1 in Y1. rewrite U2 in Y2.
      split; [setoid_replace (s_f l2 - ya' / z0 p) with 0 by lra|setoid_replace (s_r l2 - yb' / z0 p) with 0 by lra]; discriminate.
    - destruct RL as [RL|[Z RL]].
      + exfalso. assert (existsb (fun m => match m with Full => true | _ => false end) (at_modes (st_at s)) = true); [|congruence].
        apply existsb_exists. exists Full. auto.
      + destruct (X2 Hr Ha Z RL) as [Y1 Y2]. unfold nearly in Y1, Y2. rewrite U1 in Y1. rewrite U2 in Y2. auto. }
  destruct M as [M1 M2]. auto.
Qed.

(* the times of the steps, from a last sample at T; fine: the last two samples are at different times *)
Fixpoint chain (p : params) (T : Q) (fine : Prop) (ss : list step) : Prop :=
  match ss with
  | [] => True
  | s :: r =>
      Forall (fun a => T <= at_t a /\ at_t a <= T + td p /\ (at_t a < T + td p \/ fine)) (st_tried s ++ [st_at s]) /\
      chain p (at_t (st_at s)) (T < at_t (st_at s)) r
  end.

Definition sent_until (p : params) (A : list (Q * Q)) (T : Q) (fine : Prop) : Prop :=
  sorted A /\ (2 <= length A)%nat /\ key A 0 == - td p /\ key A (length A - 1) == T /\ 0 <= T /\
  (fine -> key A (length A - 2) < key A (length A - 1)).

Lemma sent_within : forall p A T (fine : Prop) t, sent_until p A T fine -> T <= t -> t <= T + td p -> (t < T + td p \/ fine) ->
  within p A t.
Proof.
  intros p A T fine t (S1 & S2 & S3 & S4 & S5 & S6) H1 H2 H3. split; [lra|].
  split; [exact S1|]. split; [exact S2|]. split; [lra|]. split; [lra|].
  destruct H3 as [H3|H3]; [left; lra|right; auto].
Qed.

Lemma sent_push : forall p A T fine t v, sent_until p A T fine -> T <= t -> sent_until p (A ++ [(t, v)]) t (T < t).
Proof.
  intros p A T fine t v (S1 & S2 & S3 & S4 & S5 & S6) H. unfold sent_until. rewrite app_length. cbn [length].
  replace (length A + 1 - 1)%nat with (length A) by lia. replace (length A + 1 - 2)%nat with (length A - 1)%nat by lia.
  rewrite key_snoc, !key_app_l by lia. cbn [fst].
  split; [apply sorted_snoc; [exact S1|lia|cbn; lra]|]. split; [lia|]. split; [exact S3|]. split; [reflexivity|].
  split; [lra|]. intros L. lra.
Qed.

Lemma run_ok : forall p o, 0 < td p -> 0 <= roundofftol o -> 0 <= reltol o -> 0 <= abstol o ->
  forall ss A B l T fine, holds p A B l -> tracks o l -> sent_until p A T fine -> sent_until p B T fine ->
  chain p T fine ss -> Forall (reloads o) ss ->
  exists ls e A' B', run p o l ss = Val (ls, e) /\ length ls = length ss /\ length A' = length ss /\ length B' = length ss /\
    forall n s l', nth_error ss n = Some s -> nth_error ls n = Some l' ->
      exists a b, nth_error A' n = Some (at_t (st_at s), a) /\ nth_error B' n = Some (at_t (st_at s), b) /\
        follows p o (A ++ firstn n A') (B ++ firstn n B') s l' a b.
Proof.
  intros p o Hd Ho Hr Ha ss. induction ss as [|s r IH]; intros A B l T fine H TR SA SB CH RL.
  - exists [], l, [], []. cbn. repeat split; auto. intros n s l' E. destruct n; discriminate.
  - cbn [chain] in CH. destruct CH as [CH1 CH2]. inversion RL as [|x y RL1 RL2]; subst x y.
    assert (AL : allowed p A B s).
    { unfold allowed. eapply Forall_impl; [|exact CH1]. cbn. intros a (X1 & X2 & X3). split; eapply sent_within; eauto. }
    destruct (step_ok p o A B l s Hd Ho Hr Ha H TR AL RL1) as (l2 & l3 & a & b & E1 & E2 & H3 & TR3 & F).
    assert (TT : T <= at_t (st_at s)).
    { apply Forall_app in CH1 as [_ CH1]. inversion CH1 as [|x y (X & _) _]; exact X. }
    destruct (IH _ _ l3 _ _ H3 TR3 (sent_push p A T fine _ a SA TT) (sent_push p B T fine _ b SB TT) CH2 RL2)
      as (ls & e & A' & B' & E & L1 & L2 & L3 & N).
    exists (l2 :: ls), e, ((at_t (st_at s), a) :: A'), ((at_t (st_at s), b) :: B').
    cbn [run]. rewrite E1, E2, E. split; [reflexivity|]. cbn [length]. split; [congruence|]. split; [congruence|]. split; [congruence|].
    intros n s' l' N1 N2. destruct n as [|n].
    + cbn in N1, N2. injection N1 as <-. injection N2 as <-. exists a, b. cbn. rewrite !app_nil_r. auto.
    + cbn [nth_error] in N1, N2. destruct (N n s' l' N1 N2) as (a' & b' & M1 & M2 & F'). exists a', b'.
      cbn [nth_error firstn]. split; [exact M1|]. split; [exact M2|]. rewrite <- !app_assoc in F'. exact F'.
Qed.

(* the same waves, other fractions *)
Lemma Delayed_ext : forall S S' s y, length S = length S' ->
  (forall i a b, nth_error S i = Some a -> nth_error S' i = Some b -> fst a = fst b /\ snd a == snd b) ->
  Delayed S s y -> Delayed S' s y.
Proof.
  intros S S' s y L H [(i & a & b & A & B & L1 & L2 & E)|(S1 & a & ES & L1 & E)].
  - left. destruct (nth_error S' i) as [a'|] eqn:A'; [|apply nth_error_None in A'; assert (i < length S)%nat by (apply nth_error_Some; congruence); lia].
    destruct (nth_error S' (Datatypes.S i)) as [b'|] eqn:B'; [|apply nth_error_None in B'; assert (Datatypes.S i < length S)%nat by (apply nth_error_Some; congruence); lia].
    destruct (H _ _ _ A A') as [F1 F2]. destruct (H _ _ _ B B') as [G1 G2].
    exists i, a', b'. rewrite <- F1, <- G1, <- F2, <- G2. auto.
  - right. subst S. destruct (exists_last (l := S')) as (S2 & a' & ->); [destruct S'; [rewrite app_length in L; cbn in L; lia|discriminate]|].
    rewrite !app_length in L. cbn in L. assert (length S1 = length S2) by lia.
    destruct (H (length S1) a a') as [F1 F2]; [rewrite nth_error_app2, Nat.sub_diag by lia; reflexivity| |].
    { rewrite nth_error_app2 by lia. now replace (length S1 - length S2)%nat with O by lia. }
    exists S2, a'. rewrite <- F1, <- F2. auto.
Qed.

(* nothing but zero was sent before time 0 *)
Lemma Delayed_before : forall d S s y, 0 < d -> sorted ([(0 - d, 0); (0, 0)] ++ S) -> s < 0 -> Delayed ([(0 - d, 0); (0, 0)] ++ S) s y -> y == 0.
Proof.
  intros d S s y Hd Hs L [(i & a & b & A & B & L1 & L2 & E)|(S1 & a & ES & L1 & E)].
  - destruct i as [|i].
    + cbn in A, B. injection A as <-. injection B as <-. rewrite E. cbn. field. lra.
    + exfalso. assert (I : (Datatypes.S i < length ([((0 - d)%Q, 0%Q); (0%Q, 0%Q)] ++ S))%nat) by (apply nth_error_Some; rewrite A; discriminate).
      pose proof (Hs 1%nat (Datatypes.S i) ltac:(lia) I) as M.
      replace (key ([(0 - d, 0); (0, 0)] ++ S) 1) with 0 in M by reflexivity.
      unfold key in M. rewrite (nth_error_nth _ _ (0, 0) A) in M. lra.
  - exfalso. assert (I : (length S1 < length ([((0 - d)%Q, 0%Q); (0%Q, 0%Q)] ++ S))%nat) by (rewrite ES, app_length; cbn; lia).
    assert (I1 : (1 <= length S1)%nat).
    { assert (length ([((0 - d)%Q, 0%Q); (0%Q, 0%Q)] ++ S) = length (S1 ++ [a])) as X by congruence. rewrite !app_length in X. cbn in X. lia. }
    pose proof (Hs 1%nat (length S1) I1 I) as M.
    replace (key ([(0 - d, 0); (0, 0)] ++ S) 1) with 0 in M by reflexivity.
    rewrite ES, key_snoc in M. lra.
Qed.
