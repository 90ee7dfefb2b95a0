(* C71: the transmission line in transient analysis *)
Require Import ZArith QArith Qabs Lqa Lia List Bool.
Require Import Verif.Qnum Verif.Interp_Model Verif.Interp_Proofs Verif.Trln_Model Verif.Trln_Proofs.
Import ListNotations.
Local Open Scope Q_scope.

(* ---------------------------------------------------------------- what a user sees *)
(* the time of a step, and the currents into the line at its two ports (for one device): through z0, less the source *)
Definition time (s : step) : Q := at_t (st_at s).
Definition i_in (p : params) (s : step) (l : line) : Q := st_in s / z0 p - s_r l.
Definition i_out (p : params) (s : step) (l : line) : Q := st_out s / z0 p - s_f l.

(* the sum of the matrix entries of row r times the voltages of their columns: the current out of node r *)
Definition row_current (E : entries Q) (v : nat -> Q) (r : nat) : Q :=
  fold_right (fun e x => (if Nat.eqb (fst (fst e)) r then snd e * v (snd (fst e)) else 0) + x) 0 E.
(* +x at a, -x at b *)
Definition at_nodes (a b : nat) (x : Q) (r : nat) : Q := (if Nat.eqb r a then x else 0) - (if Nat.eqb r b then x else 0).

(* the times: the first step is at 0; every later attempt is after the step before, by no more than the delay;
   the second step, and all that was tried for it, is before the delay *)
Definition good_times (p : params) (ss : list step) : Prop :=
  (forall s a, nth_error ss 0 = Some s -> In a (st_tried s ++ [st_at s]) -> at_t a == 0) /\
  (forall n s s' a, nth_error ss n = Some s -> nth_error ss (S n) = Some s' -> In a (st_tried s' ++ [st_at s']) ->
     time s < at_t a /\ at_t a <= tr_review p (time s)) /\
  (forall s a, nth_error ss 1 = Some s -> In a (st_tried s ++ [st_at s]) -> at_t a < td p).

(* ---------------------------------------------------------------- lemmas *)
Lemma row_app : forall E F v r, row_current (E ++ F) v r == row_current E v r + row_current F v r.
Proof.
  intros E F v r. induction E as [|e E IH]; [unfold row_current at 2; cbn [fold_right app]; lra|].
  unfold row_current in *. cbn [app fold_right]. rewrite IH. lra.
Qed.

Lemma row_symmetric : forall i j y v r, v O == 0 -> r <> O ->
  row_current (load_symmetric Qopp i j y) v r == at_nodes i j (y * (v i - v j)) r.
Proof.
  intros i j y v r V R. unfold load_symmetric, at_nodes.
  destruct j as [|j]; destruct i as [|i]; cbn [Nat.ltb Nat.leb row_current fold_right fst snd]; destruct r as [|r]; try congruence.
  - ring.
  - rewrite (Nat.eqb_sym (S r) (S i)). destruct (Nat.eqb (S i) (S r)); cbn [Nat.eqb]; rewrite ?V; ring.
  - rewrite (Nat.eqb_sym (S r) (S j)). destruct (Nat.eqb (S j) (S r)); cbn [Nat.eqb]; rewrite ?V; ring.
  - rewrite (Nat.eqb_sym (S r) (S i)), (Nat.eqb_sym (S r) (S j)).
    destruct (Nat.eqb (S j) (S r)), (Nat.eqb (S i) (S r)); ring.
Qed.

Lemma chain_from : forall p ss T (fine : Prop), fine ->
  (forall s a, nth_error ss 0 = Some s -> In a (st_tried s ++ [st_at s]) -> T <= at_t a /\ at_t a <= T + td p) ->
  (forall n s s' a, nth_error ss n = Some s -> nth_error ss (S n) = Some s' -> In a (st_tried s' ++ [st_at s']) ->
     time s < at_t a /\ at_t a <= tr_review p (time s)) ->
  (forall s, nth_error ss 0 = Some s -> T < time s) ->
  chain p T fine ss.
Proof.
  intros p ss. induction ss as [|s r IH]; intros T fine F H0 H1 H2; cbn [chain]; [exact I|]. split.
  - apply Forall_forall. intros a IA. destruct (H0 s a eq_refl IA). auto.
  - apply IH.
    + exact (H2 s eq_refl).
    + intros s' a E IA. destruct (H1 O s s' a eq_refl E IA) as [X Y]. unfold tr_review in Y. unfold time in *. lra.
    + intros n s1 s2 a E1 E2 IA. exact (H1 (S n) s1 s2 a E1 E2 IA).
    + intros s' E. apply (H1 O s s' (st_at s') eq_refl E). apply in_or_app. right. now left.
Qed.

Lemma good_chain : forall p ss, 0 < td p -> good_times p ss -> chain p 0 True ss.
Proof.
  intros p ss Hd (G0 & G1 & G2). destruct ss as [|s r]; cbn [chain]; [exact I|]. split.
  - apply Forall_forall. intros a IA. pose proof (G0 s a eq_refl IA). split; [lra|]. split; [lra|now right].
  - assert (T0 : at_t (st_at s) == 0) by (apply (G0 s (st_at s) eq_refl); apply in_or_app; right; now left).
    destruct r as [|s1 r]; cbn [chain]; [exact I|]. 
    assert (IN : In (st_at s1) (st_tried s1 ++ [st_at s1])) by (apply in_or_app; right; now left).
    split.
    + apply Forall_forall. intros a IA. destruct (G1 O s s1 a eq_refl eq_refl IA) as [X Y]. unfold tr_review, time in *.
      pose proof (G2 s1 a eq_refl IA). split; [lra|]. split; [lra|left; lra].
    + destruct (G1 O s s1 _ eq_refl eq_refl IN) as [X Y]. apply chain_from.
      * exact X.
      * intros s' a E IA. destruct (G1 1%nat s1 s' a eq_refl E IA) as [X' Y']. unfold tr_review, time in *. lra.
      * intros n a1 a2 a E1 E2 IA. exact (G1 (S (S n)) a1 a2 a E1 E2 IA).
      * intros s' E. apply (G1 1%nat s1 s' (st_at s') eq_refl E). apply in_or_app. right. now left.
Qed.

Lemma empty_sent : forall p, 0 < td p -> sent_until p [(0 - td p, 0); (0, 0)] 0 True.
Proof.
  intros p Hd. unfold sent_until, key. cbn. split.
  - intros i j Hij Hj. unfold key. cbn in Hj. destruct i as [|[|i]], j as [|[|j]]; try lia; cbn; lra.
  - repeat split; try lia; try lra.
Qed.

(* ---------------------------------------------------------------- theorems *)

(* the line is two ports: what the matrix and the right hand side of a solved circuit take out of each node is the
   port current, times the number of devices in parallel, at one node, and its opposite at the other *)
Theorem C71_ports : forall p n l (v : nat -> Q) r, v O == 0 -> r <> O ->
  row_current (tr_matrix p n) v r - tr_rhs p n l r ==
    at_nodes (out1 n) (out2 n) (mfactor p * ((v (out1 n) - v (out2 n)) / z0 p - s_f l)) r +
    at_nodes (in1 n) (in2 n) (mfactor p * ((v (in1 n) - v (in2 n)) / z0 p - s_r l)) r.
Proof.
  intros p n l v r V R. unfold tr_matrix. rewrite row_app, !row_symmetric by assumption.
  unfold tr_rhs, at_nodes. destruct (Nat.eqb_spec r 0); [congruence|]. unfold Qdiv.
  destruct (Nat.eqb r (out1 n)), (Nat.eqb r (out2 n)), (Nat.eqb r (in1 n)), (Nat.eqb r (in2 n)); ring.
Qed.

(* the simulation runs, and at every accepted step each port receives, within the tolerances, the wave v + z0 i that
   entered the other port one delay before *)
Theorem C71_line : forall p o ss, 0 < td p -> 0 < z0 p -> 0 <= roundofftol o -> 0 <= reltol o -> 0 <= abstol o ->
  good_times p ss -> Forall (reloads o) ss ->
  exists ls e A B, run p o (tr_begin p) ss = Val (ls, e) /\ length ls = length ss /\ length A = length ss /\ length B = length ss /\
    forall n s l, nth_error ss n = Some s -> nth_error ls n = Some l ->
      exists a b ya yb, nth_error A n = Some (time s, a) /\ nth_error B n = Some (time s, b) /\
        Qabs (a - (st_in s + z0 p * i_in p s l)) <= roundofftol o * Qabs (2 * st_in s) + z0 p * missing o s (s_r l) /\
        Qabs (b - (st_out s + z0 p * i_out p s l)) <= roundofftol o * Qabs (2 * st_out s) + z0 p * missing o s (s_f l) /\
        Delayed ([(0 - td p, 0); (0, 0)] ++ firstn n A) (time s - td p) ya /\
        Delayed ([(0 - td p, 0); (0, 0)] ++ firstn n B) (time s - td p) yb /\
        Qabs (st_out s - z0 p * i_out p s l - ya) <= z0 p * missing o s (s_f l) /\
        Qabs (st_in s - z0 p * i_in p s l - yb) <= z0 p * missing o s (s_r l).
Proof.
  intros p o ss Hd Hz Ho Hr Ha G R.
  assert (H : holds p [(0 - td p, 0); (0, 0)] [(0 - td p, 0); (0, 0)] (tr_begin p)) by (split; reflexivity).
  assert (T : tracks o (tr_begin p)) by (intros _; split; reflexivity).
  destruct (run_ok p o Hd Ho Hr Ha ss _ _ _ 0 True H T (empty_sent p Hd) (empty_sent p Hd) (good_chain p ss Hd G) R)
    as (ls & e & A & B & E & L1 & L2 & L3 & N).
  exists ls, e, A, B. split; [exact E|]. split; [exact L1|]. split; [exact L2|]. split; [exact L3|].
  intros n s l E1 E2. destruct (N n s l E1 E2) as (a & b & NA & NB & ya & yb & D1 & D2 & M1 & M2 & W1 & W2).
  exists a, b, ya, yb. split; [exact NA|]. split; [exact NB|].
  assert (Z : forall x y m, Qabs (x - y / z0 p) <= m -> - (z0 p * m) <= z0 p * x - y /\ z0 p * x - y <= z0 p * m).
  { intros x y m M. apply Qabs_le in M as [Ml Mu].
    assert (EQ : z0 p * x - y == z0 p * (x - y / z0 p)) by (field; lra).
    pose proof (Qmult_le_compat_r _ _ (z0 p) Ml ltac:(lra)). pose proof (Qmult_le_compat_r _ _ (z0 p) Mu ltac:(lra)). rewrite EQ. lra. }
  pose proof (Z _ _ _ M1) as [Z1 Z2]. pose proof (Z _ _ _ M2) as [Z3 Z4].
  assert (EI : z0 p * i_in p s l == st_in s - z0 p * s_r l) by (unfold i_in; field; lra).
  assert (EO : z0 p * i_out p s l == st_out s - z0 p * s_f l) by (unfold i_out; field; lra).
  apply Qabs_le in W1 as [W1l W1u]. apply Qabs_le in W2 as [W2l W2u].
  split; [apply Qabs_le; rewrite EI; lra|]. split; [apply Qabs_le; rewrite EO; lra|].
  split; [exact D1|]. split; [exact D2|].
  split; apply Qabs_le; rewrite ?EI, ?EO; lra.
Qed.

(* the waves that entered the two ports, computed from what a user sees *)
Definition waves_in (p : params) (ss : list step) (ls : list line) : list (Q * Q) :=
  map (fun sl => (time (fst sl), st_in (fst sl) + z0 p * i_in p (fst sl) (snd sl))) (combine ss ls).
Definition waves_out (p : params) (ss : list step) (ls : list line) : list (Q * Q) :=
  map (fun sl => (time (fst sl), st_out (fst sl) + z0 p * i_out p (fst sl) (snd sl))) (combine ss ls).

Lemma nth_waves : forall (f : step * line -> Q * Q) ss ls n s l, nth_error ss n = Some s -> nth_error ls n = Some l ->
  nth_error (map f (combine ss ls)) n = Some (f (s, l)).
Proof.
  intros f ss. induction ss as [|x r IH]; intros ls n s l H1 H2; [destruct n; discriminate|].
  destruct ls as [|y q]; [destruct n; discriminate|]. destruct n as [|n]; cbn in *; [congruence|]. now apply IH.
Qed.

Lemma nth_firstn : forall {T} (l : list T) n i, (i < n)%nat -> nth_error (firstn n l) i = nth_error l i.
Proof. intros T l. induction l as [|x r IH]; intros n i H; destruct n, i; cbn; try lia; auto. apply IH. lia. Qed.

Lemma waves_match : forall A W (P : list (Q * Q)) n, length A = length W ->
  (forall i a b, nth_error A i = Some a -> nth_error W i = Some b -> fst a = fst b /\ snd a == snd b) ->
  forall s y, Delayed (P ++ firstn n A) s y -> Delayed (P ++ firstn n W) s y.
Proof.
  intros A W P n L H s y. apply Delayed_ext; [rewrite !app_length, !firstn_length; congruence|].
  intros i a b E1 E2. destruct (le_lt_dec (length P) i) as [G|G].
  - rewrite nth_error_app2 in E1, E2 by lia.
    assert (i - length P < n)%nat.
    { assert (i - length P < length (firstn n A))%nat by (apply nth_error_Some; congruence). rewrite firstn_length in *. lia. }
    rewrite nth_firstn in E1, E2 by assumption. exact (H _ _ _ E1 E2).
  - rewrite nth_error_app1 in E1, E2 by lia. rewrite E1 in E2. injection E2 as <-. split; reflexivity.
Qed.

(* when nothing is rounded away and every accepted step was loaded in full, exactly *)
Theorem C71_line_exact : forall p o ss, 0 < td p -> 0 < z0 p -> roundofftol o == 0 -> 0 <= reltol o -> 0 <= abstol o ->
  good_times p ss -> Forall (fun s => In Full (at_modes (st_at s))) ss ->
  exists ls e, run p o (tr_begin p) ss = Val (ls, e) /\ length ls = length ss /\
    forall n s l, nth_error ss n = Some s -> nth_error ls n = Some l ->
      Delayed ([(0 - td p, 0); (0, 0)] ++ firstn n (waves_in p ss ls)) (time s - td p) (st_out s - z0 p * i_out p s l) /\
      Delayed ([(0 - td p, 0); (0, 0)] ++ firstn n (waves_out p ss ls)) (time s - td p) (st_in s - z0 p * i_in p s l).
Proof.
  intros p o ss Hd Hz Ho Hr Ha G R.
  destruct (C71_line p o ss Hd Hz ltac:(lra) Hr Ha G) as (ls & e & A & B & E & L1 & L2 & L3 & N).
  { eapply Forall_impl; [|exact R]. intros s X. now left. }
  exists ls, e. split; [exact E|]. split; [exact L1|].
  assert (MZ : forall s x, In s ss -> missing o s x == 0).
  { intros s x IS. rewrite Forall_forall in R. unfold missing.
    replace (existsb _ (at_modes (st_at s))) with true; [reflexivity|]. symmetry. apply existsb_exists. exists Full. split; [now apply R|reflexivity]. }
  assert (ABS : forall x, Qabs x <= 0 -> x == 0) by (intros x X; apply Qabs_le in X; lra).
  assert (K : forall n s l, nth_error ss n = Some s -> nth_error ls n = Some l ->
    exists a b ya yb, nth_error A n = Some (time s, a) /\ nth_error B n = Some (time s, b) /\
      a == st_in s + z0 p * i_in p s l /\ b == st_out s + z0 p * i_out p s l /\
      Delayed ([(0 - td p, 0); (0, 0)] ++ firstn n A) (time s - td p) ya /\
      Delayed ([(0 - td p, 0); (0, 0)] ++ firstn n B) (time s - td p) yb /\
      st_out s - z0 p * i_out p s l == ya /\ st_in s - z0 p * i_in p s l == yb).
  { intros n s l E1 E2. destruct (N n s l E1 E2) as (a & b & ya & yb & NA & NB & X1 & X2 & D1 & D2 & X3 & X4).
    exists a, b, ya, yb. rewrite !MZ, Ho in * by (eapply nth_error_In; eassumption).
    assert (Q1 : a - (st_in s + z0 p * i_in p s l) == 0) by (apply ABS; lra).
    assert (Q2 : b - (st_out s + z0 p * i_out p s l) == 0) by (apply ABS; lra).
    assert (Q3 : st_out s - z0 p * i_out p s l - ya == 0) by (apply ABS; lra).
    assert (Q4 : st_in s - z0 p * i_in p s l - yb == 0) by (apply ABS; lra).
    repeat split; try assumption; lra. }
  assert (LS : forall n, (n < length ss)%nat -> exists s l, nth_error ss n = Some s /\ nth_error ls n = Some l).
  { intros n L. destruct (nth_error ss n) eqn:E1; [|apply nth_error_None in E1; lia].
    destruct (nth_error ls n) eqn:E2; [|apply nth_error_None in E2; lia]. eauto. }
  intros n s l E1 E2. destruct (K n s l E1 E2) as (a & b & ya & yb & NA & NB & X1 & X2 & D1 & D2 & X3 & X4).
  assert (EXT : forall S t y y', y == y' -> Delayed S t y -> Delayed S t y').
  { intros S t y y' Y [(i & c & d & P1 & P2 & P3 & P4 & P5)|(S' & c & P1 & P2 & P3)].
    - left. exists i, c, d. rewrite <- Y. auto 6.
    - right. exists S', c. rewrite <- Y. auto. }
  split.
  - apply (EXT _ _ ya); [symmetry; exact X3|].
    apply (waves_match A); [unfold waves_in; rewrite map_length, combine_length; lia| |exact D1].
    intros i c d C1 C2. destruct (LS i) as (s' & l' & F1 & F2); [rewrite <- L2; apply nth_error_Some; congruence|].
    unfold waves_in in C2. rewrite (nth_waves _ ss ls i s' l' F1 F2) in C2. injection C2 as <-.
    destruct (K i s' l' F1 F2) as (a' & b' & _ & _ & NA' & _ & Y1 & _). rewrite NA' in C1. injection C1 as <-. cbn. auto.
  - apply (EXT _ _ yb); [symmetry; exact X4|].
    apply (waves_match B); [unfold waves_out; rewrite map_length, combine_length; lia| |exact D2].
    intros i c d C1 C2. destruct (LS i) as (s' & l' & F1 & F2); [rewrite <- L3; apply nth_error_Some; congruence|].
    unfold waves_out in C2. rewrite (nth_waves _ ss ls i s' l' F1 F2) in C2. injection C2 as <-.
    destruct (K i s' l' F1 F2) as (a' & b' & _ & _ & _ & NB' & _ & Y2 & _). rewrite NB' in C1. injection C1 as <-. cbn. auto.
Qed.

(* before the delay is over each port is just the resistance z0 *)
Theorem C71_quiet : forall p o ss ls e n s l, 0 < td p -> 0 < z0 p -> roundofftol o == 0 -> 0 <= reltol o -> 0 <= abstol o ->
  good_times p ss -> Forall (fun s => In Full (at_modes (st_at s))) ss ->
  run p o (tr_begin p) ss = Val (ls, e) -> nth_error ss n = Some s -> nth_error ls n = Some l -> time s < td p ->
  i_in p s l == st_in s / z0 p /\ i_out p s l == st_out s / z0 p.
Proof.
  intros p o ss ls e n s l Hd Hz Ho Hr Ha G R E E1 E2 L.
  destruct (C71_line_exact p o ss Hd Hz Ho Hr Ha G R) as (ls' & e' & E' & LL & N). rewrite E in E'. injection E' as <- <-.
  destruct (N n s l E1 E2) as [D1 D2].
  assert (TM : forall m k a b, (m <= k)%nat -> nth_error ss m = Some a -> nth_error ss k = Some b -> time a <= time b /\ 0 <= time a).
  { destruct G as (G0 & G1 & _).
    assert (IN : forall x : step, In (st_at x) (st_tried x ++ [st_at x])) by (intros x; apply in_or_app; right; now left).
    assert (POS : forall k b, nth_error ss k = Some b -> 0 <= time b).
    { induction k as [|k IH]; intros b Eb; [pose proof (G0 b (st_at b) Eb (IN b)); unfold time; lra|].
      destruct (nth_error ss k) as [c|] eqn:Ec; [|apply nth_error_None in Ec; assert (S k < length ss)%nat by (apply nth_error_Some; congruence); lia].
      pose proof (IH c eq_refl). destruct (G1 k c b (st_at b) Ec Eb (IN b)) as [X _]. unfold time in *. lra. }
    intros m k a b Hmk Ea Eb. split; [|eapply POS; eauto]. revert b Eb. induction Hmk as [|k Hmk IH]; intros b Eb; [replace b with a by congruence; lra|].
    destruct (nth_error ss k) as [c|] eqn:Ec; [|apply nth_error_None in Ec; assert (S k < length ss)%nat by (apply nth_error_Some; congruence); lia].
    pose proof (IH c eq_refl). destruct (G1 k c b (st_at b) Ec Eb (IN b)) as [X _]. unfold time in *. lra. }
  assert (SRT : forall (f : step * line -> Q), sorted ([(0 - td p, 0); (0, 0)] ++ firstn n (map (fun sl => (time (fst sl), f sl)) (combine ss ls)))).
  { intros f. set (W := map (fun sl => (time (fst sl), f sl)) (combine ss ls)).
    assert (KW : forall i, (i < length (firstn n W))%nat -> exists x, nth_error ss i = Some x /\ key ([(0 - td p, 0); (0, 0)] ++ firstn n W) (2 + i) = time x).
    { intros i Hi. rewrite firstn_length in Hi. assert (HW : length W = length ss) by (unfold W; rewrite map_length, combine_length; lia).
      destruct (nth_error ss i) as [x|] eqn:Ex; [|apply nth_error_None in Ex; lia].
      destruct (nth_error ls i) as [y|] eqn:Ey; [|apply nth_error_None in Ey; lia].
      exists x. split; [reflexivity|]. unfold key. cbn [app plus nth].
      rewrite (nth_error_nth _ i (0, 0) (x := (time x, f (x, y)))); [reflexivity|].
      rewrite nth_firstn by lia. unfold W. now rewrite (nth_waves _ ss ls i x y Ex Ey). }
    intros i j Hij Hj. rewrite app_length in Hj. cbn [length] in Hj.
    destruct j as [|[|j]].
    - replace i with O by lia. lra.
    - destruct i as [|[|i]]; [unfold key; cbn; lra|lra|lia].
    - change (S (S j)) with (2 + j)%nat. destruct (KW j ltac:(lia)) as (x & Ex & ->).
      destruct i as [|[|i]].
      + unfold key. cbn. destruct (TM j j x x (le_n j) Ex Ex). lra.
      + unfold key. cbn. destruct (TM j j x x (le_n j) Ex Ex). lra.
      + change (S (S i)) with (2 + i)%nat. destruct (KW i ltac:(lia)) as (y & Ey & ->). destruct (TM i j y x ltac:(lia) Ey Ex). lra. }
  assert (L0 : time s - td p < 0) by lra.
  pose proof (Delayed_before _ _ _ _ Hd (SRT _) L0 D1) as Y1.
  pose proof (Delayed_before _ _ _ _ Hd (SRT _) L0 D2) as Y2.
  assert (DIV : forall x i, x - z0 p * i == 0 -> i == x / z0 p).
  { intros x i X. assert (x == z0 p * i) by lra. rewrite H. field. lra. }
  split; apply DIV; assumption.
Qed.

(* ---------------------------------------------------------------- what does not hold *)

(* the step that the line itself allows after the operating point (time 0 plus the delay) stops the simulation *)
Theorem C71_first_step_refuted : exists p o s0 s1, 0 < td p /\ 0 < z0 p /\ roundofftol o == 0 /\ reltol o == 0 /\ abstol o == 0 /\
  time s0 == 0 /\ time s1 == tr_review p (time s0) /\ st_tried s0 = [] /\ st_tried s1 = [] /\
  at_modes (st_at s0) = [Full] /\ at_modes (st_at s1) = [Full] /\
  run p o (tr_begin p) [s0; s1] = Throw.
Proof.
  exists (Params 1 50 1), (Tols 0 0 0), (Step [] (Attempt 0 [Full]) 1 0), (Step [] (Attempt 1 [Full]) 1 0).
  cbn [td z0 roundofftol reltol abstol st_tried st_at at_modes]. unfold time, tr_review. cbn [at_t st_at td].
  repeat split; try reflexivity; lra.
Qed.

(* at the operating point the line is not a pair of wires: whatever the voltages are, each port is the resistance z0 *)
Theorem C71_operating_point : forall p o ms v1 v2 l, 0 < td p -> 0 < z0 p -> In Full ms ->
  try p o (tr_begin p) (Attempt 0 ms) = Val l ->
  i_in p (Step [] (Attempt 0 ms) v1 v2) l == v1 / z0 p /\ i_out p (Step [] (Attempt 0 ms) v1 v2) l == v2 / z0 p.
Proof.
  intros p o ms v1 v2 l Hd Hz F E.
  assert (H : holds p [(0 - td p, 0); (0, 0)] [(0 - td p, 0); (0, 0)] (tr_begin p)) by (split; reflexivity).
  assert (T : tracks o (tr_begin p)) by (intros _; split; reflexivity).
  assert (RD : ready [(0 - td p, 0); (0, 0)] (0 - td p)).
  { destruct (empty_sent p Hd) as (S1 & S2 & S3 & S4 & S5 & S6). split; [exact S1|]. split; [exact S2|].
    split; [lra|]. unfold key. cbn. split; lra. }
  destruct (try_ok p o _ _ (tr_begin p) (Attempt 0 ms) H T RD RD) as (l' & E' & _ & _ & (ya & yb & D1 & D2 & Z1 & Z2) & X & _).
  rewrite E in E'. injection E' as <-. destruct (X F) as [X1 X2]. cbn [at_t] in *.
  assert (S0 : sorted ([(0 - td p, 0); (0, 0)] ++ [])) by (apply (empty_sent p Hd)).
  assert (Y1 : ya == 0) by (apply (Delayed_before (td p) [] (0 - td p) ya Hd S0); [lra|exact D1]).
  assert (Y2 : yb == 0) by (apply (Delayed_before (td p) [] (0 - td p) yb Hd S0); [lra|exact D2]).
  unfold i_in, i_out. cbn [st_in st_out]. rewrite X1, X2, Z1, Z2, Y1, Y2. split; field; lra.
Qed.
(* so an open line with 1 V at one end has 0 V at the other in the operating point *)
Theorem C71_dc_wire_refuted : exists p o s l, 0 < td p /\ 0 < z0 p /\ time s == 0 /\
  try p o (tr_begin p) (st_at s) = Val l /\ i_out p s l == 0 /\ ~ st_out s == st_in s.
Proof.
  exists (Params 1 50 1), (Tols 0 0 0), (Step [] (Attempt 0 [Full]) 1 0). eexists.
  split; [reflexivity|]. split; [reflexivity|]. split; [reflexivity|]. split; [reflexivity|]. split; [reflexivity|]. discriminate.
Qed.

(* ---------------------------------------------------------------- cases *)
(* a line of 50 ohms and 2 s: 1 V arrives from a matched source, the far end is open.  One attempt is rejected *)
Definition p2 : params := Params 2 50 1.
Definition o0 : tols := Tols 0 (1#1000) (1#1000000000000).
Definition open_end : list step :=
  [ Step [] (Attempt 0 [Full; Queued]) 1 0; Step [Attempt (3#2) [Full]] (Attempt 1 [Full; Difference]) 1 0;
    Step [] (Attempt 2 [Full]) 1 2; Step [] (Attempt (7#2) [Full; Queued; Queued]) (3#2) 2; Step [] (Attempt 5 [Full]) 2 2 ].
Lemma open_end_times : good_times p2 open_end.
Proof.
  split; [|split].
  - intros s a E I. cbn in E. injection E as <-. cbn in I. destruct I as [<-|[]]. reflexivity.
  - intros n s s' a E1 E2 I.
    do 5 (destruct n as [|n]; [cbn in E1, E2; try discriminate; injection E1 as <-; injection E2 as <-; cbn in I;
      unfold time, tr_review; cbn; intuition (subst; cbn; try lra)|]).
    destruct n; discriminate.
  - intros s a E I. cbn in E. injection E as <-. cbn in I. destruct I as [<-|[<-|[]]]; reflexivity.
Qed.
Lemma open_end_full : Forall (fun s => In Full (at_modes (st_at s))) open_end.
Proof. repeat constructor. Qed.
Example C71_line_case : 0 < td p2 /\ 0 < z0 p2 /\ good_times p2 open_end /\ Forall (reloads o0) open_end /\
  match run p2 o0 (tr_begin p2) open_end with
  | Val (ls, _) =>
      map (fun sl => Qred (i_in p2 (fst sl) (snd sl))) (combine open_end ls) = [1#50; 1#50; 1#50; 1#100; 0] /\
      map (fun sl => Qred (i_out p2 (fst sl) (snd sl))) (combine open_end ls) = [0; 0; 0; 0; 0]
  | _ => False
  end.
Proof.
  split; [reflexivity|]. split; [reflexivity|]. split; [exact open_end_times|].
  split; [repeat constructor|]. vm_compute. auto.
Qed.

Example C71_line_exact_case : 0 < td p2 /\ 0 < z0 p2 /\ roundofftol o0 == 0 /\ 0 <= reltol o0 /\ 0 <= abstol o0 /\
  good_times p2 open_end /\ Forall (fun s => In Full (at_modes (st_at s))) open_end /\
  exists s, nth_error open_end 1 = Some s /\ time s < td p2.
Proof.
  repeat (split; [try reflexivity; discriminate|]). split; [exact open_end_times|]. split; [exact open_end_full|].
  eexists. split; reflexivity.
Qed.
(* loads by difference only: what comes out is exact within the tolerance of the queue *)
Example C71_queued_case : let ss := [Step [] (Attempt 0 [Difference]) 1 0; Step [] (Attempt 1 [Queued]) 1 0; Step [] (Attempt 3 [Queued; Queued]) 1 2] in
  Forall (reloads o0) ss /\ match run p2 o0 (tr_begin p2) ss with
  | Val (ls, _) => map (fun l => Qred (s_f l)) ls = [0; 0; 1#25] | _ => False end.
Proof. cbv zeta. split; [repeat (constructor; [right; split; [reflexivity|discriminate]|]); constructor|]. vm_compute. reflexivity. Qed.
Example C71_ports_case : let n := Ports 1 0 2 3 in let v k := match k with 1 => 5 | 2 => 7 | 3 => 1 | _ => 0 end%nat in
  let l := Line (wave_init 1) (wave_init 1) 0 0 0 0 (1#10) (1#5) in
  row_current (tr_matrix (Params 2 50 3) n) (fun k => inject_Z (Z.of_nat (v k))) 3 - tr_rhs (Params 2 50 3) n l 3 == (6#25).
Proof. reflexivity. Qed.
Example C71_operating_point_case : exists l, try p2 o0 (tr_begin p2) (Attempt 0 [Queued; Full]) = Val l.
Proof. eexists. reflexivity. Qed.

Print Assumptions C71_ports.
Print Assumptions C71_line.
Print Assumptions C71_line_exact.
Print Assumptions C71_quiet.
Print Assumptions C71_operating_point.
Print Assumptions C71_first_step_refuted.
Print Assumptions C71_dc_wire_refuted.
