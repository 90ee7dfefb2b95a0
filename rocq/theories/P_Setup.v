(* C66: the interval and the step limits that a transient or fourier command sets. *)
Require Import ZArith QArith Qround Lqa Lia List Bool.
Require Import Verif.Loops Verif.Qnum Verif.Measure_Model Verif.Setup_Model Verif.P_Measure.
Require Verif.Tran_Model Verif.Tran_Proofs.
Import ListNotations.
Local Open Scope Q_scope.

Section Setup.
Variable E : Type.
Variable ev : E -> option Q.
Notation par := (par E). Notation st := (st E). Notation given := (given E). Notation word := (word E). Notation cmd := (cmd E).
Notation setup := (setup E ev). Notation hard := (hard E). Notation Done := (Done E). Notation Thrown := (Thrown E). Notation Infinite := (Infinite E).

(* the time up to which the circuit was simulated before *)
Definition before (first : bool) (s : st) : Q := if first then 0 else last_time E s.
Definition start_of (s : st) : Q := pv E (tstart E s).
Definition stop_of (s : st) : Q := pv E (tstop E s).
Definition strobe_of (s : st) : Q := pv E (tstrobe E s).

Lemma last_word : forall w s, last_time E (set_word E w s) = last_time E s.
Proof. intros w []. now destruct w. Qed.
Lemma last_options : forall O ws s, last_time E (options E ev O ws s) = last_time E s.
Proof.
  intros O ws s. unfold options. change (last_time E (set_limits E ev O (fold_left (fun s w => set_word E w s) ws (set_word E (Cold E false) s)))) with
    (last_time E (fold_left (fun s w => set_word E w s) ws (set_word E (Cold E false) s))).
  transitivity (last_time E (set_word E (Cold E false) s)); [|apply last_word]. generalize (set_word E (Cold E false) s). clear s.
  induction ws as [|w ws IH]; intros s; [reflexivity|]. cbn [fold_left]. rewrite IH. apply last_word.
Qed.
Lemma last_positions : forall l s s', positions E ev l s = Some s' -> last_time E s' = last_time E s.
Proof.
  intros l s s' H. unfold positions in H. cbv zeta in H.
  repeat match type of H with context [match ?x with _ => _ end] => destruct x; try discriminate H end;
  injection H as <-; reflexivity.
Qed.
Lemma setup_last : forall O first c s o, setup O first c s = Some o -> exists s1, o = limits E ev s1 /\ last_time E s1 = before first s.
Proof.
  intros O first c s o H. unfold Setup_Model.setup in H. cbv zeta in H.
  destruct (positions E ev (c_args E c) _) as [s1|] eqn:P; [|discriminate H]. injection H as <-. eexists. split; [reflexivity|].
  rewrite last_options. apply last_positions in P. transitivity (last_time E s1); [destruct (c_dtmax E c); [apply last_word|reflexivity]|]. rewrite P. unfold before. now destruct first.
Qed.

(* An accepted command has an interval that is not empty and does not begin before zero, prints at positive
   distances, and begins the simulation not after the interval: at zero, or where the last one ended *)
Theorem C66_accepted : forall O first c s s', setup O first c s = Some (Done s') ->
  0 <= start_of s' < stop_of s' /\ 0 < strobe_of s' /\ freq E s' == 1 / (stop_of s' - start_of s') /\
  time1 E s' = time0 E s' /\ last_time E s' = before first s /\
  (if cont E s' then time0 E s' = before first s /\ 0 < before first s <= start_of s' /\ cold E s' = false
   else time0 E s' = 0 /\ (cold E s' = true \/ start_of s' < before first s \/ before first s <= 0)).
Proof.
  intros O first c s s' H. destruct (setup_last _ _ _ _ _ H) as (s1 & El & Hl). unfold limits in El. cbv zeta in El. cbn [set_times tstart tstop tstrobe last_time cold dtmax_in skip_in] in El.
  set (a := pv E (e_val E ev 0 (tstart E s1))) in El. set (b := pv E (e_val E ev NOT_INPUT (tstop E s1))) in El. rewrite Hl in El.
  destruct (qltb_spec a 0) as [|Ha]; [discriminate El|]. destruct (qleb_spec b a) as [|Hb]; [discriminate El|]. cbn [orb] in El.
  set (c1 := e_val E ev NOT_INPUT (tstrobe E s1)) in El.
  set (c2 := e_val E ev (b - a) (if qleb (pv E c1) 0 then set_default E NOT_INPUT c1 else c1)) in El.
  assert (Hc : 0 < pv E c2).
  { unfold c2. destruct (qleb_spec (pv E c1) 0) as [L|L]; [cbn; lra|]. assert (N : NOT_INPUT < 0) by (vm_compute; reflexivity).
    unfold c1 in *. destruct (tstrobe E s1) as [v [| |e]]; cbn in *; [lra|lra|]. destruct (ev e); cbn in *; lra. }
  assert (Hf : (if qltb a b then 1 / (b - a) else 0) == 1 / (b - a)) by (destruct (qltb_spec a b); [reflexivity|lra]).
  destruct (if hard (dtmax_in E s1) then _ else _) as [dx|]; [|discriminate El]. destruct (dtmin_for E dx _) as [dn|]; [|discriminate El]. injection El as ->.
  unfold start_of, stop_of, strobe_of. cbn [set_run set_times tstart tstop tstrobe freq time0 time1 cont cold last_time]. fold a b c2.
  split; [lra|]. split; [exact Hc|]. split; [exact Hf|]. split; [reflexivity|]. split; [exact Hl|].
  destruct (cold E s1); cbn [orb negb]; [auto|]. destruct (qltb_spec a (before first s)); cbn [orb negb]; [auto|]. destruct (qleb_spec (before first s) 0); cbn [orb negb]; [auto|]. repeat split; lra.
Qed.

(* Numbers are never below zero here (the positional arguments are numbers without sign, is_pfloat): then no
   assertion fails.  An argument NA or a negative value of an expression is another matter, see below *)
Theorem C66_total : forall O first c s, Forall (fun g => exists q, g = Num E q /\ 0 <= q) (c_args E c) -> exists o, setup O first c s = Some o.
Proof.
  intros O first c s H. unfold Setup_Model.setup. cbv zeta. set (s1 := if first then _ else _).
  assert (P : exists s2, positions E ev (c_args E c) s1 = Some s2).
  { unfold positions. cbv zeta. destruct (c_args E c) as [|g1 [|g2 [|g3 l]]]; cbn [map].
    - eauto.
    - inversion_clear H as [|? ? (q & -> & Q) _]. cbn -[qltb qeqb qleb]. destruct (qltb_spec (last_time E s1) q); [eauto|]. destruct (qeqb_spec q 0); [eauto|].
      destruct (qleb_spec q (last_time E s1)); [|lra]. destruct (qltb_spec 0 q); [cbn; eauto|lra].
    - inversion_clear H as [|? ? (q & -> & Q) H2]. inversion_clear H2 as [|? ? (q2 & -> & Q2) _]. cbn -[qltb qeqb qleb]. destruct (qeqb q 0); [eauto|]. destruct (qleb q2 q); eauto.
    - inversion_clear H as [|? ? (q & -> & Q) H2]. inversion_clear H2 as [|? ? (q2 & -> & Q2) H3]. inversion_clear H3 as [|? ? (q3 & -> & Q3) _]. cbn -[qltb qeqb qleb].
      destruct (qeqb q3 0); [eauto|]. destruct (qeqb q 0); [eauto|]. destruct (qltb q3 q); eauto. }
  destruct P as (s2 & ->). eauto.
Qed.

(* ---- the forms ---- *)
(* what is given is not zero *)
Definition nz_given (g : given) : Prop := match g with Num _ q => ~ q == 0 | Ex _ e => exists q, ev e = Some q /\ ~ q == 0 | NA _ => True end.
Definition nz_par (p : par) : Prop := match ps E p with Blank _ => True | Fixed _ => ~ pv E p == 0 | Expr _ e => exists q, ev e = Some q /\ ~ q == 0 end.
(* options that leave the interval alone, and do not divide by zero *)
Definition plain_word (w : word) : Prop := match w with Start _ _ | Stop _ _ | Strobe _ _ => False | Skip _ g | Dtratio _ g => nz_given g | _ => True end.
Definition ready (O : opts) (s : st) : Prop := ~ o_dtratio O == 0 /\ nz_par (skip_in E s) /\ nz_par (dtratio_in E s).
Lemma nz_give : forall g p, nz_given g -> nz_par (give E g p).
Proof. intros [q|e|] p H; exact H. Qed.
Lemma plain_ready : forall O w s, plain_word w -> ready O s -> ready O (set_word E w s) /\ tstart E (set_word E w s) = tstart E s /\ tstop E (set_word E w s) = tstop E s /\ tstrobe E (set_word E w s) = tstrobe E s.
Proof. intros O w [] H (R1 & R2 & R3). destruct w; try contradiction; cbn in *; repeat split; try assumption; now apply nz_give. Qed.
Definition no_zero (s : st) : Prop := ~ pv E (skip_in E s) == 0 /\ ~ pv E (dtratio_in E s) == 0.
Lemma plain_options : forall O ws s, Forall plain_word ws -> ready O s -> no_zero (options E ev O ws s) /\
  tstart E (options E ev O ws s) = tstart E s /\ tstop E (options E ev O ws s) = tstop E s /\ tstrobe E (options E ev O ws s) = tstrobe E s.
Proof.
  intros O ws s H R. unfold options. destruct (plain_ready O (Cold E false) s I R) as (R1 & A1 & A2 & A3). rewrite <- A1, <- A2, <- A3. clear A1 A2 A3 R. revert R1. generalize (set_word E (Cold E false) s). clear s.
  induction H as [|w ws Hw H IH]; intros s R1.
  - cbn [fold_left]. destruct R1 as (R1 & R2 & R3). split; [|repeat split]. unfold no_zero, set_limits. cbn [skip_in dtratio_in]. split.
    + destruct (skip_in E s) as [v [| |e]]; cbn in *; [lra|exact R2|]. destruct R2 as (q & -> & N). exact N.
    + destruct (dtratio_in E s) as [v [| |e]]; cbn in *; [exact R1|exact R3|]. destruct R3 as (q & -> & N). exact N.
  - cbn [fold_left]. destruct (plain_ready O w s Hw R1) as (R2 & B1 & B2 & B3). destruct (IH _ R2) as (C0 & C1 & C2 & C3). split; [exact C0|]. rewrite C1, C2, C3. auto.
Qed.
(* the printing distance, if none is given: the one given before, if it is positive, or else the whole interval *)
Definition kept (s : st) (len : Q) : Q :=
  match ps E (tstrobe E s) with
  | Blank _ => len
  | Fixed _ => if qleb (strobe_of s) 0 then len else strobe_of s
  | Expr _ e => match ev e with Some q => if qleb q 0 then len else q | None => len end
  end.
(* the command runs from a to b and prints at distance c *)
Definition runs (a b c : Q) (o : option (outcome E)) : Prop := exists s', o = Some (Done s') /\ start_of s' == a /\ stop_of s' == b /\ strobe_of s' == c.
Lemma runs_limits : forall O ws s a b c, Forall plain_word ws -> ready O s ->
  (ps E (tstart E s) = Fixed E /\ start_of s = a \/ ps E (tstart E s) = Blank E /\ a = 0) -> ps E (tstop E s) = Fixed E -> stop_of s == b -> 0 <= a < b ->
  c == kept s (b - a) -> runs a b c (Some (limits E ev (options E ev O ws s))).
Proof.
  intros O ws s a b c Hw R Ha Hb Eb Hab Hc. destruct (plain_options O ws s Hw R) as ((N1 & N2) & T1 & T2 & T3). set (s1 := options E ev O ws s) in *. clearbody s1.
  unfold limits. cbv zeta. cbn [set_times tstart tstop tstrobe last_time cold dtmax_in skip_in].
  rewrite T1, T2, T3.
  assert (A : pv E (e_val E ev 0 (tstart E s)) = a). { unfold start_of in Ha. unfold e_val. destruct Ha as [[-> Ha]|[-> ->]]; [exact Ha|reflexivity]. }
  assert (B : pv E (e_val E ev NOT_INPUT (tstop E s)) = stop_of s) by (unfold e_val; now rewrite Hb). rewrite A, B.
  destruct (qltb_spec a 0); [lra|]. destruct (qleb_spec (stop_of s) a); [lra|]. cbn [orb].
  set (c1 := e_val E ev NOT_INPUT (tstrobe E s)).
  set (c2 := e_val E ev (stop_of s - a) (if qleb (pv E c1) 0 then set_default E NOT_INPUT c1 else c1)).
  assert (C : pv E c2 == c).
  { rewrite Hc. unfold c2, kept, c1, strobe_of. clear - Eb. assert (N : NOT_INPUT < 0) by (vm_compute; reflexivity). generalize dependent NOT_INPUT. intros NI N. destruct (tstrobe E s) as [v [| |e]]; cbn [e_val ps pv].
    - destruct (qleb_spec NI 0); [cbn [e_val ps pv set_default]; lra|lra].
    - destruct (qleb_spec v 0); cbn [e_val ps pv set_default]; lra.
    - destruct (ev e) as [q|] eqn:Eq.
      + destruct (qleb_spec q 0); cbn [e_val ps pv set_default]; [lra|]. rewrite Eq. reflexivity.
      + destruct (qleb_spec NI 0); cbn [e_val ps pv set_default]; lra. }
  destruct (qeqb_spec (pv E (skip_in E s1)) 0) as [Z|_]; [contradiction|].
  set (dx := if hard (dtmax_in E s1) then _ else _).
  assert (X : exists x, dx = Some x) by (unfold dx; destruct (hard (dtmax_in E s1)); [eauto|]; destruct (hard (skip_in E s1)); eauto). destruct X as (x & ->).
  match goal with |- context [dtmin_for E x ?t] => assert (Y : exists y, dtmin_for E x t = Some y) end.
  { unfold dtmin_for. cbn [set_times dtmin_in dtratio_in]. destruct (qeqb_spec (pv E (dtratio_in E s1)) 0) as [Z|_]; [contradiction|].
    destruct (hard (dtmin_in E s1)); [eauto|]. destruct (hard (dtratio_in E s1)); eauto. }
  destruct Y as (y & ->). eexists. split; [reflexivity|]. unfold start_of, stop_of, strobe_of. cbn [set_run set_times tstart tstop tstrobe]. rewrite A, B. split; [reflexivity|]. split; [exact Eb|exact C].
Qed.

(* the state in which the positional arguments are read *)
Definition begun (first : bool) (s : st) : st :=
  let s := set_times E (e_val E ev NOT_INPUT (tstart E s)) (e_val E ev NOT_INPUT (tstop E s)) (e_val E ev NOT_INPUT (tstrobe E s)) s in if first then set_last E 0 s else s.
Lemma begun_last : forall first s, last_time E (begun first s) = before first s.
Proof. intros [] s; reflexivity. Qed.
Lemma ready_begun : forall O first s, ready O s -> ready O (begun first s).
Proof. intros O [] s R; exact R. Qed.
Lemma kept_strobe : forall s1 s len, tstrobe E s1 = e_val E ev NOT_INPUT (tstrobe E s) -> kept s1 len = kept s len.
Proof.
  intros s1 s len H. unfold kept, strobe_of. rewrite H. destruct (tstrobe E s) as [v [| |e]]; reflexivity.
Qed.
Lemma kept_fixed : forall s1 len v, tstrobe E s1 = mkpar E v (Fixed E) -> 0 < v -> kept s1 len = v.
Proof. intros s1 len v H P. unfold kept, strobe_of. rewrite H. cbn [ps pv]. destruct (qleb_spec v 0); [lra|reflexivity]. Qed.
Lemma by_form : forall O first c s a b d x y z, positions E ev (c_args E c) (begun first s) = Some (set_times E x y z (begun first s)) ->
  Forall plain_word (c_words E c) -> ready O s ->
  (ps E x = Fixed E /\ pv E x = a \/ ps E x = Blank E /\ a = 0) -> ps E y = Fixed E -> pv E y == b -> 0 <= a < b ->
  (z = mkpar E d (Fixed E) /\ 0 < d \/ z = e_val E ev NOT_INPUT (tstrobe E s) /\ d == kept s (b - a)) ->
  runs a b d (setup O first c s).
Proof.
  intros O first c s a b d x y z P W R X Y Yb Hab Z. unfold Setup_Model.setup. cbv zeta. fold (begun first s). rewrite P.
  set (s2 := set_times E x y z (begun first s)).
  assert (T : forall g, ready O (match g with Some g => set_word E (Dtmax E g) s2 | None => s2 end) /\ tstart E (match g with Some g => set_word E (Dtmax E g) s2 | None => s2 end) = x
    /\ tstop E (match g with Some g => set_word E (Dtmax E g) s2 | None => s2 end) = y /\ tstrobe E (match g with Some g => set_word E (Dtmax E g) s2 | None => s2 end) = z).
  { assert (R2 : ready O s2) by exact (ready_begun O first s R). intros [g|]; [|auto]. exact (plain_ready O (Dtmax E g) s2 I R2). }
  specialize (T (c_dtmax E c)). set (s3 := match c_dtmax E c with Some g => set_word E (Dtmax E g) s2 | None => s2 end) in *. clearbody s3. destruct T as (R3 & T1 & T2 & T3).
  apply runs_limits; [exact W|exact R3|unfold start_of; rewrite T1; exact X|now rewrite T2|unfold stop_of; now rewrite T2|exact Hab|].
  destruct Z as [[-> D]|[-> D]]; [rewrite (kept_fixed s3 _ d T3 D); reflexivity|]. rewrite (kept_strobe s3 s _ T3). exact D.
Qed.

Ltac form x y z := apply (by_form _ _ _ _ _ _ _ x y z); cbn [c_args c_words]; [|assumption|assumption| | | | |].
(* The forms of the command with numbers *)
Theorem C66_forms : forall O first s ws dx, Forall plain_word ws -> ready O s ->
  let go l := setup O first (mkcmd E (map (Num E) l) dx ws) s in
  let last := before first s in
  (forall step stop, 0 < step -> 0 < stop -> runs 0 stop step (go [step; stop; 0])) /\
  (forall step stop, 0 < step -> 0 < stop -> runs 0 stop step (go [0; stop; step])) /\
  (forall step stop start, 0 < step <= start -> start < stop -> runs start stop step (go [step; stop; start])) /\
  (forall start stop step, 0 < step < start -> start < stop -> runs start stop step (go [start; stop; step])) /\
  (forall stop, 0 < stop -> runs 0 stop (kept s stop) (go [0; stop])) /\
  (forall step stop, 0 < step < stop -> runs 0 stop step (go [step; stop])) /\
  (forall stop step, 0 < step <= stop -> 0 <= last < stop -> runs last stop step (go [stop; step])) /\
  (forall stop, 0 <= last < stop -> runs last stop (kept s (stop - last)) (go [stop])) /\
  (forall len, ps E (tstart E s) = Fixed E -> ps E (tstop E s) = Fixed E -> len == stop_of s - start_of s -> 0 < len -> 0 <= last ->
     (forall step, 0 < step <= last -> runs last (last + len) step (go [step])) /\
     runs 0 len (kept s len) (go [0]) /\
     runs last (last + len) (kept s len) (go [])).
Proof.
  intros O first s ws dx W R go last. unfold go. pose proof (begun_last first s) as BL. fold last in BL. clear go.
  assert (BS : tstrobe E (begun first s) = e_val E ev NOT_INPUT (tstrobe E s)) by now destruct first.
  assert (Hk : forall l1 l2, l1 == l2 -> kept s l1 == kept s l2).
  { intros l1 l2 H. unfold kept. destruct (ps E (tstrobe E s)) as [| |e]; [exact H|destruct (qleb _ 0); [exact H|reflexivity]|]. destruct (ev e) as [q|]; [destruct (qleb q 0); [exact H|reflexivity]|exact H]. }
  repeat apply conj.
  - intros step stop H1 H2. form (mkpar E 0 (Fixed E)) (mkpar E stop (Fixed E)) (mkpar E step (Fixed E)); auto; try reflexivity; try lra.
  - intros step stop H1 H2. form (mkpar E 0 (Fixed E)) (mkpar E stop (Fixed E)) (mkpar E step (Fixed E)); auto; try reflexivity; try lra.
    cbn -[qeqb qltb begun set_times]. destruct (qeqb_spec step 0); [lra|]. destruct (qeqb_spec 0 0); [reflexivity|lra].
  - intros step stop start H1 H2. form (mkpar E start (Fixed E)) (mkpar E stop (Fixed E)) (mkpar E step (Fixed E)); auto; try reflexivity; try lra.
    + cbn -[qeqb qltb begun set_times]. destruct (qeqb_spec start 0); [lra|]. destruct (qeqb_spec step 0); [lra|]. destruct (qltb_spec start step); [lra|reflexivity].
    + left. split; [reflexivity|lra].
  - intros start stop step H1 H2. form (mkpar E start (Fixed E)) (mkpar E stop (Fixed E)) (mkpar E step (Fixed E)); auto; try reflexivity; try lra.
    + cbn -[qeqb qltb begun set_times]. destruct (qeqb_spec step 0); [lra|]. destruct (qeqb_spec start 0); [lra|]. destruct (qltb_spec step start); [reflexivity|lra].
    + left. split; [reflexivity|lra].
  - intros stop H. form (mkpar E 0 (Fixed E)) (mkpar E stop (Fixed E)) (e_val E ev NOT_INPUT (tstrobe E s)); auto; try reflexivity; try lra.
    + cbn -[qeqb qltb begun set_times e_val]. now rewrite BS.
    + right. split; [reflexivity|]. apply Hk. lra.
  - intros step stop H. form (unset E (tstart E (begun first s))) (mkpar E stop (Fixed E)) (mkpar E step (Fixed E)); auto; try reflexivity; try lra.
    + cbn -[qeqb qltb begun set_times qleb]. destruct (qeqb_spec step 0); [lra|]. destruct (qleb_spec stop step); [lra|reflexivity].
    + left. split; [reflexivity|lra].
  - intros stop step H L. form (mkpar E last (Fixed E)) (mkpar E stop (Fixed E)) (mkpar E step (Fixed E)); auto; try reflexivity; try lra.
    + cbn -[qeqb qltb begun set_times qleb]. destruct (qeqb_spec stop 0); [lra|]. destruct (qleb_spec step stop); [now rewrite BL|lra].
    + left. split; [reflexivity|lra].
  - intros stop L. form (mkpar E last (Fixed E)) (mkpar E stop (Fixed E)) (e_val E ev NOT_INPUT (tstrobe E s)); auto; try reflexivity; try lra.
    + rewrite <- BS. cbn -[qeqb qltb begun set_times qleb]. rewrite BL. destruct (qltb_spec last stop) as [_|]; [reflexivity|lra].
    + right. split; reflexivity.
  - intros len Fa Fb Hl Hp L. 
    assert (Range : pv E (tstop E (begun first s)) - pv E (tstart E (begun first s)) = stop_of s - start_of s).
    { unfold begun. destruct first; cbn [set_last set_times tstart tstop]; unfold e_val; rewrite Fa, Fb; reflexivity. }
    repeat apply conj.
    + intros step H. form (mkpar E last (Fixed E)) (mkpar E (last + (stop_of s - start_of s)) (Fixed E)) (mkpar E step (Fixed E)); auto; try reflexivity; try lra.
      * cbn -[qeqb qltb begun set_times qleb]. rewrite BL, Range. destruct (qltb_spec last step); [lra|]. destruct (qeqb_spec step 0); [lra|]. destruct (qleb_spec step last); [|lra]. destruct (qltb_spec 0 step); [reflexivity|lra].
      * cbn [pv]. lra.
      * left. split; [reflexivity|lra].
    + form (mkpar E 0 (Fixed E)) (mkpar E (stop_of s - start_of s) (Fixed E)) (e_val E ev NOT_INPUT (tstrobe E s)); auto; try reflexivity; try lra.
      * rewrite <- BS. cbn -[qeqb qltb begun set_times qleb]. rewrite BL, Range. destruct (qltb_spec last 0); [lra|reflexivity].
      * cbn [pv]. lra.
      * right. split; [reflexivity|]. apply Hk. lra.
    + form (mkpar E last (Fixed E)) (mkpar E (last + (stop_of s - start_of s)) (Fixed E)) (e_val E ev NOT_INPUT (tstrobe E s)); auto; try reflexivity; try lra.
      * rewrite <- BS. cbn -[qeqb qltb begun set_times qleb]. rewrite BL, Range. reflexivity.
      * cbn [pv]. lra.
      * right. split; [reflexivity|]. apply Hk. lra.
Qed.

(* ---- a command without arguments goes on ---- *)
(* n commands without arguments, each simulated to its end *)
Fixpoint again (O : opts) (n : nat) (s : st) : option st :=
  match n with
  | 0%nat => Some s
  | S m => match setup O false (mkcmd E [] None []) s with Some (Setup_Model.Done _ s1) => again O m (set_last E (stop_of s1) s1) | _ => None end
  end.
Lemma nz_e_val : forall d p, nz_par p -> nz_par (e_val E ev d p).
Proof. intros d [v [| |e]] H; exact H. Qed.
Lemma one_more : forall O s, ready O s -> ps E (tstart E s) = Fixed E -> ps E (tstop E s) = Fixed E -> ps E (tstrobe E s) = Fixed E ->
  0 < strobe_of s -> start_of s < stop_of s -> 0 < last_time E s ->
  exists s', setup O false (mkcmd E [] None []) s = Some (Done s') /\ ready O s' /\ ps E (tstart E s') = Fixed E /\ ps E (tstop E s') = Fixed E /\ ps E (tstrobe E s') = Fixed E /\
    strobe_of s' = strobe_of s /\ start_of s' = last_time E s /\ stop_of s' == last_time E s + (stop_of s - start_of s) /\ time0 E s' = last_time E s /\ cont E s' = true.
Proof.
  intros O s R F1 F2 F3 Hc Hab Hl. pose proof R as (R1 & R2 & R3).
  destruct (plain_options O [] (set_times E (mkpar E (last_time E s) (Fixed E)) (mkpar E (last_time E s + (stop_of s - start_of s)) (Fixed E)) (tstrobe E s) s) (Forall_nil _) R) as ((N1 & N2) & _).
  unfold Setup_Model.setup. cbv zeta. cbn [c_args c_dtmax c_words]. unfold positions. cbv zeta. cbn [map].
  destruct s as [[a pa] [b pb] [c pc] r n x k l t0 t1 dx dn f co ct]. unfold start_of, stop_of, strobe_of, ready in *.
  cbn [tstart tstop tstrobe ps pv last_time skip_in dtratio_in] in *. subst pa pb pc. cbn [e_val ps pv set_times tstart tstop tstrobe last_time fixed] in *.
  unfold options, set_limits in *. cbn [fold_left set_word set_times tstart tstop tstrobe last_time time0 time1 dtmax dtmin freq cold cont dtmin_in dtmax_in dtratio_in skip_in] in *. unfold limits. cbn [e_val ps pv set_times tstart tstop tstrobe last_time fixed dtmin_in dtmax_in dtratio_in skip_in cold] in *.
  destruct (qltb_spec l 0); [lra|]. destruct (qleb_spec (l + (b - a)) l); [lra|]. destruct (qleb_spec c 0); [lra|]. destruct (qltb_spec l l); [lra|]. destruct (qleb_spec l 0); [lra|]. cbn [orb negb].
  cbn [e_val ps pv] in *. 
  destruct (qeqb_spec (pv E (e_val E ev 1 k)) 0) as [Z|_]; [contradiction|].
  set (d := if hard (e_val E ev BIGBIG x) then _ else _).
  assert (X : exists x, d = Some x) by (unfold d; destruct (hard (e_val E ev BIGBIG x)); [eauto|]; destruct (hard (e_val E ev 1 k)); eauto). destruct X as (d0 & ->).
  match goal with |- context [dtmin_for E d0 ?t] => assert (Y : exists y, dtmin_for E d0 t = Some y) end.
  { unfold dtmin_for. cbn [set_times dtmin_in dtratio_in]. destruct (qeqb_spec (pv E (e_val E ev (o_dtratio O) r)) 0) as [Z|_]; [contradiction|].
    destruct (hard (e_val E ev (o_dtmin O) n)); [eauto|]. destruct (hard (e_val E ev (o_dtratio O) r)); eauto. }
  destruct Y as (y & ->). eexists. split; [reflexivity|]. unfold ready. cbn [set_run set_times tstart tstop tstrobe ps pv e_val skip_in dtratio_in time0 cont].
  repeat split; try reflexivity; try assumption; now apply nz_e_val.
Qed.
Lemma continue_lem : forall O n s, ready O s -> ps E (tstart E s) = Fixed E -> ps E (tstop E s) = Fixed E -> ps E (tstrobe E s) = Fixed E ->
  0 < strobe_of s -> 0 <= start_of s < stop_of s -> last_time E s == stop_of s ->
  forall len, len == stop_of s - start_of s -> exists s', again O n s = Some s' /\ strobe_of s' == strobe_of s /\
    start_of s' == start_of s + inject_Z (Z.of_nat n) * len /\ stop_of s' == stop_of s + inject_Z (Z.of_nat n) * len /\ last_time E s' == stop_of s' /\
    (n <> 0%nat \/ cont E s = true /\ time0 E s == start_of s -> cont E s' = true /\ time0 E s' == start_of s').
Proof.
  intros O n. induction n as [|n IH]; intros s R F1 F2 F3 Hc Hab Hl len Hlen.
  - exists s. cbn [again]. change (inject_Z (Z.of_nat 0)) with 0. split; [reflexivity|]. split; [reflexivity|]. split; [lra|]. split; [lra|]. split; [exact Hl|]. intros [N|N]; [now elim N|exact N].
  - cbn [again]. destruct (one_more O s R F1 F2 F3 Hc) as (s1 & -> & R' & G1 & G2 & G3 & Ec & Ea & Eb & Et & Ect); [lra|lra|].
    set (s2 := set_last E (stop_of s1) s1).
    assert (E1 : start_of s2 = last_time E s) by exact Ea. assert (E2 : stop_of s2 == last_time E s + (stop_of s - start_of s)) by exact Eb. assert (E3 : strobe_of s2 = strobe_of s) by exact Ec.
    destruct (IH s2) with (len := len) as (s' & -> & H1 & H2 & H3 & H4 & H5); try assumption; try reflexivity.
    + now rewrite E3.
    + rewrite E1, E2. lra.
    + rewrite E1, E2. lra.
    + exists s'. split; [reflexivity|]. rewrite E3 in H1. rewrite E1 in H2. rewrite E2 in H3. rewrite Nat2Z.inj_succ. unfold Z.succ. rewrite inject_Z_plus. change (inject_Z 1) with 1.
      split; [exact H1|]. split; [rewrite H2; lra|]. split; [rewrite H3; lra|]. split; [exact H4|]. intros _. apply H5. right. split; [exact Ect|].
      transitivity (last_time E s); [change (time0 E s2) with (time0 E s1); now rewrite Et|now rewrite E1].
Qed.
Theorem C66_continue : forall O s, ready O s -> ps E (tstart E s) = Fixed E -> ps E (tstop E s) = Fixed E -> ps E (tstrobe E s) = Fixed E ->
  0 < strobe_of s -> 0 <= start_of s < stop_of s -> last_time E s == stop_of s ->
  forall n len, len == stop_of s - start_of s -> exists s', again O n s = Some s' /\ strobe_of s' == strobe_of s /\
    start_of s' == start_of s + inject_Z (Z.of_nat n) * len /\ stop_of s' == stop_of s + inject_Z (Z.of_nat n) * len /\ last_time E s' == stop_of s' /\
    (n <> 0%nat -> cont E s' = true /\ time0 E s' == start_of s').
Proof.
  intros O s R F1 F2 F3 Hc Hab Hl n len Hlen. destruct (continue_lem O n s R F1 F2 F3 Hc Hab Hl len Hlen) as (s' & H0 & H1 & H2 & H3 & H4 & H5).
  exists s'. repeat apply conj; auto.
Qed.

(* ---- the limits of the step ---- *)
Lemma done_limits : forall O first c s s', setup O first c s = Some (Done s') -> exists s0, limits E ev s0 = Done s' /\
  (exists d, dtratio_in E s0 = e_val E ev (o_dtratio O) d) /\ (exists d, dtmin_in E s0 = e_val E ev (o_dtmin O) d) /\
  (exists d, dtmax_in E s0 = e_val E ev BIGBIG d) /\ exists d, skip_in E s0 = e_val E ev 1 d.
Proof.
  intros O first c s s' H. unfold Setup_Model.setup in H. cbv zeta in H. destruct (positions E ev (c_args E c) _) as [s1|]; [|discriminate H]. injection H as H.
  unfold options, set_limits in H. eexists. split; [exact H|]. cbn [dtratio_in dtmin_in dtmax_in skip_in]. repeat apply conj; eexists; reflexivity.
Qed.
(* The limits of the step follow what is given: dtmax, or else strobe divided by skip; dtmin, or else dtmax
   divided by dtratio; and what the options say if neither is given *)
Theorem C66_steps : forall O first c s s', setup O first c s = Some (Done s') ->
  (hard (dtmax_in E s') = true -> dtmax E s' = pv E (dtmax_in E s')) /\
  (hard (dtmax_in E s') = false -> hard (skip_in E s') = true -> dtmax E s' * pv E (skip_in E s') == strobe_of s') /\
  (hard (dtmax_in E s') = false -> hard (skip_in E s') = false ->
     dtmax E s' <= strobe_of s' /\ dtmax E s' <= BIGBIG /\ (strobe_of s' <= BIGBIG -> dtmax E s' == strobe_of s')) /\
  (hard (dtmin_in E s') = true -> dtmin E s' = pv E (dtmin_in E s')) /\
  (hard (dtmin_in E s') = false -> hard (dtratio_in E s') = true -> dtmin E s' * pv E (dtratio_in E s') == dtmax E s') /\
  (hard (dtmin_in E s') = false -> hard (dtratio_in E s') = false -> 0 < o_dtratio O ->
     o_dtmin O <= dtmin E s' /\ dtmax E s' <= dtmin E s' * o_dtratio O /\ (dtmin E s' == o_dtmin O \/ dtmin E s' * o_dtratio O == dtmax E s')).
Proof.
  intros O first c s s' H. destruct (done_limits _ _ _ _ _ H) as (s0 & L & (dr & Er) & (dn & En) & (dm & Em) & (dk & Ek)). clear H.
  unfold limits in L. cbv zeta in L. cbn [set_times tstart tstop tstrobe last_time cold dtmax_in skip_in] in L.
  destruct (qltb (pv E (e_val E ev 0 (tstart E s0))) 0 || _); [discriminate L|].
  set (c2 := e_val E ev (pv E (e_val E ev NOT_INPUT (tstop E s0)) - _) _) in L.
  set (X := if hard (dtmax_in E s0) then _ else _) in L. destruct X as [x|] eqn:EX; [|discriminate L]. subst X.
  destruct (dtmin_for E x _) as [y|] eqn:EY; [|discriminate L]. injection L as <-.
  unfold strobe_of. cbn [set_run set_times tstart tstop tstrobe dtmax dtmin dtmax_in dtmin_in dtratio_in skip_in].
  unfold dtmin_for in EY. cbn [set_times dtmin_in dtratio_in] in EY.
  split; [intros Hh; rewrite Hh in EX; now injection EX|].
  split. { intros H1 H2. rewrite H1, H2 in EX. destruct (qeqb_spec (pv E (skip_in E s0)) 0) as [|N]; [discriminate EX|]. injection EX as <-. field. exact N. }
  split. { intros H1 H2. rewrite H1, H2 in EX. injection EX as <-.
    assert (V : pv E (dtmax_in E s0) = BIGBIG) by (rewrite Em in H1 |- *; destruct dm as [v [| |e]]; [reflexivity|discriminate H1|discriminate H1]). rewrite V.
    destruct (qltb_spec (pv E c2) BIGBIG); repeat split; lra. }
  split; [intros Hh; rewrite Hh in EY; now injection EY|].
  destruct (qeqb_spec (pv E (dtratio_in E s0)) 0) as [Z|N].
  { destruct (hard (dtmin_in E s0)); [|discriminate EY]. split; intros H1; discriminate H1. }
  split. { intros H1 H2. rewrite H1, H2 in EY. injection EY as <-. field. exact N. }
  intros H1 H2 P. rewrite H1, H2 in EY. injection EY as <-.
  assert (V : pv E (dtratio_in E s0) = o_dtratio O) by (rewrite Er in H2 |- *; destruct dr as [v [| |e]]; [reflexivity|discriminate H2|discriminate H2]). rewrite V in *.
  assert (V2 : pv E (dtmin_in E s0) = o_dtmin O) by (rewrite En in H1 |- *; destruct dn as [v [| |e]]; [reflexivity|discriminate H1|discriminate H1]). rewrite V2.
  assert (Q : x / o_dtratio O * o_dtratio O == x) by (field; lra).
  destruct (qltb_spec (o_dtmin O) (x / o_dtratio O)) as [G|G].
  - split; [lra|]. split; [rewrite Q; lra|]. right. exact Q.
  - split; [lra|]. split; [|left; reflexivity]. rewrite <- Q. apply Qmult_le_compat_r; lra.
Qed.
(* With dtmax, dtmin, dtratio and skip left alone the limits are what the stepping of C23 and C24 asks for *)
Theorem C66_run_ready : forall O first c s s' shrink hold grow q d, setup O first c s = Some (Done s') ->
  hard (dtmax_in E s') = false -> hard (skip_in E s') = false -> hard (dtmin_in E s') = false -> hard (dtratio_in E s') = false ->
  0 < o_dtmin O -> 1 <= o_dtratio O -> o_dtmin O <= strobe_of s' <= BIGBIG -> 2 <= shrink -> 1 <= hold -> 1 <= grow ->
  Tran_Proofs.par_ok (Tran_Model.mk_tpar (dtmin E s') (dtmax E s') (start_of s') (stop_of s') (strobe_of s') shrink hold grow q d).
Proof.
  intros O first c s s' shrink hold grow q d H H1 H2 H3 H4 P1 P2 P3 P4 P5 P6. destruct (C66_steps _ _ _ _ _ H) as (_ & _ & A & _ & _ & B).
  destruct (A H1 H2) as (_ & _ & A3). specialize (A3 (proj2 P3)). destruct (B H3 H4 ltac:(lra)) as (B1 & B2 & B3). clear A B.
  assert (Y : dtmin E s' <= strobe_of s').
  { destruct B3 as [B3|B3]; [lra|]. assert (dtmin E s' * 1 <= dtmin E s' * o_dtratio O) by (apply Qmult_le_l; lra). lra. }
  split; cbn; lra.
Qed.

(* the options: the last one of a kind counts *)
Definition about (w w' : word) : bool :=
  match w, w' with
  | Dtmax _ _, Dtmax _ _ | Dtmin _ _, Dtmin _ _ | Dtratio _ _, Dtratio _ _ | Skip _ _, Skip _ _ | Start _ _, Start _ _ | Stop _ _, Stop _ _ | Strobe _ _, Strobe _ _ => true
  | _, _ => false
  end.
Definition got (w : word) (s : st) : option par :=
  match w with
  | Cold _ _ => None
  | Dtmax _ _ => Some (dtmax_in E s) | Dtmin _ _ => Some (dtmin_in E s) | Dtratio _ _ => Some (dtratio_in E s) | Skip _ _ => Some (skip_in E s)
  | Start _ _ => Some (tstart E s) | Stop _ _ => Some (tstop E s) | Strobe _ _ => Some (tstrobe E s)
  end.
Definition num (w : word) : option Q :=
  match w with
  | Dtmax _ (Num _ q) | Dtmin _ (Num _ q) | Dtratio _ (Num _ q) | Skip _ (Num _ q) | Start _ (Num _ q) | Stop _ (Num _ q) | Strobe _ (Num _ q) => Some q
  | _ => None
  end.
Lemma got_other : forall w w' s, about w w' = false -> got w (set_word E w' s) = got w s.
Proof. intros w w' [] H. destruct w, w'; cbn in *; try reflexivity; discriminate H. Qed.
Theorem C66_last_option : forall O ws1 w ws2 s q, num w = Some q -> Forall (fun w' => about w w' = false) ws2 ->
  got w (options E ev O (ws1 ++ w :: ws2) s) = Some (mkpar E q (Fixed E)).
Proof.
  intros O ws1 w ws2 s q Hq H. unfold options. rewrite fold_left_app. cbn [fold_left]. set (s1 := fold_left _ ws1 _). clearbody s1.
  assert (G : got w (fold_left (fun s w => set_word E w s) ws2 (set_word E w s1)) = Some (mkpar E q (Fixed E))).
  { assert (G0 : got w (set_word E w s1) = Some (mkpar E q (Fixed E))).
    { destruct s1. destruct w as [b|g|g|g|g|g|g|g]; try discriminate Hq; destruct g; try discriminate Hq; injection Hq as ->; reflexivity. }
    revert G0. generalize (set_word E w s1). induction H as [|w' ws2 Hw H IH]; intros s2 G; [exact G|]. cbn [fold_left]. apply IH. now rewrite got_other. }
  set (s2 := fold_left _ ws2 _) in *. clearbody s2. unfold set_limits. destruct w; cbn [got tstart tstop tstrobe dtratio_in dtmin_in dtmax_in skip_in] in *; try discriminate Hq; injection G as ->; reflexivity.
Qed.

(* ---- fourier ---- *)
Lemma q_floor_le : forall x, inject_Z (Qfloor x) <= x. Proof. exact Qfloor_le. Qed.
Lemma stepnum_pos : forall step x, 0 < step -> 0 <= x -> stepnum 0 step x = Qfloor (x / step + (1#2)) /\ (0 <= stepnum 0 step x)%Z /\
  inject_Z (stepnum 0 step x) * step - x <= step / 2 /\ x - inject_Z (stepnum 0 step x) * step < step / 2.
Proof.
  intros step x Hs Hx.
  assert (Q : (x - 0) / step == x / step) by (field; lra).
  assert (P : 0 <= x / step) by (apply Qle_shift_div_l; lra).
  assert (A : stepnum 0 step x = Qfloor (x / step + (1#2))).
  { unfold stepnum. cbv zeta. destruct (qleb_spec 0 ((x - 0) / step + (1 # 2))) as [_|N]; [|lra]. apply Qfloor_comp. rewrite Q. reflexivity. }
  split; [exact A|]. rewrite A. pose proof (Qfloor_le (x / step + (1#2))) as L. pose proof (Qlt_floor (x / step + (1#2))) as U. rewrite inject_Z_plus in U. change (inject_Z 1) with 1 in U.
  set (z := Qfloor (x / step + (1#2))) in *. assert (M : x / step * step == x) by (field; lra). split; [|split].
  - change 0%Z with (Qfloor 0). apply Qfloor_resp_le. lra.
  - assert (inject_Z z * step <= (x / step + (1#2)) * step) by (apply Qmult_le_compat_r; lra). rewrite Qmult_plus_distr_l, M in H. unfold Qdiv. change (/ 2) with (1#2). lra.
  - assert ((x / step + (1#2)) * step < (inject_Z z + 1) * step) by (apply Qmult_lt_compat_r; lra). rewrite !Qmult_plus_distr_l, M in H. unfold Qdiv. change (/ 2) with (1#2). lra.
Qed.
(* An accepted fourier command simulates one period of the step frequency, at a power of two of equal
   distances, and the printed range has the asked frequencies and is inside what the transform gives *)
Theorem C66_fourier : forall O l ws f f', f_setup E ev O l ws f = Some (FDone E f') ->
  0 < pv E (fstep E f') -> 0 <= pv E (fstart E f') <= pv E (fstop E f') -> pv E (fstop E f') * 2 / pv E (fstep E f') < inject_Z (2 ^ 30) ->
  let step := pv E (fstep E f') in let r := run E f' in
  0 <= start_of r /\ stop_of r - start_of r == 1 / step /\ time0 E r = start_of r /\ freq E r = step /\ 0 < strobe_of r /\
  exists k, (0 <= k)%Z /\ timesteps E f' = (2 ^ k + 1)%Z /\ inject_Z (2 ^ k) * strobe_of r == 1 / step /\ pv E (fstop E f') * 2 < inject_Z (2 ^ k) * step /\
    let (i, j) := printed E f' in
    (0 <= i <= j)%Z /\ (2 * j <= 2 ^ k)%Z /\
    - (step / 2) < inject_Z i * step - pv E (fstart E f') <= step / 2 /\ - (step / 2) < inject_Z j * step - pv E (fstop E f') <= step / 2.
Proof.
  intros O l ws f f' H Hs Hab Hbig step r. unfold f_setup in H. destruct (f_positions E ev l f) as [f1|]; [|discriminate H]. injection H as H.
  set (s1 := options E ev O ws (run E f1)) in H. clearbody s1. unfold f_limits in H. cbv zeta in H. cbn [fstart fstop fstep run timesteps] in H. destruct (qeqb_spec (pv E (e_val E ev 0 (fstep E f1))) 0) as [|Nz]; [discriminate H|].
  set (fb := if qeqb _ 0 then _ else _) in H. set (z := Qfloor (pv E fb * 2 / pv E (e_val E ev 0 (fstep E f1)))) in H.
  destruct (negb ((- 2 ^ 31 <=? z)%Z && _)); [discriminate H|]. destruct (to_pow_of_2 z) as [y|] eqn:Ey; [|discriminate H].
  destruct (qeqb (pv E (skip_in E _)) 0); [discriminate H|]. destruct (dtmin_for E _ _) as [dn|]; [|discriminate H]. injection H as <-.
  cbn [fstart fstop fstep run timesteps] in *. unfold step, r, start_of, stop_of, strobe_of in *. clear step r.
  cbn [set_run set_times tstart tstop tstrobe fixed pv time0 freq] in *.
  set (st0 := pv E (e_val E ev 0 (fstep E f1))) in *. set (a := pv E (e_val E ev 0 (fstart E f1))) in *. set (b := pv E fb) in *.
  assert (P : 0 <= b * 2 / st0) by (apply Qle_shift_div_l; lra).
  assert (Zr : (0 <= z < 2 ^ 30)%Z).
  { unfold z. split; [change 0%Z with (Qfloor 0); now apply Qfloor_resp_le|]. rewrite Zlt_Qlt. eapply Qle_lt_trans; [apply Qfloor_le|exact Hbig]. }
  destruct (C44_power z Zr) as (k & K0 & K1 & K2 & _). rewrite K1 in Ey. injection Ey as <-.
  assert (Pk : (0 < 2 ^ k)%Z) by (apply Z.pow_pos_nonneg; lia). assert (Pq : 0 < inject_Z (2 ^ k)) by (change 0 with (inject_Z 0); now rewrite <- Zlt_Qlt).
  assert (Pi : 0 < 1 / st0) by (apply Qlt_shift_div_l; lra).
  replace (2 ^ k + 1 - 1)%Z with (2 ^ k)%Z by lia.
  split. { destruct (cold E s1); cbn [orb negb]; [lra|]. destruct (qleb_spec (last_time E s1) 0); cbn [orb negb]; lra. }
  split; [ring|]. split; [reflexivity|]. split; [reflexivity|]. split; [apply Qlt_shift_div_l; lra|].
  exists k. split; [exact K0|]. split; [reflexivity|]. split; [field; split; lra|].
  assert (Kb : b * 2 < inject_Z (2 ^ k) * st0).
  { assert (M : b * 2 / st0 * st0 == b * 2) by (field; lra). rewrite <- M. apply Qmult_lt_compat_r; [lra|]. eapply Qlt_le_trans; [apply Qlt_floor|]. fold z. rewrite <- Zle_Qle. lia. }
  split; [exact Kb|]. unfold printed. cbn [fstart fstop fstep]. fold a b st0.
  destruct (stepnum_pos st0 a Hs ltac:(lra)) as (A1 & A2 & A3 & A4). destruct (stepnum_pos st0 b Hs ltac:(lra)) as (B1 & B2 & B3 & B4).
  split; [|split; [|split; lra]].
  - split; [exact A2|]. rewrite A1, B1. apply Qfloor_resp_le. assert (a / st0 <= b / st0) by (unfold Qdiv; apply Qmult_le_compat_r; [lra|apply Qlt_le_weak, Qinv_lt_0_compat; lra]). lra.
  - assert (J : inject_Z (2 * stepnum 0 st0 b) < inject_Z (2 ^ k + 1)).
    { rewrite inject_Z_mult, inject_Z_plus. change (inject_Z 2) with 2. change (inject_Z 1) with 1. unfold Qdiv in B3. change (/ 2) with (1#2) in B3.
      apply (Qmult_lt_r _ _ st0 Hs). rewrite Qmult_plus_distr_l. lra. }
    rewrite <- Zlt_Qlt in J. lia.
Qed.
(* the frequencies written after fourier: start, stop and step, or step and stop in either order, or the step alone *)
Theorem C66_fourier_forms : forall O ws f f',
  let go l := f_setup E ev O (map (Num E) l) ws f = Some (FDone E f') in
  let range a b c := pv E (fstart E f') == a /\ pv E (fstop E f') == b /\ pv E (fstep E f') == c in
  (forall start stop step, 0 < stop -> go [start; stop; step] -> range start stop step) /\
  (forall step stop, 0 < step <= stop -> go [step; stop] \/ go [stop; step] -> range 0 stop step) /\
  (forall step, 0 < step -> go [step] -> range 0 (o_harmonics O * step) step) /\
  (go [0] -> pv E (fstart E f') == 0 /\ pv E (fstep E f') == pv E (e_val E ev 0 (fstep E f))) /\
  (go [] -> pv E (fstart E f') == pv E (e_val E ev 0 (fstart E f)) /\ pv E (fstep E f') == pv E (e_val E ev 0 (fstep E f))).
Proof.
  intros O ws f f' go range.
  assert (L : forall g, f_limits E ev O g = FDone E f' ->
    fstart E f' = e_val E ev 0 (fstart E g) /\ fstep E f' = e_val E ev 0 (fstep E g) /\
    let b := pv E (e_val E ev (o_harmonics O * pv E (e_val E ev 0 (fstep E g))) (fstop E g)) in
    pv E (fstop E f') = if qeqb b 0 then o_harmonics O * pv E (e_val E ev 0 (fstep E g)) else b).
  { intros g H. unfold f_limits in H. cbv zeta in H. destruct (qeqb_spec (pv E (e_val E ev 0 (fstep E g))) 0); [discriminate H|].
    destruct (negb _); [discriminate H|]. destruct (to_pow_of_2 _) as [y|]; [|discriminate H].
    destruct (qeqb (pv E (skip_in E _)) 0); [discriminate H|]. destruct (dtmin_for E _ _) as [dn|]; [|discriminate H]. injection H as <-.
    cbn [fstart fstop fstep]. split; [reflexivity|]. split; [reflexivity|]. cbv zeta. destruct (qeqb _ 0); reflexivity. }
  assert (S1 : forall l g, f_positions E ev (map (Num E) l) f = Some g -> go l ->
    fstart E f' = e_val E ev 0 (fstart E g) /\ fstep E f' = e_val E ev 0 (fstep E g) /\
    let b := pv E (e_val E ev (o_harmonics O * pv E (e_val E ev 0 (fstep E g))) (fstop E g)) in
    pv E (fstop E f') = if qeqb b 0 then o_harmonics O * pv E (e_val E ev 0 (fstep E g)) else b).
  { intros l g P G. unfold go, f_setup in G. rewrite P in G. injection G as G. apply L in G. exact G. }
  split; [|split; [|split; [|split]]].
  - intros start stop step Hs G. eapply S1 in G; [|reflexivity]. destruct G as (A & B & C). unfold range. cbn in A, B. rewrite A, B, C.
    cbn -[qeqb]. destruct (qeqb_spec stop 0); [lra|]. repeat split; reflexivity.
  - intros step stop Hs [G|G].
    + destruct (qleb_spec stop step) as [K|K].
      * eapply S1 in G; [|cbn -[qleb]; destruct (qleb_spec stop step); [reflexivity|contradiction]]. destruct G as (A & B & C). unfold range. cbn in A, B. rewrite A, B, C.
        cbn -[qeqb]. destruct (qeqb_spec step 0); [lra|]. repeat split; lra.
      * eapply S1 in G; [|cbn -[qleb]; destruct (qleb_spec stop step); [contradiction|reflexivity]]. destruct G as (A & B & C). unfold range. cbn in A, B. rewrite A, B, C.
        cbn -[qeqb]. destruct (qeqb_spec stop 0); [lra|]. repeat split; reflexivity.
    + eapply S1 in G; [|cbn -[qleb]; destruct (qleb_spec step stop); [reflexivity|lra]]. destruct G as (A & B & C). unfold range. cbn in A, B. rewrite A, B, C.
      cbn -[qeqb]. destruct (qeqb_spec stop 0); [lra|]. repeat split; reflexivity.
  - intros step Hs G. eapply S1 in G; [|cbn -[qeqb]; destruct (qeqb_spec step 0); [lra|reflexivity]]. destruct G as (A & B & C). unfold range. cbn in A, B. rewrite A, B, C.
    cbn -[qeqb]. destruct (qeqb _ 0); repeat split; reflexivity.
  - intros G. eapply S1 in G; [|reflexivity]. destruct G as (A & B & _). rewrite A, B. split; reflexivity.
  - intros G. eapply S1 in G; [|reflexivity]. destruct G as (A & B & _). rewrite A, B. split; reflexivity.
Qed.
End Setup.

(* ---- findings ---- *)
(* expressions for the examples: numbers, possibly negative *)
Definition ex_ev (z : Z) : option Q := Some (inject_Z z).
Definition ex_o : opts := mkopts (1 # 1000000000000) (1000000000 # 1) 9.
Definition ex_cmd (l : list Q) (ws : list (word Z)) : cmd Z := mkcmd Z (map (Num Z) l) None ws.
Definition ms (n : Z) : Q := n # 1000.

(* after "tran step stop" a "tran" is meant to go on for the same length: it goes on for 1.7e308 *)
Theorem C66_continue_refuted : exists s1 s2,
  setup Z ex_ev ex_o true (ex_cmd [ms 1; ms 10] []) (start_st Z) = Some (Done Z s1) /\ start_of Z s1 == 0 /\ stop_of Z s1 == ms 10 /\
  setup Z ex_ev ex_o false (ex_cmd [] []) (set_last Z (stop_of Z s1) s1) = Some (Done Z s2) /\ start_of Z s2 == ms 10 /\ inject_Z (10 ^ 308) < stop_of Z s2.
Proof.
  eexists. eexists. split; [vm_compute; reflexivity|]. split; [vm_compute; reflexivity|]. split; [vm_compute; reflexivity|]. split; [vm_compute; reflexivity|].
  split; vm_compute; reflexivity.
Qed.
(* step, stop and start in the order of spice, with a start smaller than the step: step and start are swapped *)
Theorem C66_spice_order_refuted : exists s1,
  setup Z ex_ev ex_o true (ex_cmd [ms 2; ms 10; ms 1] []) (start_st Z) = Some (Done Z s1) /\ start_of Z s1 == ms 2 /\ strobe_of Z s1 == ms 1.
Proof. eexists. split; [vm_compute; reflexivity|]. split; vm_compute; reflexivity. Qed.
(* step limits that cannot work are accepted: negative, or a least step above the largest *)
Theorem C66_limits_refuted :
  (exists s1, setup Z ex_ev ex_o true (ex_cmd [ms 1; ms 10; 0] [Dtmax Z (Ex Z (-1)%Z)]) (start_st Z) = Some (Done Z s1) /\ dtmax Z s1 < 0) /\
  (exists s1, setup Z ex_ev ex_o true (ex_cmd [ms 1; ms 10; 0] [Dtmin Z (Num Z (ms 2))]) (start_st Z) = Some (Done Z s1) /\ dtmax Z s1 < dtmin Z s1) /\
  setup Z ex_ev ex_o true (ex_cmd [ms 1; ms 10; 0] [Skip Z (Num Z 0)]) (start_st Z) = Some (Infinite Z).
Proof. split; [|split]; [eexists; split; vm_compute; reflexivity|eexists; split; vm_compute; reflexivity|vm_compute; reflexivity]. Qed.
(* a single argument that is not a positive number fails an assertion *)
Theorem C66_total_refuted :
  setup Z ex_ev ex_o true (mkcmd Z [NA Z] None []) (start_st Z) = None /\ setup Z ex_ev ex_o true (mkcmd Z [Ex Z (-1)%Z] None []) (start_st Z) = None.
Proof. split; vm_compute; reflexivity. Qed.
Definition ex_f : fst_ Z := mkf Z (fresh Z) (fresh Z) (fresh Z) 0 (start_st Z).
(* a negative frequency step is accepted: the simulation would end before it begins *)
Theorem C66_fourier_negative_refuted : exists f,
  f_setup Z ex_ev ex_o [Num Z 0; Ex Z 0%Z; Ex Z (-1)%Z] [] ex_f = Some (FDone Z f) /\ stop_of Z (run Z f) < start_of Z (run Z f).
Proof. eexists. split; vm_compute; reflexivity. Qed.

(* ---- examples ---- *)
Example C66_accepted_ex : exists s1 s2,
  setup Z ex_ev ex_o true (ex_cmd [0; ms 10; ms 1] []) (start_st Z) = Some (Done Z s1) /\ cont Z s1 = false /\
  setup Z ex_ev ex_o false (ex_cmd [ms 15] []) (set_last Z (ms 10) s1) = Some (Done Z s2) /\ cont Z s2 = true /\ start_of Z s2 = ms 10 /\ stop_of Z s2 = ms 15 /\ strobe_of Z s2 = ms 1.
Proof. eexists. eexists. split; [vm_compute; reflexivity|]. split; [vm_compute; reflexivity|]. split; [vm_compute; reflexivity|]. repeat split; vm_compute; reflexivity. Qed.
Example C66_total_ex : exists s1, setup Z ex_ev ex_o true (ex_cmd [ms 10; ms 10; 0] []) (start_st Z) = Some (Done Z s1).
Proof. eexists. vm_compute. reflexivity. Qed.
Example C66_forms_ex : ready Z ex_ev ex_o (start_st Z) /\ Forall (plain_word Z ex_ev) [Cold Z true; Skip Z (Num Z 5)] /\
  runs Z 0 (ms 10) (ms 1) (setup Z ex_ev ex_o true (ex_cmd [ms 1; ms 10] [Cold Z true; Skip Z (Num Z 5)]) (start_st Z)).
Proof.
  assert (R : ready Z ex_ev ex_o (start_st Z)) by (split; [intros H; discriminate H|split; exact I]).
  assert (W : Forall (plain_word Z ex_ev) [Cold Z true; Skip Z (Num Z 5)]) by (repeat constructor; intros H; discriminate H).
  split; [exact R|]. split; [exact W|].
  destruct (C66_forms Z ex_ev ex_o true (start_st Z) _ None W R) as (_ & _ & _ & _ & _ & H & _). apply H. split; reflexivity.
Qed.
Example C66_continue_ex : exists s1 s', setup Z ex_ev ex_o true (ex_cmd [0; ms 10; ms 1] []) (start_st Z) = Some (Done Z s1) /\
  again Z ex_ev ex_o 3 (set_last Z (ms 10) s1) = Some s' /\ start_of Z s' == ms 30 /\ stop_of Z s' == ms 40.
Proof.
  eexists. eexists. split; [vm_compute; reflexivity|]. split; [vm_compute; reflexivity|]. split; vm_compute; reflexivity.
Qed.
Example C66_steps_ex : exists s1, setup Z ex_ev ex_o true (ex_cmd [0; ms 10; ms 1] [Skip Z (Num Z 5); Dtmin Z (NA Z)]) (start_st Z) = Some (Done Z s1) /\
  dtmax Z s1 == 1 # 5000 /\ dtmin Z s1 == 1 # 1000000000000.
Proof. eexists. split; [vm_compute; reflexivity|]. split; vm_compute; reflexivity. Qed.
Example C66_run_ready_ex : exists s1, setup Z ex_ev ex_o true (ex_cmd [0; ms 10; ms 1] []) (start_st Z) = Some (Done Z s1) /\
  hard Z (dtmax_in Z s1) = false /\ hard Z (skip_in Z s1) = false /\ hard Z (dtmin_in Z s1) = false /\ hard Z (dtratio_in Z s1) = false /\
  o_dtmin ex_o <= strobe_of Z s1 /\ strobe_of Z s1 <= BIGBIG /\ dtmax Z s1 == ms 1 /\ dtmin Z s1 == 1 # 1000000000000.
Proof. eexists. split; [vm_compute; reflexivity|]. repeat split; vm_compute; solve [reflexivity|intros H; discriminate H]. Qed.
Example C66_last_option_ex : got Z (Dtmax Z (NA Z)) (options Z ex_ev ex_o [Dtmax Z (Num Z 1); Dtmax Z (Num Z (ms 3)); Cold Z true] (start_st Z)) = Some (mkpar Z (ms 3) (Fixed Z)).
Proof. reflexivity. Qed.
Example C66_fourier_ex : exists f, f_setup Z ex_ev ex_o [Num Z 100] [] ex_f = Some (FDone Z f) /\
  pv Z (fstep Z f) == 100 /\ pv Z (fstart Z f) == 0 /\ pv Z (fstop Z f) == 900 /\ timesteps Z f = 33%Z /\ printed Z f = (0, 9)%Z /\ stop_of Z (run Z f) == 1 # 100.
Proof. eexists. split; [vm_compute; reflexivity|]. repeat split; vm_compute; reflexivity. Qed.
Example C66_fourier_forms_ex : exists f, f_setup Z ex_ev ex_o (map (Num Z) [100; 700]) [] ex_f = Some (FDone Z f) /\
  pv Z (fstart Z f) == 0 /\ pv Z (fstop Z f) == 700 /\ pv Z (fstep Z f) == 100.
Proof. eexists. split; [vm_compute; reflexivity|]. repeat split; vm_compute; reflexivity. Qed.

Print Assumptions C66_accepted.
Print Assumptions C66_total.
Print Assumptions C66_forms.
Print Assumptions C66_continue.
Print Assumptions C66_steps.
Print Assumptions C66_run_ready.
Print Assumptions C66_last_option.
Print Assumptions C66_fourier.
Print Assumptions C66_continue_refuted.
Print Assumptions C66_spice_order_refuted.
Print Assumptions C66_limits_refuted.
Print Assumptions C66_total_refuted.
Print Assumptions C66_fourier_negative_refuted.
Print Assumptions C66_fourier_forms.
