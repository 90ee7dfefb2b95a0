(* C59, continued: when a solve counts as converged.  The loop is that of Solver_Model.v, for any
   arithmetic and any circuit. *)
Require Import ZArith List Bool Lia ZifyBool.
Require Import Verif.Loops Verif.FieldSums Verif.Matrix_Model Verif.Matrix_Layout Verif.Matrix_LU Verif.Matrix_Load
  Verif.Matrix_Exact Verif.Matrix_Spec Verif.Matrix_Main Verif.Solver_Model Verif.Solver_Proofs Verif.Solver_Content Verif.Solver_Loaded Verif.P_Matrix Verif.P_Solver.
Import ListNotations.
Local Open Scope Z_scope.

Section Converge.
Context (A : arith).
Variable o : opts A.
Variable w : world A.

(* ---- vocabulary ---- *)
(* in pass number t of the run every device was satisfied and none limited a voltage *)
Definition settled (t : Z) : Prop :=
  st_conv A (w_step A w t) = true /\ ~ In (ELimit A) (st_events A (w_step A w t)).
(* the last itermin + 1 of k passes that began with number t0 were like that *)
Definition quiet_end (t0 k : Z) : Prop :=
  o_itermin A o < k /\ forall j, k - o_itermin A o - 1 <= j < k -> settled (t0 + j).

(* ---- proofs ---- *)
Definition counters (x y : sim A) : Prop :=
  s_iter A y = s_iter A x /\ s_total A y = s_total A x /\ s_conv A y = s_conv A x.
Lemma counters_refl : forall x, counters x x. Proof. now repeat split. Qed.
Lemma counters_trans : forall x y z, counters x y -> counters y z -> counters x z.
Proof. intros x y z (a & b & c) (d & e & f). repeat split; congruence. Qed.
Lemma fold_counters : forall X (f : X -> sim A -> option (sim A)) l, (forall k x y, f k x = Some y -> counters x y) ->
  forall x y, foldM f l x = Some y -> counters x y.
Proof.
  intros X f l Hf. induction l as [|k l IH]; intros x y E; cbn in E; [injection E as <-; apply counters_refl|].
  destruct (f k x) as [z|] eqn:Ez; [|discriminate]. cbn in E. exact (counters_trans _ _ _ (Hf _ _ _ Ez) (IH _ _ E)).
Qed.
Lemma load_dev_counters : forall m k x y, load_dev A o m k x = Some y -> counters x y.
Proof.
  intros m k x y E. unfold load_dev in E. destruct (nth_error (s_devs A x) k); [|discriminate]. cbn [bind] in E.
  destruct (load_slots _ _ _ _ _ _ _ _) as [[[? ?] ?]|]; [|discriminate]. cbn [bind] in E. injection E as <-. now repeat split.
Qed.
Lemma load_matrix_counters : forall x y, load_matrix A o x = Some y -> counters x y.
Proof.
  intros x y E. unfold load_matrix in E. destruct (_ && _).
  - destruct (foldM _ _ _) as [z|] eqn:Ez; [|discriminate]. injection E as <-.
    pose proof (fold_counters _ _ _ (load_dev_counters (all)) _ _ Ez) as (a & b & c). now repeat split.
  - unfold load_all in E. eapply counters_trans; [|refine (fold_counters _ _ _ _ _ _ E)]; [now repeat split|].
    intros k u v Hv. destruct (nth_error _ _) as [d|]; [|discriminate]. cbn [bind] in Hv. destruct (_ && _); [injection Hv as <-; apply counters_refl|exact (load_dev_counters _ _ _ _ Hv)].
Qed.
Lemma solve_equations_counters : forall f x y, solve_equations A o f x = Some y -> counters x y.
Proof.
  intros f x y E. unfold solve_equations in E. destruct (lu_decomp _ _ _); [|discriminate]. cbn [bind] in E.
  destruct (fbsub3 _ _ _ _); [|discriminate]. injection E as <-. now repeat split.
Qed.
Lemma set_flags_counters : forall x, counters x (set_flags A o x) /\ s_limiting A (set_flags A o x) = false.
Proof.
  intros x. unfold set_flags. cbn [s_inc with_flags]. destruct (negb (o_incmode A o)); [now repeat split|].
  destruct (s_inc A x); cbn; repeat match goal with |- context [if ?b then _ else _] => destruct b end; now repeat split.
Qed.
Lemma do_event_counters : forall e x y, do_event A e x = Some y -> counters x y /\
  (s_limiting A y = match e with ELimit _ => true | _ => s_limiting A x end).
Proof.
  intros [k f q| | | |v] x y E; cbn in E; try (injection E as <-; now repeat split).
  destruct (nth_error _ _); [|discriminate]. cbn [bind] in E. injection E as <-. destruct q; now repeat split.
Qed.
Lemma events_counters : forall l x y, foldM (do_event A) l x = Some y -> counters x y /\
  (s_limiting A y = true <-> s_limiting A x = true \/ In (ELimit A) l).
Proof.
  induction l as [|e l IH]; intros x y E; cbn in E; [injection E as <-; split; [apply counters_refl|cbn; tauto]|].
  destruct (do_event A e x) as [z|] eqn:Ez; [|discriminate]. cbn in E.
  destruct (do_event_counters _ _ _ Ez) as [Cz Lz]. destruct (IH _ _ E) as [Cy Ly]. split; [exact (counters_trans _ _ _ Cz Cy)|].
  rewrite Ly, Lz. cbn [In]. destruct e; intuition congruence.
Qed.
Lemma aevents_counters : forall l x y, foldM (do_aevent A o) l x = Some y -> counters x y.
Proof.
  intros l. apply fold_counters. intros [e|k m] x y E; cbn in E; [exact (proj1 (do_event_counters _ _ _ E))|].
  unfold unload in E. destruct (nth_error _ _); [|discriminate]. cbn [bind] in E.
  apply load_dev_counters in E. destruct E as (a & b & c). now repeat split.
Qed.
Lemma pass : forall st x cc y cc1, iteration A o st x cc = Some (y, cc1) ->
  s_iter A y = s_iter A x + 1 /\ s_total A y = s_total A x + 1 /\
  (st_conv A st = true /\ ~ In (ELimit A) (st_events A st) /\ cc1 = cc + 1 \/
   ~ (st_conv A st = true /\ ~ In (ELimit A) (st_events A st)) /\ cc1 = 0) /\
  s_conv A y = (if cc1 <=? o_itermin A o then false else st_conv A st).
Proof.
  intros st x cc y cc1 E. unfold iteration in E. destruct (set_flags_counters x) as [(a1 & b1 & _) L1].
  set (x1 := set_flags A o x) in *. clearbody x1.
  destruct (clear_arrays A o x1) as [x2|] eqn:E2; [|discriminate]. cbn [bind] in E.
  assert (H2 : s_iter A x2 = s_iter A x1 /\ s_total A x2 = s_total A x1 /\ s_limiting A x2 = s_limiting A x1).
  { unfold clear_arrays in E2. destruct (is_inc _); [injection E2 as <-; now repeat split|]. destruct (dezero _ _ _); [|discriminate]. injection E2 as <-. now repeat split. }
  destruct H2 as (a2 & b2 & L2). rewrite L1 in L2.
  destruct (foldM _ _ _) as [x4|] eqn:E4; [|discriminate]. cbn [bind] in E.
  destruct (events_counters _ _ _ E4) as [(a4 & b4 & _) L4]. cbn [with_iters s_iter s_total s_limiting] in a4, b4, L4. rewrite L2 in L4.
  set (c1 := if st_conv A st then _ else _) in E. set (conv := if c1 <=? _ then _ else _) in E.
  assert (Hc : st_conv A st = true /\ ~ In (ELimit A) (st_events A st) /\ c1 = cc + 1 \/
     ~ (st_conv A st = true /\ ~ In (ELimit A) (st_events A st)) /\ c1 = 0).
  { unfold c1. destruct (st_conv A st); [|right; split; [intros [? _]; discriminate|reflexivity]].
    destruct (s_limiting A x4); [right|left]; (split; [|]); try tauto; try reflexivity.
    - intros [_ N]. apply N. destruct (proj1 L4 eq_refl); [discriminate|assumption].
    - split; [|reflexivity]. intros N. discriminate (proj2 L4 (or_intror N)). }
  cbn [with_flags s_damp] in E.
  destruct (_ || _).
  - destruct (load_matrix _ _ _) as [x7|] eqn:E7; [|discriminate]. cbn [bind] in E.
    destruct (solve_equations _ _ _ _) as [x8|] eqn:E8; [|discriminate]. injection E as <- <-.
    destruct (load_matrix_counters _ _ E7) as (a7 & b7 & c7). destruct (solve_equations_counters _ _ _ E8) as (a8 & b8 & c8).
    assert (H6 : forall u, counters u (set_damp A o u)).
    { intros u. unfold set_damp. repeat match goal with |- context [if ?b then _ else _] => destruct b end; now repeat split. }
    match type of E7 with context [set_damp A o ?u] => destruct (H6 u) as (a6 & b6 & c6) end. cbn in a6, b6, c6.
    split; [lia|]. split; [lia|]. split; [exact Hc|]. rewrite c8, c7, c6. reflexivity.
  - injection E as <- <-. cbn. split; [lia|]. split; [lia|]. split; [exact Hc|]. reflexivity.
Qed.

(* the count: how many passes up to now, at the end, were settled *)
Definition trailing (t0 k cc : Z) : Prop :=
  0 <= cc <= k /\ (forall j, k - cc <= j < k -> settled (t0 + j)) /\ (cc < k -> ~ settled (t0 + (k - cc - 1))).
Lemma trailing_end : forall t0 k cc, 0 <= o_itermin A o -> trailing t0 k cc -> (quiet_end t0 k <-> o_itermin A o < cc).
Proof.
  intros t0 k cc Hm (R & G & N). unfold quiet_end. split.
  - intros [L Q]. destruct (Z_lt_le_dec (o_itermin A o) cc) as [|H]; [assumption|]. elim N; [lia|]. apply Q. lia.
  - intros H. split; [lia|]. intros j Hj. apply G. lia.
Qed.
Lemma loop_converges : forall itl, 0 <= o_itermin A o -> forall fuel t0 x cc y, loop A fuel o itl w x cc = Some y -> s_total A x = t0 + s_iter A x ->
  trailing t0 (s_iter A x) cc -> ~ quiet_end t0 (s_iter A x) ->
  s_total A y = t0 + s_iter A y /\ s_iter A x < s_iter A y /\
  (s_conv A y = true <-> quiet_end t0 (s_iter A y)) /\ (forall k, s_iter A x <= k < s_iter A y -> ~ quiet_end t0 k) /\
  (s_conv A y = false -> itl < s_iter A y).
Proof.
  intros itl Hm. induction fuel as [|fuel IH]; intros t0 x cc y E Ht Htr Nq; [discriminate|]. cbn [loop] in E.
  destruct (iteration _ _ _ _ _) as [[z cc1]|] eqn:Ez; [|discriminate]. cbn [bind] in E.
  destruct (pass _ _ _ _ _ Ez) as (Iz & Tz & Cz & Vz). rewrite Ht in Cz.
  assert (Htz : trailing t0 (s_iter A z) cc1).
  { destruct Htr as (R & G & N). rewrite Iz. destruct Cz as [(S1 & S2 & ->)|(S1 & ->)].
    - split; [lia|]. split.
      + intros j Hj. destruct (Z.eq_dec j (s_iter A x)) as [->|]; [now split|]. apply G. lia.
      + intros L. replace (s_iter A x + 1 - (cc + 1) - 1) with (s_iter A x - cc - 1) by lia. apply N. lia.
    - split; [lia|]. split; [intros j Hj; lia|]. intros _. replace (s_iter A x + 1 - 0 - 1) with (s_iter A x) by lia. exact S1. }
  assert (Hq : s_conv A z = true <-> quiet_end t0 (s_iter A z)).
  { rewrite (trailing_end _ _ _ Hm Htz), Vz, Ht. destruct (Z.leb_spec cc1 (o_itermin A o)) as [L|L]; split; intros H; try discriminate; try lia. }
  destruct (s_conv A z) eqn:Cv; cbn [negb andb] in E.
  - injection E as <-. rewrite Cv. split; [lia|]. split; [lia|]. split; [exact Hq|]. split; [|discriminate].
    intros k Hk. replace k with (s_iter A x) by lia. exact Nq.
  - destruct (Z.ltb_spec itl (s_iter A z)); cbn [negb] in E.
    + injection E as <-. rewrite Cv. split; [lia|]. split; [lia|]. split; [exact Hq|]. split; [|intros _; assumption].
      intros k Hk. replace k with (s_iter A x) by lia. exact Nq.
    + destruct (IH t0 z cc1 y E ltac:(lia) Htz) as (a & b & c & d & e); [rewrite <- Hq; discriminate|].
      split; [exact a|]. split; [lia|]. split; [exact c|]. split; [|exact e]. intros k Hk.
      destruct (Z.eq_dec k (s_iter A x)) as [->|]; [exact Nq|]. apply d. lia.
Qed.

(* A solve stops at the first pass that ends a run of more than itermin passes in which every device
   was satisfied with its values and none limited a voltage, and then, only then, counts as
   converged; otherwise it goes on beyond itl passes. *)
Theorem C59_convergence : forall itl x y, 0 <= o_itermin A o -> solve A o itl w x = Some y ->
  s_total A y = s_total A x + s_iter A y /\ 1 <= s_iter A y /\
  (s_conv A y = true <-> quiet_end (s_total A x) (s_iter A y)) /\
  (forall k, 1 <= k < s_iter A y -> ~ quiet_end (s_total A x) k) /\
  (s_conv A y = false -> itl < s_iter A y).
Proof.
  intros itl x y Hm E. unfold solve in E. destruct (s_loadq A x); [|discriminate].
  destruct (foldM _ _ _) as [x2|] eqn:E2; [|discriminate]. cbn [bind] in E.
  destruct (aevents_counters _ _ _ E2) as (a & b & _). cbn in a, b.
  destruct (loop_converges itl Hm _ (s_total A x) _ _ _ E) as (H1 & H2 & H3 & H4 & H5); cbn [with_damp s_total s_iter].
  - lia.
  - rewrite a. split; [lia|]. split; [intros; lia|lia].
  - rewrite a. intros [L _]. lia.
  - cbn [with_damp s_iter] in H2, H4. rewrite a in H2, H4. split; [exact H1|]. split; [lia|]. split; [exact H3|]. split; [|exact H5].
    intros k Hk. apply H4. lia.
Qed.
End Converge.
Print Assumptions C59_convergence.

(* the circuit of ex_C08_run, whose device is satisfied from pass number 4 on, with itermin = 1; in
   pass number 5 a device limits a voltage, so that the count begins anew *)
Definition wld_lim : world (exA QcFld) :=
  mkworld (exA QcFld) (w_adv (exA QcFld) wld1)
    (fun t => let st := w_step (exA QcFld) wld1 t in mkstep (exA QcFld) (st_events (exA QcFld) st ++ (if t =? 5 then [ELimit (exA QcFld)] else [])) (st_conv (exA QcFld) st)).
Example ex_C59_convergence : exists y,
  (let* M := start_mat (exA QcFld) 2 ws1 jq (qz 1) in solve (exA QcFld) (opt1 true true (qz 0)) 10 wld_lim (fresh M tsBAD (qz 1) jq jq ckt1)) = Some y /\
  s_iter (exA QcFld) y = 8 /\ s_conv (exA QcFld) y = true.
Proof.
  destruct (om_inv _ _ (fun y => (s_iter (exA QcFld) y, s_conv (exA QcFld) y))
    (let* M := start_mat (exA QcFld) 2 ws1 jq (qz 1) in solve (exA QcFld) (opt1 true true (qz 0)) 10 wld_lim (fresh M tsBAD (qz 1) jq jq ckt1)) (8, true)) as (y & E & H).
  - vm_compute. reflexivity.
  - exists y. injection H as H1 H2. auto.
Qed.
(* with itl = 6 it gives up after 7 passes *)
Example ex_C59_gives_up : exists y,
  (let* M := start_mat (exA QcFld) 2 ws1 jq (qz 1) in solve (exA QcFld) (opt1 true true (qz 0)) 6 wld_lim (fresh M tsBAD (qz 1) jq jq ckt1)) = Some y /\
  s_iter (exA QcFld) y = 7 /\ s_conv (exA QcFld) y = false.
Proof.
  destruct (om_inv _ _ (fun y => (s_iter (exA QcFld) y, s_conv (exA QcFld) y))
    (let* M := start_mat (exA QcFld) 2 ws1 jq (qz 1) in solve (exA QcFld) (opt1 true true (qz 0)) 6 wld_lim (fresh M tsBAD (qz 1) jq jq ckt1)) (7, false)) as (y & E & H).
  - vm_compute. reflexivity.
  - exists y. injection H as H1 H2. auto.
Qed.
