(* What an iteration loads: the value each device computed last.  Used by P_Solver. *)
Require Import ZArith List Bool Lia Ring Field.
Require Import Verif.Loops Verif.FieldSums Verif.Matrix_Model Verif.Matrix_Exact Verif.Matrix_Main Verif.Solver_Model Verif.Solver_Proofs Verif.Solver_Content.
Import ListNotations.
Local Open Scope Z_scope.

Section L.
Variable K : fld.
Add Field Kfl : (fth K).
Notation A := (exA K).
Implicit Types x y : sim A.

Definition newv (k : nat) (x : sim A) := option_map (fun d => map (s_new A) (d_slots A d)) (nth_error (s_devs A x) k).
Definition oldv (k : nat) (x : sim A) := option_map (fun d => map (s_old A) (d_slots A d)) (nth_error (s_devs A x) k).
Definition plain (x : sim A) : Prop := s_iter A x <= 1 \/ s_damp A x = f1 K.
Definition same (x y : sim A) : Prop := s_iter A y = s_iter A x /\ s_damp A y = s_damp A x /\ s_inc A y = s_inc A x /\
  s_log A y = s_log A x /\ length (s_devs A y) = length (s_devs A x).

Lemma load_slot_new : forall o x mf sl M r sl' M' r', quiet K o -> plain x ->
  load_slot A o x mf sl M r = Some (sl', M', r') -> s_new A sl' = s_new A sl /\ s_old A sl' = s_new A sl.
Proof.
  intros o x mf sl M r sl' M' r' Hq Hp E. unfold load_slot in E. unfold dampdiff in E.
  assert (Hd : dn_diff A o (s_new A sl) (s_old A sl) = fsub K (s_new A sl) (s_old A sl)).
  { unfold dn_diff. cbn [nsub n0 exA]. destruct (o_noise A o _ _) eqn:B; [|reflexivity]. apply Hq in B. now rewrite B. }
  rewrite Hd in E. destruct (Z.leb_spec (s_iter A x) 1) as [H1|H1].
  - destruct (load_place A _ _ M r) as [q|]; [|discriminate]. cbn [bind] in E. injection E as <- _ _. now cbn.
  - destruct Hp as [Hp|Hp]; [lia|]. rewrite Hp in E.
    destruct (load_place A _ _ M r) as [q|]; [|discriminate]. cbn [bind] in E. injection E as <- _ _. cbn.
    assert (X : fadd K (s_old A sl) (fmul K (fsub K (s_new A sl) (s_old A sl)) (f1 K)) = s_new A sl).
    { lazymatch goal with |- @eq _ ?a ?b => change (@eq (F K) a b) end. ring. }
    split; exact X.
Qed.

Lemma load_slots_new : forall o x mf l M r l' M' r', quiet K o -> plain x ->
  load_slots A o x mf all l M r = Some (l', M', r') ->
  map (s_new A) l' = map (s_new A) l /\ map (s_old A) l' = map (s_new A) l.
Proof.
  intros o x mf. induction l as [|sl l IH]; intros M r l' M' r' Hq Hp E.
  - cbn in E. injection E as <- _ _. now split.
  - cbn [load_slots] in E. change (all 0%nat) with true in E. cbn iota in E.
    destruct (load_slot A o x mf sl M r) as [((sl', M1), r1)|] eqn:E1; [|discriminate]. cbn [bind] in E.
    change (fun k : nat => all (S k)) with all in E.
    destruct (load_slots A o x mf all l M1 r1) as [((l2, M2), r2)|] eqn:E2; [|discriminate]. cbn [bind] in E.
    injection E as <- _ _. destruct (load_slot_new o x mf sl M r sl' M1 r1 Hq Hp E1) as (N1 & N2).
    destruct (IH M1 r1 l2 M2 r2 Hq Hp E2) as (N3 & N4). cbn [map]. split; f_equal; assumption.
Qed.

Lemma set_nth_same : forall X k (v : X) l, (k < length l)%nat -> nth_error (set_nth k v l) k = Some v.
Proof. intros X. induction k as [|k IH]; intros v [|a l] H; cbn in *; try lia; [reflexivity|]. apply IH. lia. Qed.
Lemma set_nth_other : forall X k j (v : X) l, j <> k -> nth_error (set_nth k v l) j = nth_error l j.
Proof. intros X. induction k as [|k IH]; intros [|j] v [|a l] H; cbn; try congruence. apply IH. congruence. Qed.
Lemma set_nth_len : forall X k (v : X) l, length (set_nth k v l) = length l.
Proof. intros X. induction k as [|k IH]; intros v [|a l]; cbn; congruence || (try now rewrite IH). Qed.

Lemma load_dev_new : forall o k x y, quiet K o -> plain x -> load_dev A o all k x = Some y ->
  same x y /\ (forall j, newv j y = newv j x) /\ oldv k y = newv k x /\ (forall j, j <> k -> oldv j y = oldv j x).
Proof.
  intros o k x y Hq Hp E. unfold load_dev in E. destruct (nth_error (s_devs A x) k) as [d|] eqn:Ed; [|discriminate].
  cbn [bind] in E. destruct (load_slots A o x (d_m A d) all (d_slots A d) (s_mat A x) (s_rhs A x)) as [((sl, M), r)|] eqn:El; [|discriminate].
  cbn [bind] in E. injection E as <-. destruct (load_slots_new _ _ _ _ _ _ _ _ _ Hq Hp El) as (N1 & N2).
  assert (Hk : (k < length (s_devs A x))%nat). { apply nth_error_Some. congruence. }
  split; [repeat split; cbn; apply set_nth_len|]. split; [|split].
  - intros j. unfold newv. cbn. destruct (Nat.eq_dec j k) as [->|Hj].
    + rewrite set_nth_same by assumption. rewrite Ed. cbn. f_equal. exact N1.
    + now rewrite set_nth_other.
  - unfold oldv, newv. cbn. rewrite set_nth_same by assumption. rewrite Ed. cbn. f_equal. exact N2.
  - intros j Hj. unfold oldv. cbn. now rewrite set_nth_other.
Qed.

Lemma same_plain : forall x y, same x y -> plain x -> plain y.
Proof. intros x y (H1 & H2 & _) [H|H]; [left; lia|right; congruence]. Qed.
Lemma same_trans : forall x y z, same x y -> same y z -> same x z.
Proof. intros x y z (A1 & A2 & A3 & A4 & A5) (B1 & B2 & B3 & B4 & B5). repeat split; congruence. Qed.

Definition constv (k : nat) (x : sim A) := option_map (d_const A) (nth_error (s_devs A x) k).
Definition load_one (o : opts A) (b : bool) (k : nat) (x : sim A) : option (sim A) :=
  let* d := nth_error (s_devs A x) k in
  if b && (is_inc (s_inc A x) && d_const A d) then Some x else load_dev A o all k x.
Lemma load_dev_const : forall o k x y j, load_dev A o all k x = Some y -> constv j y = constv j x.
Proof.
  intros o k x y j E. unfold load_dev in E. destruct (nth_error (s_devs A x) k) as [d|] eqn:Ed; [|discriminate].
  cbn [bind] in E. destruct (load_slots A o x (d_m A d) all (d_slots A d) (s_mat A x) (s_rhs A x)) as [((sl, M), r)|] eqn:El; [|discriminate].
  cbn [bind] in E. injection E as <-. unfold constv. cbn.
  assert (Hk : (k < length (s_devs A x))%nat). { apply nth_error_Some. congruence. }
  destruct (Nat.eq_dec j k) as [->|Hj]; [rewrite set_nth_same by assumption; now rewrite Ed|now rewrite set_nth_other].
Qed.

(* a list of loads, some of them skipped, leaves the value of every device loaded *)
Lemma load_list_new : forall o b l x y, quiet K o -> plain x -> foldM (load_one o b) l x = Some y ->
  same x y /\ (forall j, newv j y = newv j x) /\
  (forall j, In j l -> (b = false \/ is_inc (s_inc A x) = false \/ constv j x = Some false) -> oldv j y = newv j x) /\
  (forall j, oldv j x = newv j x -> oldv j y = newv j x).
Proof.
  intros o b. induction l as [|k l IH]; intros x y Hq Hp E; cbn [foldM] in E.
  - injection E as <-. repeat split; try reflexivity; auto. intros j [].
  - destruct (load_one o b k x) as [z|] eqn:Ez; [|discriminate]. cbn [bind] in E.
    assert (Hz : same x z /\ (forall j, newv j z = newv j x) /\ (forall j, constv j z = constv j x) /\
      ((b = false \/ is_inc (s_inc A x) = false \/ constv k x = Some false) -> oldv k z = newv k x) /\
      (forall j, oldv j x = newv j x -> oldv j z = newv j x)).
    { unfold load_one in Ez. destruct (nth_error (s_devs A x) k) as [d|] eqn:Ed; [|discriminate]. cbn [bind] in Ez.
      destruct (b && (is_inc (s_inc A x) && d_const A d)) eqn:Eb.
      - injection Ez as <-. split; [repeat split|]. split; [reflexivity|]. split; [reflexivity|]. split; [|auto].
        intros Hc. exfalso. unfold constv in Hc. rewrite Ed in Hc. cbn in Hc.
        apply andb_true_iff in Eb. destruct Eb as (B1 & B2). apply andb_true_iff in B2. destruct B2 as (B2 & B3).
        destruct Hc as [Hc|[Hc|Hc]]; congruence.
      - pose proof (load_dev_const o k x z) as Hcv.
        destruct (load_dev_new o k x z Hq Hp Ez) as (S1 & N1 & O1 & O2). split; [assumption|]. split; [assumption|]. split; [auto|]. split; [auto|].
        intros j Hj. destruct (Nat.eq_dec j k) as [->|Hn]; [assumption|]. now rewrite O2. }
    destruct Hz as (S1 & N1 & C1 & O1 & O2).
    destruct (IH z y Hq (same_plain _ _ S1 Hp) E) as (S2 & N2 & O3 & O4).
    split; [now apply same_trans with z|]. split; [intros j; now rewrite N2, N1|]. split.
    + intros j Hj Hl. rewrite <- N1. destruct Hj as [->|Hj].
      * apply O4. rewrite N1. now apply O1.
      * apply O3; [assumption|]. rewrite C1. destruct S1 as (_ & _ & -> & _). assumption.
    + intros j Hj. rewrite <- N1. apply O4. rewrite N1. now apply O2.
Qed.

(* the values device k has after a list of events, and whether one of them queued it *)
Fixpoint evaluated (k : nat) (es : list (event A)) (vs : list (F K)) : list (F K) :=
  match es with
  | [] => vs
  | EEval _ j f _ :: es' => evaluated k es' (if Nat.eqb j k then map f (seq 0 (length vs)) else vs)
  | _ :: es' => evaluated k es' vs
  end.
Definition queued (k : nat) (es : list (event A)) : Prop := exists f, In (EEval A k f true) es.

Lemma put_new_vals : forall l (f : nat -> F K), map (s_new A) (put_new A f l) = map f (seq 0 (length l)) /\ map (s_old A) (put_new A f l) = map (s_old A) l.
Proof.
  induction l as [|sl l IH]; intros f; [now split|]. cbn. destruct (IH (fun k => f (S k))) as (H1 & H2).
  rewrite <- seq_shift, map_map. split; f_equal; assumption.
Qed.

Lemma events_new : forall es x y k vs, foldM (do_event A) es x = Some y -> newv k x = Some vs ->
  newv k y = Some (evaluated k es vs) /\ constv k y = constv k x /\ s_iter A y = s_iter A x /\ s_log A y = s_log A x /\
  (is_inc (s_inc A y) = is_inc (s_inc A x)) /\ s_damp A y = s_damp A x /\ length (s_devs A y) = length (s_devs A x) /\
  (In k (s_loadq A x) \/ queued k es -> In k (s_loadq A y)).
Proof.
  induction es as [|e es IH]; intros x y k vs E Hv; cbn [foldM] in E.
  - injection E as <-. repeat split; auto. intros [H|(f & [])]; assumption.
  - destruct (do_event A e x) as [z|] eqn:Ez; [|discriminate]. cbn [bind] in E.
    assert (G : forall vs', newv k z = Some vs' -> constv k z = constv k x -> s_iter A z = s_iter A x -> s_log A z = s_log A x ->
       is_inc (s_inc A z) = is_inc (s_inc A x) -> s_damp A z = s_damp A x -> length (s_devs A z) = length (s_devs A x) ->
       (In k (s_loadq A x) \/ (exists f, e = EEval A k f true) -> In k (s_loadq A z)) ->
       newv k y = Some (evaluated k es vs') /\ constv k y = constv k x /\ s_iter A y = s_iter A x /\ s_log A y = s_log A x /\
       (is_inc (s_inc A y) = is_inc (s_inc A x)) /\ s_damp A y = s_damp A x /\ length (s_devs A y) = length (s_devs A x) /\
       (In k (s_loadq A x) \/ queued k (e :: es) -> In k (s_loadq A y))).
    { intros vs' H1 H2 H3 H4 H5 H6 H7 H8. destruct (IH z y k vs' E H1) as (P1 & P2 & P3 & P4 & P5 & P6 & P7 & P8).
      split; [assumption|]. repeat (split; [congruence|]). intros [H|(f & [H|H])]; apply P8.
      - left. apply H8. now left.
      - left. apply H8. right. now exists f.
      - right. now exists f. }
    destruct e as [j f q| | | |v]; cbn [do_event] in Ez.
    + destruct (nth_error (s_devs A x) j) as [d|] eqn:Ed; [|discriminate]. cbn [bind] in Ez. cbn [evaluated].
      assert (Hj : (j < length (s_devs A x))%nat). { apply nth_error_Some. congruence. }
      assert (Hz : s_devs A z = set_nth j (mkdev A (d_m A d) (d_const A d) (put_new A f (d_slots A d))) (s_devs A x) /\
                   s_loadq A z = (if q then s_loadq A x ++ [j] else s_loadq A x) /\ s_iter A z = s_iter A x /\ s_log A z = s_log A x /\
                   s_inc A z = s_inc A x /\ s_damp A z = s_damp A x).
      { injection Ez as <-. destruct q; repeat split. }
      destruct Hz as (Z1 & Z2 & Z3 & Z4 & Z5 & Z6).
      apply G; try congruence.
      * unfold newv. rewrite Z1. destruct (Nat.eqb_spec j k) as [->|Hn].
        -- rewrite set_nth_same by assumption. cbn. rewrite (proj1 (put_new_vals _ _)).
           unfold newv in Hv. rewrite Ed in Hv. cbn in Hv. injection Hv as <-. now rewrite map_length.
        -- rewrite set_nth_other by congruence. exact Hv.
      * unfold constv. rewrite Z1. destruct (Nat.eq_dec k j) as [->|Hn].
        -- rewrite set_nth_same by assumption. now rewrite Ed.
        -- now rewrite set_nth_other.
      * rewrite Z1. apply set_nth_len.
      * rewrite Z2. intros [H|(g & H)].
        -- destruct q; [apply in_or_app; now left|assumption].
        -- injection H as -> _ ->. apply in_or_app. right. now left.
    + injection Ez as <-. cbn [evaluated]. apply G; try reflexivity; auto; [cbn; now destruct (s_inc A x)|]. intros [H|(g & H)]; [assumption|discriminate].
    + injection Ez as <-. cbn [evaluated]. apply G; try reflexivity; auto. intros [H|(g & H)]; [assumption|discriminate].
    + injection Ez as <-. cbn [evaluated]. apply G; try reflexivity; auto. intros [H|(g & H)]; [assumption|discriminate].
    + injection Ez as <-. cbn [evaluated]. apply G; try reflexivity; auto. intros [H|(g & H)]; [assumption|discriminate].
Qed.

Lemma iteration_loads : forall o st x cc y cc1 k vs, quiet K o -> iteration A o st x cc = Some (y, cc1) ->
  s_log A y <> s_log A x -> plain y -> newv k x = Some vs ->
  (is_inc (s_inc A y) = false) \/ (o_traceload A o = false /\ constv k x = Some false) \/
  (o_traceload A o = true /\ (In k (s_loadq A x) \/ queued k (st_events A st))) ->
  oldv k y = Some (evaluated k (st_events A st) vs) /\
  exists sn rest, s_log A y = sn :: rest /\ sn_devs A sn = s_devs A y.
Proof.
  intros o st x cc y cc1 k vs Hq E Hlog Hp Hv Hl. unfold iteration in E.
  assert (F1 : newv k (set_flags A o x) = newv k x /\ constv k (set_flags A o x) = constv k x /\
     s_loadq A (set_flags A o x) = s_loadq A x /\ s_log A (set_flags A o x) = s_log A x).
  { unfold set_flags. cbn [s_inc with_flags]. destruct (o_incmode A o), (s_inc A x); cbn;
      repeat match goal with |- context [if ?b then _ else _] => destruct b end; repeat split. }
  destruct F1 as (F1 & F2 & F3 & F4). set (x1 := set_flags A o x) in *. clearbody x1.
  destruct (clear_arrays A o x1) as [x2|] eqn:E2; [|discriminate]. cbn [bind] in E.
  assert (F5 : newv k x2 = newv k x1 /\ constv k x2 = constv k x1 /\ s_loadq A x2 = s_loadq A x1 /\ s_log A x2 = s_log A x1).
  { unfold clear_arrays in E2. destruct (is_inc (s_inc A x1)); [injection E2 as <-; repeat split|].
    destruct (dezero A (o_gmin A o) (zero A (aa (s_mat A x1)))); [|discriminate]. cbn [bind] in E2. injection E2 as <-. repeat split. }
  destruct F5 as (F5 & F6 & F7 & F8).
  set (x3 := with_iters A _ _ _ x2) in E.
  destruct (foldM (do_event A) (st_events A st) x3) as [x4|] eqn:E4; [|discriminate]. cbn [bind] in E.
  destruct (events_new _ _ _ k vs E4) as (P1 & P2 & P3 & P4 & P5 & P6 & P7 & P8).
  { change (newv k x3) with (newv k x2). congruence. }
  change (constv k x3) with (constv k x2) in P2. change (s_log A x3) with (s_log A x2) in P4. change (s_loadq A x3) with (s_loadq A x2) in P8.
  set (cc' := if st_conv A st then _ else _) in E. set (cv := if cc' <=? o_itermin A o then _ else _) in E.
  destruct (negb cv || negb (o_fbbypass A o) || o_lt99 A o _).
  2:{ exfalso. injection E as <- _. apply Hlog. cbn. congruence. }
  set (x6 := set_damp A o _) in E.
  assert (F9 : newv k x6 = newv k x4 /\ constv k x6 = constv k x4 /\ s_loadq A x6 = s_loadq A x4 /\ s_inc A x6 = s_inc A x4 /\ s_devs A x6 = s_devs A x4).
  { unfold x6, set_damp. repeat match goal with |- context [if ?b then _ else _] => destruct b end; repeat split. }
  destruct F9 as (F9 & F10 & F11 & F12 & F13). clearbody x6.
  destruct (load_matrix A o x6) as [x7|] eqn:E7; [|discriminate]. cbn [bind] in E.
  destruct (solve_equations A o _ x7) as [x8|] eqn:E8; [|discriminate]. cbn [bind] in E. injection E as -> _.
  assert (F14 : s_devs A y = s_devs A x7 /\ s_iter A y = s_iter A x7 /\ s_damp A y = s_damp A x7 /\ s_inc A y = s_inc A x7 /\
     exists sn rest, s_log A y = sn :: rest /\ sn_devs A sn = s_devs A y).
  { unfold solve_equations in E8. destruct (lu_decomp A _ _) as [MM|]; [|discriminate]. cbn [bind] in E8.
    destruct (fbsub3 A _ _ _) as [vv|]; [|discriminate]. cbn [bind] in E8. injection E8 as <-. repeat split.
    eexists; eexists; split; reflexivity. }
  destruct F14 as (Dv & Di & Dd & Dm & Hsn). split; [|exact Hsn].
  assert (Ho : oldv k y = oldv k x7) by (unfold oldv; now rewrite Dv).
  assert (Hp7 : plain x7). { destruct Hp as [Hp|Hp]; [left; lia|right; congruence]. }
  unfold load_matrix in E7. destruct (o_traceload A o && is_inc (s_inc A x6)) eqn:Et.
  - destruct (foldM (load_dev A o all) (rev (s_loadq A x6)) x6) as [z|] eqn:Ez; [|discriminate]. cbn [bind] in E7. injection E7 as <-.
    assert (Ez' : foldM (load_one o false) (rev (s_loadq A x6)) x6 = Some z).
    { rewrite <- Ez. clear. assert (Hg : forall l u, foldM (load_one o false) l u = foldM (load_dev A o all) l u); [|apply Hg]. induction l as [|a l IH]; intros u; [reflexivity|]. cbn [foldM].
      assert (X : load_one o false a u = load_dev A o all a u).
      { unfold load_one. cbn [andb]. unfold load_dev. destruct (nth_error (s_devs A u) a); reflexivity. }
      rewrite X. destruct (load_dev A o all a u); [apply IH|reflexivity]. }
    assert (Hp6 : plain x6).
    { assert (Hs : forall l u t, foldM (load_one o false) l u = Some t -> s_iter A t = s_iter A u /\ s_damp A t = s_damp A u).
      { induction l as [|a l IH]; intros u t Eu; cbn [foldM] in Eu; [injection Eu as <-; now split|].
        destruct (load_one o false a u) as [u1|] eqn:Eu1; [|discriminate]. cbn [bind] in Eu. destruct (IH _ _ Eu) as (I1 & I2).
        unfold load_one in Eu1. destruct (nth_error (s_devs A u) a) as [d|] eqn:Ed; [|discriminate]. cbn [bind andb] in Eu1.
        unfold load_dev in Eu1. rewrite Ed in Eu1. cbn [bind] in Eu1.
        destruct (load_slots A o u (d_m A d) all (d_slots A d) (s_mat A u) (s_rhs A u)) as [((sl, M), r)|]; [|discriminate].
        cbn [bind] in Eu1. injection Eu1 as <-. cbn in I1, I2. now split. }
      destruct (Hs _ _ _ Ez') as (S1 & S2). destruct Hp7 as [Hx|Hx]; cbn in Hx; [left; lia|right; congruence]. }
    destruct (load_list_new o false _ x6 z Hq Hp6 Ez') as (_ & _ & Ol & _).
    rewrite Ho. change (oldv k (with_loadq A [] z)) with (oldv k z). rewrite Ol; [rewrite F9; exact P1| |now left].
    apply in_rev. rewrite rev_involutive, F11. apply P8.
    apply andb_true_iff in Et. destruct Et as (Et1 & Et2).
    assert (Hzi : s_inc A z = s_inc A x6).
    { destruct (load_list_new o false _ x6 z Hq Hp6 Ez') as ((_ & _ & S3 & _) & _). exact S3. }
    destruct Hl as [Hl|[(Hl & _)|(_ & Hl)]]; [exfalso; cbn in Dm; congruence|congruence|].
    destruct Hl as [Hl|Hl]; [left; congruence|now right].
  - unfold load_all in E7. change (s_devs A (with_loadq A [] x6)) with (s_devs A x6) in E7.
    change (foldM (load_one o true) (seq 0 (length (s_devs A x6))) (with_loadq A [] x6) = Some x7) in E7.
    assert (Hp6 : plain (with_loadq A [] x6)).
    { assert (Hs : forall l u t, foldM (load_one o true) l u = Some t -> s_iter A t = s_iter A u /\ s_damp A t = s_damp A u).
      { induction l as [|a l IH]; intros u t Eu; cbn [foldM] in Eu; [injection Eu as <-; now split|].
        destruct (load_one o true a u) as [u1|] eqn:Eu1; [|discriminate]. cbn [bind] in Eu. destruct (IH _ _ Eu) as (I1 & I2).
        unfold load_one in Eu1. destruct (nth_error (s_devs A u) a) as [d|] eqn:Ed; [|discriminate]. cbn [bind] in Eu1.
        destruct (true && (is_inc (s_inc A u) && d_const A d)); [injection Eu1 as <-; now split|].
        unfold load_dev in Eu1. rewrite Ed in Eu1. cbn [bind] in Eu1.
        destruct (load_slots A o u (d_m A d) all (d_slots A d) (s_mat A u) (s_rhs A u)) as [((sl, M), r)|]; [|discriminate].
        cbn [bind] in Eu1. injection Eu1 as <-. cbn in I1, I2. now split. }
      destruct (Hs _ _ _ E7) as (S1 & S2). destruct Hp7 as [Hx|Hx]; [left; congruence|right; congruence]. }
    destruct (load_list_new o true _ _ x7 Hq Hp6 E7) as ((_ & _ & S3 & _) & _ & Ol & _).
    rewrite Ho, Ol; [change (newv k (with_loadq A [] x6)) with (newv k x6); rewrite F9; exact P1| |].
    + apply in_seq. split; [lia|]. cbn. apply nth_error_Some. unfold newv in P1. rewrite F13.
      destruct (nth_error (s_devs A x4) k); [discriminate|discriminate P1].
    + right. change (constv k (with_loadq A [] x6)) with (constv k x6). cbn in S3.
      change (s_inc A (with_loadq A [] x6)) with (s_inc A x6).
      destruct Hl as [Hl|[(_ & Hl)|(Hl & _)]].
      * left. congruence.
      * right. congruence.
      * rewrite Hl in Et. cbn in Et. now left.
Qed.
End L.
