(* Lemmas for P_Fault.v: the search for names and the text of the commands. *)
Require Import String Ascii List Bool ZArith QArith Lia ZifyBool.
Require Import Verif.Loops Verif.CS_Model Verif.Wmatch_Model Verif.CS_Proofs Verif.CS_Ops Verif.CS_Float Verif.Probes_Text Verif.Fault_Model Verif.Fault_Proofs.
Import ListNotations.
Open Scope Z_scope.
Open Scope list_scope.

Notation Done := Fault_Model.Done.
Notation Undef := Fault_Model.Undef.
Notation NoEnd := Fault_Model.NoEnd.
Notation card := Fault_Model.card.
Notation Card := Fault_Model.Card.
Notation obind := Fault_Model.obind.
Notation txt := Fault_Model.txt.
Notation cut_last := Fault_Model.cut_last.
Notation TOKENTERM := Fault_Model.TOKENTERM.

(* a card of the list or of something in it *)
Inductive inside : list card -> card -> Prop :=
| in_here : forall l c, In c l -> inside l c
| in_sub : forall l c m k, In c l -> sub c = Some m -> inside m k -> inside l k.

Lemma findbranch_in : forall ci n wanted here x, In x (findbranch ci n wanted here) -> inside here x.
Proof.
  intros ci n. induction n as [|n IH]; intros wanted here x H; cbn [findbranch] in H; [destruct H|].
  destruct wanted as [|c0 wanted]; [destruct H|].
  destruct (match cut_last (c0 :: wanted) with Some (a, b) => (Some a, b) | None => (None, c0 :: wanted) end) as [local last].
  enough (G : forall pre, inside (pre ++ here) x) by exact (G []).
  induction here as [|k rest IHr]; [destruct H|]. intros pre.
  assert (Cut : forall Z : list card, (forall pre, inside (pre ++ rest) x) -> inside (pre ++ k :: rest) x).
  { intros _ G. replace (pre ++ k :: rest) with ((pre ++ [k]) ++ rest) by now rewrite <- app_assoc. apply G. }
  destruct (wmatch ci (label k) last).
  - destruct local as [loc|].
    + destruct (sub k) as [m|] eqn:S.
      * destruct (findbranch ci n loc m) as [|y ys] eqn:F; [now apply (Cut []), IHr|]. apply in_sub with k m; [apply in_or_app; right; now left|exact S|]. apply (IH loc m). now rewrite F.
      * now apply (Cut []), IHr.
    + apply in_here. apply in_or_app. now right.
  - now apply (Cut []), IHr.
Qed.
Lemma find_in : forall ci wanted here x, In x (find ci wanted here) -> inside here x.
Proof. intros. unfold find in *. eapply findbranch_in; eassumption. Qed.
Lemma inside_trans : forall l r x, (forall k, In k r -> inside l k) -> inside r x -> inside l x.
Proof.
  intros l r x H I. induction I as [r c I|r c m k I S J IHI]; [auto|]. clear IHI.
  specialize (H c I). clear I r. induction H as [l c I|l d m' c I S' H IH]; [now apply in_sub with c m|]. apply in_sub with d m'; auto.
Qed.

(* what a command did, as changes in turn *)
Definition mk (fault : bool) (v : Q) (c : card) : change := if fault then Faulted c v else Modified c v.
Definition change_card (ch : change) : card := match ch with Faulted c _ => c | Modified c _ => c end.
Definition is_mk (fault : bool) (ch : change) : Prop := exists v c, ch = mk fault v c.
Lemma apply1_mk : forall fault v c w, apply1 (mk fault v c) w = if fault then faultbranch c v w else modifybranch c v w.
Proof. now intros []. Qed.
Section S.
Variables (ci : bool) (u : units) (pow : Q -> Q -> Q) (steps count : Z) (lg : bool).
Notation each_match := (each_match ci u pow steps count lg).
Notation modify_fault := (modify_fault ci u pow steps count lg).
Notation command := (command ci u pow steps count lg).
Lemma each_match_changes : forall scope n fault mark cmax here s w m s' w', (forall k, inside here k -> inside scope k) ->
  each_match n fault mark cmax here s w = Done (m, s', w') ->
  exists l, apply l w = Done w' /\ forall ch, In ch l -> is_mk fault ch /\ inside scope (change_card ch).
Proof.
  intros scope n. induction n as [|n IH]; intros fault mark cmax here s w m s' w' Hi H; [discriminate H|]. cbn [Fault_Model.each_match] in H. cbv zeta in H.
  destruct (ctostr BUFLEN TOKENTERM (reset mark s)) as [[wanted s1]|]; [|discriminate H]. cbn [txt obind] in H.
  destruct (find ci wanted here) as [|k rest] eqn:F.
  - injection H as <- <- <-. exists []. split; [reflexivity|intros ? []].
  - destruct (skip1bc "=" s1) as [s2|]; [|discriminate H]. cbn [txt obind] in H.
    destruct (if fault then sweep_fix u pow steps count lg s2 else txt (ctof u s2)) as [[v s3]| | |]; try discriminate H. cbn [obind] in H.
    rewrite <- apply1_mk in H. destruct (apply1 (mk fault v k) w) as [w1| | |] eqn:A; try discriminate H. cbn [obind] in H.
    assert (Hr : forall x, In x (k :: rest) -> inside scope x) by (intros x J; apply Hi; apply (find_in ci wanted); now rewrite F).
    destruct (IH _ _ _ _ _ _ _ _ _ (fun x J => inside_trans scope rest x (fun y Y => Hr y (or_intror Y)) J) H) as (l & E & P).
    exists (mk fault v k :: l). split; [cbn [apply]; rewrite A; exact E|]. intros ch [<-|J]; [|now apply P].
    split; [now exists v, k|]. replace (change_card (mk fault v k)) with k by now destruct fault. apply Hr. now left.
Qed.
Lemma modify_fault_changes : forall scope n fault s w w', modify_fault n fault scope s w = Done w' ->
  exists l, apply l w = Done w' /\ forall ch, In ch l -> is_mk fault ch /\ inside scope (change_card ch).
Proof.
  intros scope n. induction n as [|n IH]; intros fault s w w' H; [discriminate H|]. cbn [Fault_Model.modify_fault] in H.
  destruct (is_alpha s) as [[]|]; [| |discriminate H]; cbn [txt obind] in H; [|injection H as <-; exists []; split; [reflexivity|intros ? []]]. cbv zeta in H.
  destruct (each_match (Datatypes.S (weights scope)) fault (cnt s) (cnt s) scope s w) as [[[cmax s1] w1]| | |] eqn:E; try discriminate H. cbn [obind] in H.
  destruct (if cnt s =? cmax then _ else _) as [s2| | |]; try discriminate H. cbn [obind] in H.
  destruct (each_match_changes scope _ _ _ _ _ _ _ _ _ _ (fun k J => J) E) as (l1 & A1 & P1). destruct (IH _ _ _ _ H) as (l2 & A2 & P2).
  exists (l1 ++ l2). split; [rewrite apply_app, A1; exact A2|]. intros ch J. apply in_app_or in J. destruct J as [J|J]; auto.
Qed.
Lemma command_changes : forall scope fault s w w', command fault scope s w = Done w' ->
  exists l, apply l w = Done w' /\ forall ch, In ch l -> is_mk fault ch /\ inside scope (change_card ch).
Proof. intros. eapply modify_fault_changes. eassumption. Qed.

(* the search ends *)
Lemma weights_cons : forall k l, weights (k :: l) = (weight k + weights l)%nat. Proof. reflexivity. Qed.
Lemma weight_sub : forall k m, sub k = Some m -> weight k = Datatypes.S (weights m).
Proof.
  intros [l i q s] m H. cbn [sub] in H. subst s. reflexivity.
Qed.
Lemma weight_pos : forall k, (0 < weight k)%nat. Proof. intros []. cbn. lia. Qed.
Lemma findbranch_weight : forall n wanted here, (weights (findbranch ci n wanted here) <= weights here)%nat.
Proof.
  intros n. induction n as [|n IH]; intros wanted here; cbn [findbranch]; [cbn; lia|]. destruct wanted as [|c0 wanted]; [cbn; lia|].
  destruct (match cut_last (c0 :: wanted) with Some (a, b) => (Some a, b) | None => (None, c0 :: wanted) end) as [local last].
  induction here as [|k rest IHr]; [cbn; lia|]. rewrite weights_cons. destruct (wmatch ci (label k) last); [|lia].
  destruct local as [loc|]; [|rewrite weights_cons; lia]. destruct (sub k) as [m|] eqn:S; [|lia].
  destruct (findbranch ci n loc m) as [|y ys] eqn:F; [lia|]. rewrite (weight_sub k m S), <- F. specialize (IH loc m). lia.
Qed.
Lemma find_weight : forall wanted here, (weights (find ci wanted here) <= weights here)%nat.
Proof. intros. apply findbranch_weight. Qed.
Lemma sweep_fix_noend : forall s, sweep_fix u pow steps count lg s <> NoEnd.
Proof.
  intros s. unfold sweep_fix. destruct (ctof u s) as [[a s1]|]; cbn [txt obind]; [|discriminate]. destruct (steps =? 0); [discriminate|].
  destruct (is_float s1) as [[]|]; cbn [txt obind]; try discriminate. destruct (ctof u s1) as [[b s2]|]; cbn [txt obind]; [|discriminate].
  unfold sweep_value. destruct lg; [destruct (Qeq_bool a 0)|]; cbn [obind]; discriminate.
Qed.
Lemma set_value_noend : forall i v c w, set_value i v c w <> NoEnd.
Proof.
  intros i v c w. unfold set_value. destruct (w_live w i); [|discriminate]. cbv zeta. destruct (same_ptr c _); cbn [obind]; [discriminate|].
  unfold detach, attach. destruct (e_common (w_elem w i)) as [k|]; [destruct (0 <? w_cnt w k)|]; cbn [obind]; try discriminate;
   (destruct c as [q|]; [match goal with |- context [0 <? ?x] => destruct (0 <? x) end|]; cbn [obind]; discriminate).
Qed.
Lemma apply1_noend : forall ch w, apply1 ch w <> NoEnd.
Proof.
  intros [c v|c v] w; cbn [apply1]; [|unfold modifybranch; destruct (kind c); try discriminate; apply set_value_noend].
  unfold faultbranch. destruct (kind c); [discriminate| |]; (destruct (sub c); [discriminate|]); [discriminate|].
  unfold push_stash, make_stash. destruct (w_live w (ident c)); [|discriminate].
  destruct (e_common (w_elem w (ident c))) as [k|] eqn:E.
  - cbn [attach]. destruct (0 <? w_cnt w k); cbn [obind s_elem]; [|discriminate]. rewrite E. cbn [attach].
    match goal with |- context [0 <? ?x] => destruct (0 <? x) end; cbn [obind]; [|discriminate]. cbn [detach].
    match goal with |- context [0 <? ?x] => destruct (0 <? x) end; cbn [obind]; [|discriminate]. apply set_value_noend.
  - cbn [attach obind s_elem]. rewrite E. cbn [attach detach obind]. apply set_value_noend.
Qed.
(* where a command stands: in its text *)
Definition on (line : list ascii) (s : cs) : Prop := exists r, vw line r s.
Lemma on_reset : forall line s m, on line s -> (exists r s0, vw line r s0 /\ cnt s0 = m) -> on line (reset m s).
Proof. intros line s m (r & V) (r0 & s0 & V0 & <-). exists r0. now apply vw_reset with r. Qed.
Definition place (line : list ascii) (m : Z) : Prop := exists r s0, vw line r s0 /\ cnt s0 = m.
Lemma place_max : forall line a b, place line a -> place line b -> place line (Z.max a b).
Proof. intros line a b A B. destruct (Z.max_spec a b) as [[_ ->]|[_ ->]]; assumption. Qed.
Lemma sweep_fix_on : forall line s v s', on line s -> sweep_fix u pow steps count lg s = Done (v, s') -> on line s'.
Proof.
  intros line s v s' (r & V) H. unfold sweep_fix in H. destruct (ctof u s) as [[a s1]|] eqn:E; [|discriminate H]. cbn [txt obind] in H.
  destruct (ctof_some _ _ _ _ _ _ V E) as (r1 & V1 & _). destruct (steps =? 0); [injection H as <- <-; now exists r1|].
  destruct (is_float s1) as [[]|]; cbn [txt obind] in H; try discriminate H; [|injection H as <- <-; now exists r1].
  destruct (ctof u s1) as [[b s2]|] eqn:E2; [|discriminate H]. cbn [txt obind] in H. destruct (ctof_some _ _ _ _ _ _ V1 E2) as (r2 & V2 & _).
  destruct (sweep_value pow steps count lg a b); try discriminate H. injection H as <- <-. now exists r2.
Qed.
Lemma each_match_ends : forall line n fault mark cmax here s w, (weights here < n)%nat -> on line s -> place line mark -> place line cmax -> mark <= cmax ->
  match each_match n fault mark cmax here s w with
  | Done (m, s', _) => on line s' /\ place line m /\ mark <= m
  | NoEnd => False
  | _ => True
  end.
Proof.
  intros line n. induction n as [|n IH]; intros fault mark cmax here s w Hn Ho Hm Hc L; [lia|]. cbn [Fault_Model.each_match]. cbv zeta.
  assert (O1 := on_reset line s mark Ho Hm). destruct O1 as (r & V). destruct (ctostr_vw line TOKENTERM BUFLEN r _ V) as (wanted & s1 & r1 & E1 & V1 & S1 & _).
  rewrite E1. cbn [txt obind]. destruct (find ci wanted here) as [|k rest] eqn:F.
  - split; [apply on_reset; [now exists r1|]; now exists r, (reset mark s)|]. assert (C : cnt (reset (cnt (reset mark s)) s1) = mark) by reflexivity. rewrite C. split; [now apply place_max|lia].
  - destruct (skip1bc_vw line r1 s1 "=" ltac:(discriminate) V1) as (s2 & E2 & V2 & _). rewrite E2. cbn [txt obind].
    assert (R : match (if fault then sweep_fix u pow steps count lg s2 else txt (ctof u s2)) with Done (_, s3) => on line s3 | NoEnd => False | _ => True end).
    { destruct fault.
      - destruct (sweep_fix u pow steps count lg s2) as [[v s3]| | |] eqn:E; auto; [apply sweep_fix_on with s2 v; [eexists; exact V2|exact E]|now elim (sweep_fix_noend s2)].
      - destruct (ctof u s2) as [[v s3]|] eqn:E; cbn [txt]; auto. destruct (ctof_some _ _ _ _ _ _ V2 E) as (r3 & V3 & _). now exists r3. }
    destruct (if fault then _ else _) as [[v s3]| | |]; try exact I; [|exact R]. cbn [obind]. rewrite <- apply1_mk.
    pose proof (apply1_noend (mk fault v k) w) as N. destruct (apply1 (mk fault v k) w) as [w1| | |]; try exact I; [|congruence]. cbn [obind].
    apply IH.
    + pose proof (find_weight wanted here) as W. rewrite F, weights_cons in W. pose proof (weight_pos k). lia.
    + exact R.
    + exact Hm.
    + apply place_max; [apply place_max; [exact Hc|now exists r1, s1]|]. destruct R as (r3 & V3). now exists r3, s3.
    + lia.
Qed.
Lemma alpha_plain : forall c, falpha c = true -> fblank c = false -> c <> NUL /\ Ascii.eqb c "/" = false /\ Ascii.eqb c ";" = false /\ Ascii.eqb c "'" = false.
Proof. intros [[] [] [] [] [] [] [] []]; vm_compute; intros H B; try discriminate H; try discriminate B; (split; [discriminate|repeat split; reflexivity]). Qed.
Lemma skiparg_dead : forall s, more s = None -> skiparg s = None.
Proof.
  intros s H. unfold skiparg, skipcom, skip1b. unfold more in H. destruct (skipbl s) as [s1|]; [|reflexivity]. cbn [bind] in *. unfold ns_more in H.
  unfold skip1, match1. destruct (peek s1); [discriminate H|reflexivity].
Qed.
Lemma modify_fault_ends : forall line n fault scope r s w, vw line r s -> (List.length r < n)%nat -> modify_fault n fault scope s w <> NoEnd.
Proof.
  intros line n. induction n as [|n IH]; intros fault scope r s w V L; [lia|]. cbn [Fault_Model.modify_fault].
  rewrite (is_alpha_vw _ _ _ V). cbn [txt obind]. destruct (falpha (head r)) eqn:A; [|discriminate]. cbv zeta.
  assert (P : place line (cnt s)) by now exists r, s.
  pose proof (each_match_ends line (Datatypes.S (weights scope)) fault (cnt s) (cnt s) scope s w (Nat.lt_succ_diag_r _) (ex_intro _ r V) P P (Z.le_refl _)) as E.
  destruct (each_match (Datatypes.S (weights scope)) fault (cnt s) (cnt s) scope s w) as [[[m s1] w1]| | |]; try discriminate; [|contradiction].
  destruct E as ((r1 & V1) & (rm & sm & Vm & Cm) & Lm). cbn [obind].
  assert (V2 : vw line rm (reset m s1)) by (rewrite <- Cm; now apply vw_reset with r1).
  pose proof (vw_cnt _ _ _ V) as C. pose proof (vw_cnt _ _ _ Vm) as C'. rewrite Cm in C'.
  destruct (Z.eqb_spec (cnt s) m) as [E|E].
  - assert (rm = r). { apply (vw_fun line rm r (set_cnt sm m)); [now rewrite <- Cm; destruct sm|]. rewrite <- E. apply vw_back with rm; assumption. } subst rm.
    destruct (skipbl_vw _ _ _ V2) as (s3 & E3 & V3 & _). destruct (fblank (head r)) eqn:B.
    + assert (Lb : (List.length (dropbl r) < List.length r)%nat).
      { destruct r as [|c q]; [discriminate B|]. change (head (c :: q)) with c in B. unfold dropbl. cbn [drop_while]. rewrite B. pose proof (drop_len fblank q). cbn [List.length]. lia. }
      assert (Ck : check ci (reset m s1) = check ci s3).
      { unfold check. rewrite E3. cbn [bind]. destruct (skipbl_vw _ _ _ V3) as (s3' & E3' & _ & K & _). rewrite E3'. cbn [bind]. now rewrite (K (dropbl_head _)). }
      rewrite Ck. destruct (check_any ci line (dropbl r) s3 V3) as (s4 & E4 & [(r4 & V4 & S4)|D4]); rewrite E4; cbn [txt obind].
      * destruct (skiparg_vw line r4 s4 V4) as (s5 & r5 & E5 & V5 & S5 & _). rewrite E5. cbn [txt obind]. apply IH with r5; [exact V5|].
        apply suffix_len in S4. apply suffix_len in S5. lia.
      * now rewrite (skiparg_dead _ D4).
    + destruct (alpha_plain _ A B) as (N & A1 & A2 & A3). assert (D : dropbl r = r) by now apply drop_idem. rewrite D in V3.
      unfold check. rewrite E3. cbn [bind]. rewrite (peek_vw _ _ _ V3). cbn [bind]. rewrite A1, A2, A3. cbn [orb].
      destruct (Ascii.eqb_spec (head r) NUL); [congruence|]. cbn [txt obind].
      destruct (skiparg_vw line r (set_ok s3 false) (vw_ok _ _ _ _ V3)) as (s4 & r4 & E4 & V4 & _ & _ & L4). rewrite E4. cbn [txt obind].
      apply IH with r4; [exact V4|]. rewrite D in L4. specialize (L4 N). lia.
  - cbn [obind]. apply IH with rm; [exact V2|lia].
Qed.
Lemma command_ends : forall fault scope line w, command fault scope (cs_string line) w <> NoEnd.
Proof. intros. unfold Fault_Model.command. apply modify_fault_ends with line line; [apply vw_start|]. cbn. lia. Qed.

(* a name without dots: the cards that match, in turn *)
Definition hit (name : list ascii) (c : card) : bool := wmatch ci (label c) name.
Lemma find_simple : forall name here, name <> [] -> cut_last name = None ->
  find ci name here = (fix skip (l : list card) := match l with [] => [] | k :: r => if hit name k then l else skip r end) here.
Proof.
  intros name here N C. unfold find. cbn [findbranch]. destruct name as [|c0 name]; [congruence|]. rewrite C. unfold hit.
  induction here as [|k rest IH]; [reflexivity|]. destruct (wmatch ci (label k) (c0 :: name)); [reflexivity|exact IH].
Qed.
Lemma find_simple_split : forall name here, name <> [] -> cut_last name = None ->
  (find ci name here = [] /\ filter (hit name) here = []) \/
  (exists k rest, find ci name here = k :: rest /\ filter (hit name) here = k :: filter (hit name) rest /\ (List.length rest < List.length here)%nat).
Proof.
  intros name here N C. rewrite (find_simple name here N C). induction here as [|k rest IH]; [now left|]. cbn [filter]. destruct (hit name k) eqn:H.
  - right. exists k, rest. repeat split. cbn. lia.
  - destruct IH as [[E F]|(k' & rest' & E & F & L)]; [now left|]. right. exists k', rest'. split; [exact E|]. split; [exact F|]. cbn. lia.
Qed.
Definition reader (fault : bool) (s : cs) : outcome (Q * cs) := if fault then sweep_fix u pow steps count lg s else txt (ctof u s).
Lemma each_match_vw : forall line fault name v r r1 r3 s1' s3' s',
  name <> [] -> cut_last name = None ->
  (forall s, vw line r s -> exists s1, ctostr BUFLEN TOKENTERM s = Some (name, s1) /\ vw line r1 s1) ->
  (forall s, vw line (eat1b (fun c => Ascii.eqb c "=") r1) s -> exists s3, reader fault s = Done (v, s3) /\ vw line r3 s3) ->
  vw line r s' -> vw line r1 s1' -> vw line r3 s3' ->
  forall n here cmax s w w', (List.length here < n)%nat -> on line s ->
  apply (map (mk fault v) (filter (hit name) here)) w = Done w' ->
  exists s2, on line s2 /\ each_match n fault (cnt s') cmax here s w =
    Done (match filter (hit name) here with [] => Z.max cmax (cnt s') | _ => Z.max (Z.max (Z.max cmax (cnt s1')) (cnt s3')) (cnt s') end, s2, w').
Proof.
  intros line fault name v r r1 r3 s1' s3' s' N C Hn Hv V' V1' V3' n. induction n as [|n IH]; intros here cmax s w w' Ln O A; [lia|].
  cbn [Fault_Model.each_match]. cbv zeta. destruct O as (r0 & V0). assert (Vr := vw_reset _ _ _ _ _ V' V0).
  destruct (Hn _ Vr) as (s1 & E1 & V1). rewrite E1. cbn [txt obind].
  destruct (find_simple_split name here N C) as [[F G]|(k & rest & F & G & L)]; rewrite F, G in *.
  - cbn [map apply] in A. injection A as <-. eexists. split; [|reflexivity]. apply on_reset; [now exists r1|]. exists r, s'. split; [exact V'|reflexivity].
  - destruct (skip1bc_vw line r1 s1 "=" ltac:(discriminate) V1) as (s2 & E2 & V2 & _). rewrite E2. cbn [txt obind].
    destruct (Hv _ V2) as (s3 & E3 & V3). fold (reader fault s2). rewrite E3. cbn [obind]. rewrite <- apply1_mk.
    cbn [map apply] in A. destruct (apply1 (mk fault v k) w) as [w1| | |]; try discriminate A. cbn [obind] in *.
    rewrite (vw_cnt _ _ _ V1), <- (vw_cnt _ _ _ V1'), (vw_cnt _ _ _ V3), <- (vw_cnt _ _ _ V3').
    destruct (IH rest (Z.max (Z.max cmax (cnt s1')) (cnt s3')) s3 w1 w' ltac:(lia) (ex_intro _ r3 V3) A) as (s4 & O4 & E4).
    exists s4. split; [exact O4|]. rewrite E4. destruct (filter (hit name) rest); [reflexivity|]. match goal with |- Fault_Model.Done (?x, _, _) = Fault_Model.Done (?y, _, _) => replace x with y by lia end. reflexivity.
Qed.
End S.
