(* C77: which function an element uses in which analysis *)
Require Import String.
Require Import ZArith List Ascii Bool Lia Permutation.
Require Import Verif.Loops Verif.Wmatch_Model Verif.CS_Model Verif.CS_Proofs Verif.CS_Ops Verif.CS_Word Verif.Parse_Proofs Verif.Probes_Cmd Verif.Probes_Canon Verif.Cond_Model.
Import ListNotations.
Local Open Scope string_scope.
Local Open Scope list_scope.

Section Clauses.
Context {F : Type} (is_value ac_too : F -> bool).
Notation clause := (mode * option F)%type.
Notation tbl := (table is_value ac_too).

(* ---- what is meant ---- *)
(* a value without a label, given to a source *)
Definition plain_value (src : bool) (c : clause) : bool :=
  src && mode_eqb (fst c) NONE && match snd c with Some f => is_value f | None => false end.
Definition dcish (src : bool) (c : clause) : bool := mode_eqb (fst c) DC || plain_value src c.
(* the label a clause counts as, after the clauses pre: a plain value of a source is its dc value,
   unless a dc value came before *)
Definition counted (src : bool) (pre : list clause) (c : clause) : mode :=
  if plain_value src c && negb (existsb (dcish src) pre) then DC else fst c.
Definition nobody (src : bool) (l : list clause) (m : mode) : Prop := forall pre c post, l = pre ++ c :: post -> counted src pre c <> m.
(* the last clause that counts as m, which has pre before it *)
Definition last_for (src : bool) (l : list clause) (m : mode) (pre : list clause) (c : clause) : Prop :=
  exists post, l = pre ++ c :: post /\ counted src pre c = m /\ forall p2 c2 q2, post = p2 ++ c2 :: q2 -> counted src (pre ++ c :: p2) c2 <> m.
(* the labels looked for, in order *)
Definition wanted (m : mode) : list mode :=
  match m with
  | NONE => []
  | OP => [OP; DC; NONE; TRAN]
  | DC => [DC; NONE; OP; TRAN]
  | TRAN => [TRAN; NONE; DC; OP]
  | FOURIER => [FOURIER; TRAN; NONE; DC; OP]
  | AC => [AC; NONE]
  end.
(* a source takes a function without a label for ac only if the function says so *)
Definition refused (src : bool) (m k : mode) (c : clause) : Prop :=
  src = true /\ m = AC /\ k = NONE /\ match snd c with Some f => ac_too f = false | None => True end.
(* what the analysis m is to use: the function of clause c, which has pre before it, or nothing *)
Inductive choice (src : bool) (l : list clause) (m : mode) : option (list clause * clause) -> Prop :=
  | choose : forall ks k ks' pre c, wanted m = ks ++ k :: ks' -> (forall k', In k' ks -> nobody src l k') -> last_for src l k pre c -> ~ refused src m k c -> choice src l m (Some (pre, c))
  | nothing : (forall k, In k (wanted m) -> nobody src l k \/ exists pre c, last_for src l k pre c /\ refused src m k c) -> choice src l m None.
(* the object made for a clause *)
Definition made_for (x : option (list clause * clause)) : @obj F :=
  match x with Some (pre, (_, Some f)) => Made (List.length pre) f | _ => Zero end.

(* ---- the loop ---- *)
Lemma meq : forall a b, mode_eqb a b = true <-> a = b.
Proof. intros [] []; cbn; split; intros H; try reflexivity; discriminate H. Qed.
Lemma meq_refl : forall a, mode_eqb a a = true.
Proof. now intros []. Qed.
Lemma put_same : forall T (t : mode -> T) m v, put t m v m = v.
Proof. intros. unfold put. now rewrite meq_refl. Qed.
Lemma put_other : forall T (t : mode -> T) m v k, k <> m -> put t m v k = t k.
Proof. intros T t m v k N. unfold put. destruct (mode_eqb k m) eqn:E; [apply meq in E; contradiction|reflexivity]. Qed.

Lemma snoc_split : forall (l : list clause) c pre c1 post, l ++ [c] = pre ++ c1 :: post ->
  (post = [] /\ pre = l /\ c1 = c) \/ exists post', post = post' ++ [c] /\ l = pre ++ c1 :: post'.
Proof.
  intros l c pre c1 post E. destruct post as [|x post _] using rev_ind.
  - left. apply app_inj_tail in E. destruct E; auto.
  - right. exists post. rewrite app_comm_cons, app_assoc in E. apply app_inj_tail in E. destruct E as [E ->]. auto.
Qed.
Definition rawst (src : bool) (l : list clause) : state := fold_left (step is_value src) l start.
Definition holds (src : bool) (l : list clause) (st : @state F) (m : mode) : Prop :=
  (isset st m = false /\ func st m = None /\ nobody src l m) \/
  (isset st m = true /\ exists pre c, last_for src l m pre c /\ func st m = Some (made_for (Some (pre, c)))).
Lemma raw_ok : forall src l, (forall m, holds src l (rawst src l) m) /\ made (rawst src l) = List.length l /\ isset (rawst src l) DC = existsb (dcish src) l.
Proof.
  intros src l. induction l as [|c l IH] using rev_ind.
  - split; [|split; reflexivity]. intros m. left. split; [reflexivity|]. split; [reflexivity|]. intros pre c post E. destruct pre; discriminate E.
  - destruct IH as (H & Hm & Hd). unfold rawst in *. rewrite fold_left_app. cbn [fold_left]. set (st := fold_left (step is_value src) l start) in *.
    destruct c as [m0 of]. unfold step.
    set (m1 := if src && mode_eqb m0 NONE && negb (isset st DC) && match of with Some f => is_value f | None => false end then DC else m0).
    assert (E1 : m1 = counted src l (m0, of)).
    { unfold m1, counted, plain_value. cbn [fst snd]. rewrite Hd. destruct src, (mode_eqb m0 NONE), (existsb (dcish true) l), (match of with Some f => is_value f | None => false end); cbn [andb negb]; reflexivity || (cbn; reflexivity). }
    split; [|split].
    + intros m. destruct (mode_eqb m m1) eqn:Em.
      * apply meq in Em. subst m. right. cbn [isset func]. rewrite !put_same. split; [reflexivity|]. exists l, (m0, of). split.
        -- exists []. split; [reflexivity|]. split; [now rewrite E1|]. intros p2 c2 q2 X. destruct p2; discriminate X.
        -- unfold made_for. rewrite Hm. destruct of; reflexivity.
      * assert (Nm : m <> m1) by (intros ->; rewrite meq_refl in Em; discriminate Em).
        destruct (H m) as [(A & B & C)|(A & pre & c & (post & L1 & L2 & L3) & B)].
        -- left. cbn [isset func]. rewrite !put_other by assumption. split; [assumption|]. split; [assumption|]. intros pre c post E.
           destruct (snoc_split _ _ _ _ _ E) as [(-> & -> & ->)|(post' & -> & E')]; [rewrite <- E1; congruence|exact (C _ _ _ E')].
        -- right. cbn [isset func]. rewrite !put_other by assumption. split; [assumption|]. exists pre, c. split; [|assumption].
           exists (post ++ [(m0, of)]). split; [rewrite L1, <- app_assoc; reflexivity|]. split; [assumption|]. intros p2 c2 q2 E.
           destruct (snoc_split _ _ _ _ _ E) as [(-> & -> & ->)|(post' & -> & E')]; [rewrite <- L1, <- E1; congruence|exact (L3 _ _ _ E')].
    + cbn [made]. rewrite Hm, app_length. cbn [List.length]. lia.
    + cbn [isset]. rewrite existsb_app. cbn [existsb]. rewrite orb_false_r. unfold put. destruct (mode_eqb DC m1) eqn:Em.
      * apply meq in Em. rewrite E1 in Em. unfold counted in Em. unfold dcish at 2. destruct (plain_value src (m0, of)); [now rewrite !orb_true_r|]. cbn [andb] in Em. cbn [fst] in *. subst m0. cbn. now rewrite orb_true_r.
      * assert (Nm : DC <> m1) by (intros X; rewrite <- X in Em; discriminate Em). rewrite E1 in Nm. unfold counted in Nm. rewrite Hd.
        unfold dcish at 3. cbn [fst] in *. destruct (plain_value src (m0, of)) eqn:P.
        -- destruct (existsb (dcish src) l); [reflexivity|]. cbn in Nm. contradiction.
        -- cbn [andb] in Nm. destruct (mode_eqb m0 DC) eqn:Q; [apply meq in Q; congruence|]. now rewrite orb_false_r.
Qed.
Lemma raw_set : forall src l m, isset (rawst src l) m = match func (rawst src l) m with Some _ => true | None => false end.
Proof. intros src l m. destruct (proj1 (raw_ok src l) m) as [(A & B & _)|(A & pre & c & _ & B)]; rewrite A, B; reflexivity. Qed.

(* ---- the rules ---- *)
Definition first_of {T} (l : list (option T)) : option T := fold_right (fun x r => match x with Some _ => x | None => r end) None l.
Definition allowed (src : bool) (st : @state F) (m : mode) : list mode :=
  match m with AC => if negb src || ac_too_of ac_too (func st NONE) then [AC; NONE] else [AC] | _ => wanted m end.
Definition guard (st : @state F) (a : mode) : option obj := if isset st a then func st a else None.
Lemma rule_func : forall (st : @state F) d a k, func (rule st d a) k = if mode_eqb k d then match func st d with Some o => Some o | None => guard st a end else func st k.
Proof.
  intros st d a k. unfold rule, guard. destruct (func st d) as [o|] eqn:E.
  - destruct (mode_eqb k d) eqn:Q; [apply meq in Q; congruence|reflexivity].
  - destruct (isset st a) eqn:S; cbn [func]; unfold put; destruct (mode_eqb k d) eqn:Q; try reflexivity. apply meq in Q. congruence.
Qed.
Lemma rule_rest : forall (st : @state F) d a, isset (rule st d a) = isset st /\ warned (rule st d a) = warned st.
Proof. intros st d a. unfold rule. destruct (func st d); [auto|]. destruct (isset st a); auto. Qed.
Lemma default_func : forall (st : @state F) d o k, func (default st d o) k = if mode_eqb k d then match func st d with Some x => Some x | None => o end else func st k.
Proof.
  intros st d o k. unfold default. destruct (func st d) as [x|] eqn:E; cbn [func]; [destruct (mode_eqb k d) eqn:Q; [apply meq in Q; congruence|reflexivity]|].
  unfold put. reflexivity.
Qed.
Lemma default_rest : forall (st : @state F) d o, isset (default st d o) = isset st /\ warned (default st d o) = warned st.
Proof. intros st d o. unfold default. destruct (func st d); auto. Qed.
Lemma guard_rule : forall (st : @state F) d a b, b <> d -> guard (rule st d a) b = guard st b.
Proof. intros st d a b N. unfold guard. rewrite (proj1 (rule_rest st d a)), rule_func. destruct (mode_eqb b d) eqn:E; [apply meq in E; contradiction|reflexivity]. Qed.
Lemma group_func : forall (st : @state F) d a b c k, a <> d -> b <> d -> c <> d ->
  func (default (rule (rule (rule st d a) d b) d c) d (Some Zero)) k =
  if mode_eqb k d then Some (match first_of [func st d; guard st a; guard st b; guard st c] with Some o => o | None => Zero end) else func st k.
Proof.
  intros st d a b c k Na Nb Nc. rewrite default_func, !rule_func, meq_refl. rewrite !guard_rule by assumption.
  destruct (mode_eqb k d); [|reflexivity]. cbn [first_of fold_right]. destruct (func st d); [reflexivity|]. destruct (guard st a); [reflexivity|]. destruct (guard st b); [reflexivity|]. destruct (guard st c); reflexivity.
Qed.
Lemma group_rest : forall (st : @state F) d a b c, let st' := default (rule (rule (rule st d a) d b) d c) d (Some Zero) in isset st' = isset st /\ warned st' = warned st.
Proof.
  intros st d a b c st'. unfold st'. destruct (default_rest (rule (rule (rule st d a) d b) d c) d (Some Zero)) as [-> ->]. destruct (rule_rest (rule (rule st d a) d b) d c) as [-> ->].
  destruct (rule_rest (rule st d a) d b) as [-> ->]. apply rule_rest.
Qed.
Lemma fill_func : forall src (st : @state F), (forall m, isset st m = match func st m with Some _ => true | None => false end) ->
  (forall m, m <> NONE -> func (fill ac_too src st) m = Some (match first_of (map (func st) (allowed src st m)) with Some o => o | None => Zero end)) /\
  func (fill ac_too src st) NONE = func st NONE /\ isset (fill ac_too src st) = isset st /\ warned (fill ac_too src st) = warned st.
Proof.
  intros src st H. unfold fill.
  set (s1 := default (rule (rule (rule st OP DC) OP NONE) OP TRAN) OP (Some Zero)).
  set (s2 := default (rule (rule (rule s1 DC NONE) DC OP) DC TRAN) DC (Some Zero)).
  set (s3 := default (rule (rule (rule s2 TRAN NONE) TRAN DC) TRAN OP) TRAN (Some Zero)).
  cbv zeta. set (s4 := default s3 FOURIER (func s3 TRAN)).
  destruct (group_rest st OP DC NONE TRAN) as [I1 W1]. fold s1 in I1, W1. destruct (group_rest s1 DC NONE OP TRAN) as [I2 W2]. fold s2 in I2, W2.
  destruct (group_rest s2 TRAN NONE DC OP) as [I3 W3]. fold s3 in I3, W3. destruct (default_rest s3 FOURIER (func s3 TRAN)) as [I4 W4]. fold s4 in I4, W4.
  assert (F1 : forall k, func s1 k = if mode_eqb k OP then Some (match first_of (map (func st) (wanted OP)) with Some o => o | None => Zero end) else func st k).
  { intros k. unfold s1. rewrite group_func by discriminate. unfold guard. rewrite !H. destruct (mode_eqb k OP); [|reflexivity]. cbn. destruct (func st OP), (func st DC), (func st NONE), (func st TRAN); reflexivity. }
  assert (G : forall t k, isset t = isset st -> (k <> OP -> k <> DC -> k <> TRAN -> func t k = func st k) -> True) by auto. clear G.
  assert (F2 : forall k, func s2 k = if mode_eqb k DC then Some (match first_of (map (func st) (wanted DC)) with Some o => o | None => Zero end) else func s1 k).
  { intros k. unfold s2. rewrite group_func by discriminate. unfold guard. rewrite I1, !H, !F1. destruct (mode_eqb k DC); [|reflexivity]. cbn. destruct (func st DC), (func st NONE), (func st OP), (func st TRAN); reflexivity. }
  assert (F3 : forall k, func s3 k = if mode_eqb k TRAN then Some (match first_of (map (func st) (wanted TRAN)) with Some o => o | None => Zero end) else func s2 k).
  { intros k. unfold s3. rewrite group_func by discriminate. unfold guard. rewrite I2, I1, !H, !F2, !F1. destruct (mode_eqb k TRAN); [|reflexivity]. cbn. destruct (func st TRAN), (func st NONE), (func st DC), (func st OP); reflexivity. }
  assert (F4 : forall k, func s4 k = if mode_eqb k FOURIER then Some (match first_of (map (func st) (wanted FOURIER)) with Some o => o | None => Zero end) else func s3 k).
  { intros k. unfold s4. rewrite default_func, !F3, !F2, !F1. destruct (mode_eqb k FOURIER); [|reflexivity]. cbn. destruct (func st FOURIER); reflexivity. }
  assert (N4 : func s4 NONE = func st NONE) by (rewrite F4, F3, F2, F1; reflexivity).
  rewrite N4. unfold allowed. destruct (negb src || ac_too_of ac_too (func st NONE)).
  - destruct (default_rest (rule s4 AC NONE) AC (Some Zero)) as [I5 W5]. destruct (rule_rest s4 AC NONE) as [I6 W6].
    split; [|split; [|split; congruence]].
    + intros m Nm. rewrite default_func, !rule_func. unfold guard. rewrite I4, I3, I2, I1, H. cbn [mode_eqb]. destruct m; [contradiction| | | | |]; cbn [mode_eqb]; rewrite ?F4, ?F3, ?F2, ?F1; cbn [mode_eqb]; try reflexivity.
      cbn. destruct (func st AC), (func st NONE); reflexivity.
    + rewrite default_func, !rule_func. cbn [mode_eqb]. exact N4.
  - destruct (default_rest s4 AC (Some Zero)) as [I5 W5]. split; [|split; [|split; congruence]].
    + intros m Nm. rewrite default_func. destruct m; [contradiction| | | | |]; cbn [mode_eqb]; rewrite ?F4, ?F3, ?F2, ?F1; cbn [mode_eqb]; try reflexivity. cbn. destruct (func st AC); reflexivity.
    + rewrite default_func. cbn [mode_eqb]. exact N4.
Qed.

(* ---- C77 ---- *)
Lemma first_choice : forall src l m, m <> NONE -> exists x, choice src l m x /\
  match first_of (map (func (rawst src l)) (allowed src (rawst src l) m)) with Some o => o | None => Zero end = made_for x.
Proof.
  intros src l m Nm. pose proof (proj1 (raw_ok src l)) as H. set (st := rawst src l) in *.
  assert (Walk : forall ks done, wanted m = done ++ ks -> (forall k', In k' done -> nobody src l k') -> (m <> AC \/ negb src || ac_too_of ac_too (func st NONE) = true) ->
    exists x, choice src l m x /\ match first_of (map (func st) ks) with Some o => o | None => Zero end = made_for x).
  { intros ks. induction ks as [|k ks IH]; intros done E D NR.
    - exists None. split; [|reflexivity]. apply nothing. intros k Hk. left. apply D. rewrite E, app_nil_r in Hk. exact Hk.
    - cbn [map first_of fold_right]. fold (first_of (map (func st) ks)). destruct (H k) as [(A & B & C)|(A & pre & c & L & B)]; rewrite B.
      + apply (IH (done ++ [k])); [now rewrite <- app_assoc|intros k' Hk; apply in_app_iff in Hk; destruct Hk as [Hk|[<-|[]]]; [now apply D|assumption]|assumption].
      + exists (Some (pre, c)). split; [|reflexivity]. eapply choose; [exact E|exact D|exact L|].
        intros (R1 & R2 & R3 & R4). subst. destruct NR as [NR|NR]; [contradiction|]. rewrite B in NR. cbn [negb orb ac_too_of made_for] in NR. destruct c as [m0 [f|]]; cbn in NR, R4; congruence. }
  unfold allowed. destruct m; try (apply (Walk _ []); [reflexivity|intros k' []|left; discriminate]).
  destruct (negb src || ac_too_of ac_too (func st NONE)) eqn:Q; [apply (Walk _ []); [reflexivity|intros k' []|right; reflexivity]|].
  apply orb_false_iff in Q. destruct Q as [Q1 Q2]. apply negb_false_iff in Q1.
  cbn [map first_of fold_right]. destruct (H AC) as [(A & B & C)|(A & pre & c & L & B)]; rewrite B.
  - exists None. split; [|reflexivity]. apply nothing. intros k Hk. cbn in Hk. destruct Hk as [<-|[<-|[]]]; [now left|].
    destruct (H NONE) as [(A2 & B2 & C2)|(A2 & pre & c & L & B2)]; [now left|]. right. exists pre, c. split; [assumption|]. repeat split; try assumption.
    rewrite B2 in Q2. destruct c as [m0 [f|]]; cbn in Q2 |- *; auto.
  - exists (Some (pre, c)). split; [|reflexivity]. apply (choose src l AC [] AC [NONE] pre c); [reflexivity|intros k' []|assumption|]. intros (_ & _ & X & _). discriminate X.
Qed.
Lemma made_in : forall src l m i f, (func (rawst src l) m = Some (Made i f)) -> exists m0, nth_error l i = Some (m0, Some f).
Proof.
  intros src l m i f E. destruct (proj1 (raw_ok src l) m) as [(A & B & _)|(A & pre & c & (post & L & _) & B)]; [congruence|].
  rewrite B in E. destruct c as [m0 [g|]]; cbn in E; [|discriminate E]. injection E as <- <-. exists m0. rewrite L. rewrite nth_error_app2 by lia. now rewrite Nat.sub_diag.
Qed.
Lemma filled_from : forall src l m o, func (tbl src l) m = Some o -> o = Zero \/ exists k, func (rawst src l) k = Some o.
Proof.
  intros src l m o E. destruct (fill_func src (rawst src l) (raw_set src l)) as (A & B & _). change (fill ac_too src (rawst src l)) with (tbl src l) in A, B.
  destruct (mode_eqb m NONE) eqn:Q; [apply meq in Q; subst m; right; exists NONE; congruence|].
  assert (Nm : m <> NONE) by (intros ->; discriminate Q). rewrite (A m Nm) in E. injection E as E.
  revert E. generalize (allowed src (rawst src l) m). intros ks. induction ks as [|k ks IH]; cbn [map first_of fold_right]; [intros <-; now left|].
  destruct (func (rawst src l) k) as [x|] eqn:X; [intros ->; right; now exists k|]. exact IH.
Qed.
(* the analysis m uses the function that is to be chosen, whether the table is kept or only one
   function of it *)
Theorem C77_choice : forall src l m, m <> NONE ->
  exists k x, deflate (tbl src l) = Some k /\ choice src l m x /\ used k m = Some (made_for x).
Proof.
  intros src l m Nm. destruct (fill_func src (rawst src l) (raw_set src l)) as (A & B & _). change (fill ac_too src (rawst src l)) with (tbl src l) in A, B.
  destruct (first_choice src l m Nm) as (x & C & E). specialize (A m Nm) as Am. rewrite E in Am.
  unfold deflate. destruct (forallb _ analyses) eqn:Q.
  - rewrite forallb_forall in Q. assert (In m analyses) as Hm by (destruct m; cbn; auto 8; contradiction). specialize (Q m Hm). rewrite Am in Q.
    destruct (func (tbl src l) NONE) as [o|] eqn:EN; [|discriminate Q]. exists (Single o), x. split; [reflexivity|]. split; [assumption|]. cbn [used]. f_equal.
    destruct (made_for x) as [|i f] eqn:Em, o as [|j g]; cbn [same_obj] in Q; try discriminate Q; [reflexivity|]. apply Nat.eqb_eq in Q. subst j.
    destruct (filled_from _ _ _ _ Am) as [X|(k1 & X)]; [discriminate X|]. destruct (filled_from _ _ _ _ EN) as [Y|(k2 & Y)]; [discriminate Y|].
    destruct (made_in _ _ _ _ _ X) as (m1 & N1). destruct (made_in _ _ _ _ _ Y) as (m2 & N2). rewrite N1 in N2. injection N2 as _ ->. reflexivity.
  - exists (Whole (tbl src l)), x. split; [reflexivity|]. split; [assumption|]. exact Am.
Qed.

(* two things a clause can be chosen for are the same thing: the choice is unique *)
Lemma nobody_last : forall src l k pre c, nobody src l k -> last_for src l k pre c -> False.
Proof. intros src l k pre c N (post & E & C & _). exact (N _ _ _ E C). Qed.
Lemma last_unique : forall src l k pre c pre' c', last_for src l k pre c -> last_for src l k pre' c' -> pre = pre' /\ c = c'.
Proof.
  assert (W : forall src l k pre c pre' c', last_for src l k pre c -> last_for src l k pre' c' -> (List.length pre < List.length pre')%nat -> False).
  { intros src l k pre c pre' c' (post & E & C & L) (post' & E' & C' & L') Lt. rewrite E in E'.
    assert (X : exists p2, pre' = pre ++ c :: p2 /\ post = p2 ++ c' :: post').
    { clear -E' Lt. revert pre' E' Lt. induction pre as [|a pre IH]; intros [|b pre'] E Lt; cbn [List.length app] in *; try lia.
      - injection E as <- ->. exists pre'. auto.
      - injection E as <- E. destruct (IH pre' E ltac:(lia)) as (p2 & -> & ->). exists p2. auto. }
    destruct X as (p2 & -> & ->). apply (L p2 c' post'); [reflexivity|]. exact C'. }
  intros src l k pre c pre' c' H H'. destruct (Nat.lt_trichotomy (List.length pre) (List.length pre')) as [Lt|[Eq|Lt]]; [exfalso; eapply (W src l k pre c pre' c'); eassumption| |exfalso; eapply (W src l k pre' c' pre c); eassumption].
  destruct H as (post & E & _), H' as (post' & E' & _). rewrite E in E'. clear -E' Eq. revert pre' E' Eq. induction pre as [|a pre IH]; intros [|b pre'] E Eq; cbn [List.length app] in *; try lia.
  - injection E as -> _. auto.
  - injection E as <- E. destruct (IH pre' E ltac:(lia)) as (-> & ->). auto.
Qed.
Theorem C77_one_choice : forall src l m x y, choice src l m x -> choice src l m y -> x = y.
Proof.
  intros src l m x y H H'.
  assert (K : forall ks k ks' js j js' : list mode -> Prop, True) by auto. clear K.
  assert (Sp : forall (a : list mode) k b a' k' b', a ++ k :: b = a' ++ k' :: b' -> In k a' \/ In k' a \/ (a = a' /\ k = k')).
  { intros a. induction a as [|z a IH]; intros k b [|z' a'] k' b' E; cbn [app] in E; injection E as E1 E2.
    - right. right. auto.
    - left. left. congruence.
    - right. left. left. congruence.
    - subst z'. destruct (IH _ _ _ _ _ E2) as [X|[X|[X1 X2]]]; [left; now right|right; left; now right|right; right; split; congruence]. }
  destruct H as [ks k ks' pre c E N L R|N], H' as [js j js' pre' c' E' N' L' R'|N'].
  - rewrite E in E'. destruct (Sp _ _ _ _ _ _ E') as [X|[X|[_ <-]]].
    + exfalso. exact (nobody_last _ _ _ _ _ (N' _ X) L).
    + exfalso. exact (nobody_last _ _ _ _ _ (N _ X) L').
    + destruct (last_unique _ _ _ _ _ _ _ L L') as [-> ->]. reflexivity.
  - exfalso. destruct (N' k) as [X|(p & d & L2 & R2)]; [rewrite E; apply in_elt|exact (nobody_last _ _ _ _ _ X L)|]. destruct (last_unique _ _ _ _ _ _ _ L L2) as [-> ->]. contradiction.
  - exfalso. destruct (N j) as [X|(p & d & L2 & R2)]; [rewrite E'; apply in_elt|exact (nobody_last _ _ _ _ _ X L')|]. destruct (last_unique _ _ _ _ _ _ _ L' L2) as [-> ->]. contradiction.
  - reflexivity.
Qed.

(* ---- no clause is lost in silence ---- *)
(* when there was no warning, no clause took the place of an earlier one *)
Theorem C77_silent : forall src l, warned (tbl src l) = 0%nat -> forall pre c post, l = pre ++ c :: post -> nobody src pre (counted src pre c).
Proof.
  intros src l. destruct (fill_func src (rawst src l) (raw_set src l)) as (_ & _ & _ & W). change (fill ac_too src (rawst src l)) with (tbl src l) in W. rewrite W. clear W.
  induction l as [|c l IH] using rev_ind; intros H pre c1 post E; [destruct pre; discriminate E|].
  assert (S : warned (rawst src (l ++ [c])) = if isset (rawst src l) (fst c) then Datatypes.S (warned (rawst src l)) else warned (rawst src l)).
  { unfold rawst. rewrite fold_left_app. destruct c; reflexivity. }
  rewrite S in H. destruct (isset (rawst src l) (fst c)) eqn:Q; [discriminate H|].
  destruct (snoc_split _ _ _ _ _ E) as [(-> & -> & ->)|(post' & -> & E')]; [|exact (IH H _ _ _ E')].
  destruct (raw_ok src l) as (R & _ & D). unfold counted. destruct (plain_value src c && negb (existsb (dcish src) l)) eqn:P.
  - apply andb_true_iff in P. destruct P as [_ P]. apply negb_true_iff in P. rewrite P in D. destruct (R DC) as [(_ & _ & N)|(X & _)]; [exact N|congruence].
  - destruct (R (fst c)) as [(_ & _ & N)|(X & _)]; [exact N|congruence].
Qed.

(* ---- the order of the clauses ---- *)
Definition fn_of (o : @obj F) : option F := match o with Made _ f => Some f | Zero => None end.
(* what a clause counts as when nothing came before *)
Definition label (src : bool) (c : clause) : mode := if plain_value src c then DC else fst c.
Lemma counted_label : forall src pre c post, NoDup (map (label src) (pre ++ c :: post)) -> counted src pre c = label src c.
Proof.
  intros src pre c post N. unfold counted, label in *. destruct (plain_value src c) eqn:P; [|reflexivity]. cbn [andb]. destruct (existsb (dcish src) pre) eqn:X; [|reflexivity]. exfalso.
  apply existsb_exists in X. destruct X as (d & Hd & D). rewrite map_app in N. cbn [map] in N. apply NoDup_remove_2 in N. apply N. apply in_app_iff. left. apply in_map_iff. exists d. split; [|assumption].
  rewrite P. unfold dcish in D. apply orb_true_iff in D. destruct D as [D|D]; [|now rewrite D]. apply meq in D. destruct (plain_value src d); [reflexivity|assumption].
Qed.
Lemma raw_nodup : forall src l, NoDup (map (label src) l) -> forall m,
  (func (rawst src l) m = None /\ ~ In m (map (label src) l)) \/
  (exists c o, In c l /\ label src c = m /\ func (rawst src l) m = Some o /\ fn_of o = snd c).
Proof.
  intros src l N m. destruct (proj1 (raw_ok src l) m) as [(A & B & C)|(A & pre & c & (post & E & C & _) & B)].
  - left. split; [assumption|]. intros X. apply in_map_iff in X. destruct X as (c & Ec & Hc). destruct (in_split _ _ Hc) as (pre & post & E). apply (C pre c post E). subst l. now rewrite (counted_label _ _ _ _ N).
  - right. exists c. eexists. split; [rewrite E; apply in_elt|]. split; [subst l; now rewrite (counted_label _ _ _ _ N) in C|]. split; [exact B|]. destruct c as [m0 [f|]]; reflexivity.
Qed.
(* the table up to the objects' identity: the functions *)
Lemma fill_same : forall src l l', (forall m, option_map fn_of (func (rawst src l) m) = option_map fn_of (func (rawst src l') m)) ->
  forall m, m <> NONE -> option_map fn_of (func (tbl src l) m) = option_map fn_of (func (tbl src l') m).
Proof.
  intros src l l' H m Nm. destruct (fill_func src (rawst src l) (raw_set src l)) as (A & _). destruct (fill_func src (rawst src l') (raw_set src l')) as (A' & _).
  change (fill ac_too src (rawst src l)) with (tbl src l) in A. change (fill ac_too src (rawst src l')) with (tbl src l') in A'.
  rewrite (A m Nm), (A' m Nm).
  assert (E : allowed src (rawst src l) m = allowed src (rawst src l') m).
  { unfold allowed. destruct m; try reflexivity. specialize (H NONE). destruct (func (rawst src l) NONE) as [[|i f]|], (func (rawst src l') NONE) as [[|j g]|]; cbn in H |- *; try reflexivity; try discriminate H. injection H as ->. reflexivity. }
  rewrite E. generalize (allowed src (rawst src l') m). intros ks. induction ks as [|k ks IH]; [reflexivity|]. cbn [map first_of fold_right].
  specialize (H k). destruct (func (rawst src l) k) as [o|], (func (rawst src l') k) as [o'|]; cbn in H |- *; try discriminate H; [exact H|exact IH].
Qed.
(* when no two clauses have the same label the order in which they are written does not matter *)
Theorem C77_order : forall src l l' m, NoDup (map (label src) l) -> Permutation l l' -> m <> NONE ->
  option_map fn_of (func (tbl src l) m) = option_map fn_of (func (tbl src l') m).
Proof.
  intros src l l' m N P Nm. apply fill_same; [|assumption]. intros k.
  assert (N' : NoDup (map (label src) l')) by (eapply Permutation_NoDup; [apply Permutation_map; exact P|assumption]).
  destruct (raw_nodup src l N k) as [[A B]|(c & o & A & B & C & D)], (raw_nodup src l' N' k) as [[A' B']|(c' & o' & A' & B' & C' & D')].
  - now rewrite A, A'.
  - exfalso. apply B. rewrite <- B'. apply in_map. eapply Permutation_in; [symmetry; exact P|assumption].
  - exfalso. apply B'. rewrite <- B. apply in_map. eapply Permutation_in; [exact P|assumption].
  - rewrite C, C'. cbn [option_map]. f_equal. rewrite D, D'. f_equal. apply (Permutation_in _ P) in A. clear -N' A A' B B'. revert N' A A'. induction l' as [|d l' IH]; intros N' A A'; [contradiction|]. cbn [map] in N'. apply NoDup_cons_iff in N'. destruct N' as [X N'].
    destruct A as [->|A], A' as [->|A']; [reflexivity| | |now apply IH].
    + exfalso. apply X. rewrite B, <- B'. now apply in_map.
    + exfalso. apply X. rewrite B', <- B. now apply in_map.
Qed.

(* ---- writing it out and reading it again ---- *)
Definition again (p : list (mode * @obj F)) : list clause := map (fun x => (fst x, fn_of (snd x))) p.
(* every clause has a function, and the last that counts as one without a label is not the plain value
   of a source *)
Definition writable (src : bool) (l : list clause) : Prop :=
  Forall (fun c => snd c <> None) l /\ forall pre f, src = true -> last_for src l NONE pre (NONE, Some f) -> is_value f = false.
Theorem C77_round_trip : forall src l m, writable src l -> m <> NONE ->
  option_map fn_of (func (tbl src (again (printed (tbl src l)))) m) = option_map fn_of (func (tbl src l) m).
Proof.
  intros src l m [Wr Nv0] Nm.
  assert (Nv : forall o f, func (rawst src l) NONE = Some o -> fn_of o = Some f -> src = true -> is_value f = false).
  { intros o f Ho Hf Hs. destruct (proj1 (raw_ok src l) NONE) as [(_ & B & _)|(_ & pre & c & L & B)]; [congruence|]. rewrite B in Ho. injection Ho as <-.
    destruct c as [m0 [g|]]; cbn in Hf; [|discriminate Hf]. injection Hf as <-. apply (Nv0 pre g Hs). destruct L as (post & E & Cn & L). unfold counted in Cn. cbn [fst] in Cn. assert (m0 = NONE) as -> by (destruct (plain_value src (m0, Some g) && _); [discriminate Cn|assumption]). exists post. auto. }
  clear Nv0. symmetry. apply fill_same; [|assumption]. clear m Nm.
  destruct (fill_func src (rawst src l) (raw_set src l)) as (A & B & C & _). change (fill ac_too src (rawst src l)) with (tbl src l) in A, B, C.
  assert (Keep : forall m, isset (rawst src l) m = true -> func (tbl src l) m = func (rawst src l) m).
  { intros m I. destruct (mode_eqb m NONE) eqn:Q; [apply meq in Q; subst m; exact B|]. assert (Nm : m <> NONE) by (intros ->; discriminate Q).
    rewrite (A m Nm). rewrite raw_set in I. destruct (func (rawst src l) m) as [o|] eqn:E; [|discriminate I].
    assert (Hd : exists ks, allowed src (rawst src l) m = m :: ks) by (unfold allowed; destruct m; try (eexists; reflexivity); [contradiction|]; destruct (negb src || _); eexists; reflexivity).
    destruct Hd as (ks & ->). cbn [map first_of fold_right]. now rewrite E. }
  assert (One : forall m, (if isset (tbl src l) m then match func (tbl src l) m with Some o => [(m, o)] | None => [] end else []) = match func (rawst src l) m with Some o => [(m, o)] | None => [] end).
  { intros m. rewrite C. pose proof (Keep m) as K. rewrite raw_set in *. destruct (func (rawst src l) m); [now rewrite (K eq_refl)|reflexivity]. }
  assert (Ep : printed (tbl src l) = flat_map (fun m => match func (rawst src l) m with Some o => [(m, o)] | None => [] end) [NONE; FOURIER; TRAN; DC; OP; AC]).
  { unfold printed. rewrite One. cbn [flat_map]. rewrite !One. reflexivity. }
  rewrite Ep. clear Ep.
  assert (G : forall ms, NoDup ms -> (forall m o, In (m, o) (flat_map (fun m => match func (rawst src l) m with Some o => [(m, o)] | None => [] end) ms) <-> In m ms /\ func (rawst src l) m = Some o)).
  { intros ms _ m o. rewrite in_flat_map. split.
    - intros (k & Hk & X). destruct (func (rawst src l) k) as [o'|] eqn:E; [|contradiction]. destruct X as [X|[]]. injection X as <- <-. auto.
    - intros (Hm & E). exists m. split; [assumption|]. rewrite E. now left. }
  set (ms := [NONE; FOURIER; TRAN; DC; OP; AC]). assert (Nd : NoDup ms) by (unfold ms; repeat constructor; cbn; intuition discriminate). specialize (G ms Nd).
  set (p := flat_map _ ms) in *.
  assert (Lab : forall c, In c (again p) -> label src c = fst c).
  { intros c Hc. unfold again in Hc. apply in_map_iff in Hc. destruct Hc as ([k o] & <- & Hp). apply G in Hp. destruct Hp as [_ Hp]. unfold label, plain_value. cbn [fst snd]. destruct src; [|reflexivity]. destruct k; try reflexivity. cbn [mode_eqb andb].
    destruct (fn_of o) as [f|] eqn:Ef; [|reflexivity]. rewrite (Nv _ _ Hp Ef eq_refl). reflexivity. }
  assert (Nl : NoDup (map (label src) (again p))).
  { rewrite (map_ext_in _ fst) by exact Lab. unfold again. rewrite map_map. cbn [fst]. unfold p. clear -Nd. induction ms as [|a ms IH]; [constructor|]. apply NoDup_cons_iff in Nd. destruct Nd as [X Nd]. cbn [flat_map]. rewrite map_app.
    destruct (func (rawst src l) a) as [o|]; cbn [map app]; [|now apply IH]. constructor; [|now apply IH]. cbn [fst]. rewrite in_map_iff. intros ([k o'] & Ek & Hk). cbn [fst] in Ek. subst k. apply in_flat_map in Hk. destruct Hk as (j & Hj & Y). destruct (func (rawst src l) j); [|contradiction]. destruct Y as [Y|[]]. injection Y as -> _. contradiction. }
  intros k. destruct (raw_nodup src (again p) Nl k) as [[X Y]|(c & o & X1 & X2 & X3 & X4)].
  - rewrite X. destruct (func (rawst src l) k) as [o|] eqn:E; [|reflexivity]. exfalso. apply Y. apply in_map_iff. exists (k, fn_of o). assert (Hi : In (k, fn_of o) (again p)).
    { unfold again. apply in_map_iff. exists (k, o). split; [reflexivity|]. apply G. split; [unfold ms; destruct k; cbn; auto 8|assumption]. }
    split; [rewrite (Lab _ Hi); reflexivity|assumption].
  - rewrite X3. rewrite (Lab _ X1) in X2. unfold again in X1. apply in_map_iff in X1. destruct X1 as ([k' o'] & <- & Hp). apply G in Hp. destruct Hp as [_ Hp]. cbn [fst snd] in *. subst k'. rewrite Hp. cbn [option_map]. now rewrite X4.
Qed.
End Clauses.

(* ---- the text ---- *)
(* the labels: what has to be written and what may follow it *)
Definition labels : list (mode * (list ascii * list ascii)) :=
  [(AC, (str "ac", [])); (OP, (str "op", [])); (DC, (str "dc", [])); (TRAN, (str "tran", str "sient")); (FOURIER, (str "four", str "ier"));
   (NONE, (str "else", [])); (NONE, (str "all", []))].
(* at x there is a label m, and y comes after it; or there is none *)
Inductive labelled (ci : bool) (x : list ascii) : mode -> list ascii -> Prop :=
  | with_label : forall m k o y, In (m, (k, o)) labels -> word_at ci k o (dropbl x) y -> labelled ci x m (dropcom (dropbl y))
  | without : (forall m k o y, In (m, (k, o)) labels -> ~ word_at ci k o (dropbl x) y) -> labelled ci x NONE x.
Definition at_end (x : list ascii) : Prop := match dropbl x with [] => True | c :: _ => c = NUL end.
(* rd x: the function written at x, and what comes after it. The clauses written at x: reading ends
   with the text, or where nothing has been read *)
Inductive clauses {F} (ci : bool) (rd : list ascii -> option F * list ascii) : list ascii -> list (mode * option F) -> Prop :=
  | last_clause : forall x m x1 f y, labelled ci x m x1 -> rd x1 = (f, y) -> at_end y \/ (List.length x <= List.length (dropbl y))%nat -> clauses ci rd x [(m, f)]
  | one_more : forall x m x1 f y l, labelled ci x m x1 -> rd x1 = (f, y) -> ~ at_end y -> (List.length (dropbl y) < List.length x)%nat -> clauses ci rd (dropbl y) l -> clauses ci rd x ((m, f) :: l).
(* the line describes a source *)
Definition source_text (ci : bool) (line : list ascii) : Prop :=
  (exists c r, dropbl line = c :: r /\ In c (str "viVI")) \/ exists y, word_at ci (str ".vso") (str "urce") (dropbl line) y \/ word_at ci (str ".iso") (str "urce") (dropbl line) y.

Lemma lower_alpha : forall d, isalpha (to_lower d) = isalpha d.
Proof. intros [[] [] [] [] [] [] [] []]; vm_compute; reflexivity. Qed.
Lemma alpha_inside : forall d, isalpha d = true -> fterm TERM d = false.
Proof. intros [[] [] [] [] [] [] [] []]; vm_compute; congruence. Qed.
Lemma letter_inside : forall c d ci, isalpha c = true -> same_char ci d c -> ~ word_end [d].
Proof.
  intros c d ci Hc S W. assert (S2 : to_lower d = to_lower c) by (destruct S as [->|[_ S]]; auto). rewrite <- lower_alpha, <- S2, lower_alpha in Hc.
  apply fterm_ok in W. apply alpha_inside in Hc. cbn [head hd] in W. congruence.
Qed.
Lemma label_keyword : forall m k o, In (m, (k, o)) labels -> keyword k o.
Proof.
  intros m k o H. assert (A : forall w, Forall (fun c => isalpha c = true) w -> Forall plain w) by exact plain_letters.
  assert (B : forall o, Forall (fun c => isalpha c = true) o -> Forall (fun c => forall d ci, same_char ci d c -> ~ word_end [d]) o).
  { intros w Fw. eapply Forall_impl; [|exact Fw]. intros c Hc d ci S. exact (letter_inside c d ci Hc S). }
  cbn in H. repeat destruct H as [H|H]; try contradiction; injection H as <- <- <-; (split; [apply A; repeat constructor|split; [try apply A; repeat constructor|apply B; repeat constructor]]).
Qed.
Lemma eat_lower : forall ci k r y, eat_all ci k r = Some y -> map to_lower (firstn (List.length k) r) = map to_lower k.
Proof.
  intros ci k. induction k as [|c k IH]; intros r y H; [reflexivity|]. destruct r as [|d r]; [discriminate H|]. cbn [eat_all] in H. destruct (sameb ci d c) eqn:E; [|discriminate H].
  cbn [List.length firstn map]. rewrite (IH _ _ H). f_equal. apply sameb_ok in E. destruct E as [->|[_ E]]; auto.
Qed.
(* no text has two different labels *)
Lemma one_label : forall ci r m k o y m' k' o' y', In (m, (k, o)) labels -> In (m', (k', o')) labels -> wspec ci k o r = Some y -> wspec ci k' o' r = Some y' -> (k, o) = (k', o') /\ m = m'.
Proof.
  assert (G : forall ci k o r y, wspec ci k o r = Some y -> map to_lower (firstn (List.length k) r) = map to_lower k).
  { intros ci k o r y H. unfold wspec in H. destruct (eat_all ci k r) eqn:E; [|discriminate H]. exact (eat_lower _ _ _ _ E). }
  intros ci r m k o y m' k' o' y' I I' H H'. apply G in H. apply G in H'.
  destruct r as [|a [|b r]].
  1,2: exfalso; cbn in I; repeat destruct I as [I|I]; try contradiction; injection I as <- <- <-; cbn in H; discriminate H.
  assert (P : forall w, (2 <= List.length w)%nat -> map to_lower (firstn (List.length w) (a :: b :: r)) = map to_lower w -> [to_lower a; to_lower b] = map to_lower (firstn 2 w)).
  { intros [|c [|d w]] L E; cbn [List.length] in L; try lia. cbn [List.length firstn map] in E |- *. injection E as -> -> _. reflexivity. }
  assert (L : forall m k o, In (m, (k, o)) labels -> (2 <= List.length k)%nat) by (intros m0 k0 o0 J; cbn in J; repeat destruct J as [J|J]; try contradiction; injection J as _ <- _; cbn; lia).
  apply P in H; [|eapply L; eassumption]. apply P in H'; [|eapply L; eassumption]. rewrite H in H'. clear -I I' H'.
  cbn in I, I'. repeat destruct I as [I|I]; try contradiction; injection I as <- <- <-; repeat destruct I' as [I'|I']; try contradiction; injection I' as <- <- <-; vm_compute in H'; try discriminate H'; split; reflexivity.
Qed.
Lemma pattern_closed : forall m o, Forall plain m -> Forall plain o -> closed (pattern m o).
Proof.
  intros m o Fm Fo. rewrite Forall_forall in Fm, Fo. unfold pattern. apply (closed_brace m o [" "%char]).
  - rewrite !in_app_iff. intros [I|[I|[I|[]]]]; [exact (proj1 (Fm _ I) eq_refl)|exact (proj1 (Fo _ I) eq_refl)|discriminate I].
  - intros I. apply (proj2 (Fm _ I)). cbn. auto 8.
  - intros I. apply (proj2 (Fo _ I)). cbn. auto 8.
  - intros [I|[]]. discriminate I.
  - intros I. apply (proj2 (Fo _ I)). cbn. auto 8.
Qed.
Lemma label_read : forall ci line x m k o key, In (m, (k, o)) labels -> (str key ++ [" "%char] = pattern k o \/ (o = [] /\ str key = k)) ->
  forall s, vw line x s -> exists s', umatch ci (str key ++ [" "%char]) s = Some s' /\
    match wspec ci k o (dropbl x) with Some y => ok s' = true /\ vw line (dropcom (dropbl y)) s' | None => ok s' = false /\ vw line x s' end.
Proof.
  intros ci line x m k o key I Eq s V. destruct (label_keyword _ _ _ I) as (Fk & Fo & _). destruct Eq as [Eq|[-> Eq]].
  - pose proof (pattern_closed k o Fk Fo) as Cl. rewrite <- Eq in Cl. destruct (umatch_safe ci line x s _ Cl V) as (s1 & r1 & E1 & V1 & _ & F1). exists s1. split; [exact E1|].
    destruct (umatch_word ci line x s k o Fk Fo V) as (s2 & E2 & K2). rewrite Eq, E2 in E1. injection E1 as <-.
    destruct (wspec ci k o (dropbl x)); [tauto|]. destruct K2 as [K2 _]. rewrite (F1 K2) in V1. auto.
  - rewrite Eq. exact (umatch_blank ci line x s k Fk V).
Qed.
Lemma read_mode_ok : forall ci line x s, vw line x s -> exists m y s', read_mode ci s = Some (m, s') /\ labelled ci x m y /\ vw line y s'.
Proof.
  intros ci line x s V. unfold read_mode.
  assert (Step : forall m k o key, In (m, (k, o)) labels -> (str key ++ [" "%char] = pattern k o \/ (o = [] /\ str key = k)) ->
     forall r, ((exists s', r = Some (None, s') /\ vw line x s') \/ exists m' s' y, r = Some (Some m', s') /\ labelled ci x m' y /\ vw line y s') ->
     (exists s', set_mode ci key m r = Some (None, s') /\ vw line x s' /\ wspec ci k o (dropbl x) = None /\ exists s0, r = Some (None, s0)) \/
     (exists m' s' y, set_mode ci key m r = Some (Some m', s') /\ labelled ci x m' y /\ vw line y s')).
  { intros m k o key I Eq r [(s0 & -> & V0)|(m' & s0 & y & -> & L & V0)]; unfold set_mode; cbn [bind].
    - destruct (label_read ci line x m k o key I Eq s0 V0) as (s1 & E1 & K1). rewrite E1. cbn [bind]. destruct (wspec ci k o (dropbl x)) as [y|] eqn:W; destruct K1 as [K1 V1]; rewrite K1.
      + right. exists m, s1, (dropcom (dropbl y)). split; [reflexivity|]. split; [|assumption]. eapply with_label; [exact I|]. now apply wspec_sound.
      + left. exists s1. eauto.
    - right. exists m', s0, y. auto. }
  assert (Sub : forall r (P : Prop), (exists s', r = Some (@None mode, s') /\ vw line x s' /\ P) \/ (exists m' s' y, r = Some (Some m', s') /\ labelled ci x m' y /\ vw line y s') ->
     ((exists s', r = Some (None, s') /\ vw line x s') \/ exists m' s' y, r = Some (Some m', s') /\ labelled ci x m' y /\ vw line y s')).
  { intros r P [(s' & A & B & _)|H]; [left; eauto|now right]. }
  pose proof (Step AC (str "ac") [] "ac" ltac:(cbn; tauto) ltac:(right; split; reflexivity) (Some (None, s)) ltac:(left; eauto)) as R1. set (r1 := set_mode ci "ac" AC _) in *. clearbody r1.
  pose proof (Step OP (str "op") [] "op" ltac:(cbn; tauto) ltac:(right; split; reflexivity) r1 (Sub _ _ R1)) as R2. set (r2 := set_mode ci "op" OP _) in *. clearbody r2.
  pose proof (Step DC (str "dc") [] "dc" ltac:(cbn; tauto) ltac:(right; split; reflexivity) r2 (Sub _ _ R2)) as R3. set (r3 := set_mode ci "dc" DC _) in *. clearbody r3.
  pose proof (Step TRAN (str "tran") (str "sient") "tran{sient}" ltac:(cbn; tauto) ltac:(left; reflexivity) r3 (Sub _ _ R3)) as R4. set (r4 := set_mode ci "tran{sient}" TRAN _) in *. clearbody r4.
  pose proof (Step FOURIER (str "four") (str "ier") "four{ier}" ltac:(cbn; tauto) ltac:(left; reflexivity) r4 (Sub _ _ R4)) as R5. set (r5 := set_mode ci "four{ier}" FOURIER _) in *. clearbody r5.
  pose proof (Step NONE (str "else") [] "else" ltac:(cbn; tauto) ltac:(right; split; reflexivity) r5 (Sub _ _ R5)) as R6. set (r6 := set_mode ci "else" NONE _) in *. clearbody r6.
  pose proof (Step NONE (str "all") [] "all" ltac:(cbn; tauto) ltac:(right; split; reflexivity) r6 (Sub _ _ R6)) as R7. set (r7 := set_mode ci "all" NONE _) in *. clearbody r7.
  destruct R7 as [(s7 & E7 & V7 & W7 & t6 & E6)|(m & s7 & y & E7 & L & V7)]; [|rewrite E7; cbn [bind]; eauto 6].
  assert (Q : forall (P : Prop) r k o t, r = Some (None, t) -> (exists s', r = Some (@None mode, s') /\ vw line x s' /\ wspec ci k o (dropbl x) = None /\ P) \/ (exists m' s' y, r = Some (Some m', s') /\ labelled ci x m' y /\ vw line y s') -> wspec ci k o (dropbl x) = None /\ P).
  { intros P r k o t E [(s' & _ & _ & W & H)|(m' & s' & y & A & _)]; [auto|congruence]. }
  destruct (Q _ _ _ _ _ E6 R6) as [W6 (t5 & E5)]. destruct (Q _ _ _ _ _ E5 R5) as [W5 (t4 & E4)]. destruct (Q _ _ _ _ _ E4 R4) as [W4 (t3 & E3)].
  destruct (Q _ _ _ _ _ E3 R3) as [W3 (t2 & E2)]. destruct (Q _ _ _ _ _ E2 R2) as [W2 (t1 & E1)]. destruct (Q _ _ _ _ _ E1 R1) as [W1 _].
  exists NONE, x, s7. rewrite E7. cbn [bind]. split; [reflexivity|]. split; [|assumption]. apply without. intros m k o y I W. apply wspec_complete in W; [|exact (label_keyword _ _ _ I)].
  cbn in I. repeat destruct I as [I|I]; try contradiction; injection I as <- <- <-; (discriminate (eq_trans (eq_sym W) W1) || discriminate (eq_trans (eq_sym W) W2) || discriminate (eq_trans (eq_sym W) W3) || discriminate (eq_trans (eq_sym W) W4) || discriminate (eq_trans (eq_sym W) W5) || discriminate (eq_trans (eq_sym W) W6) || discriminate (eq_trans (eq_sym W) W7)).
Qed.
Theorem C77_one_label : forall ci x m y m' y', labelled ci x m y -> labelled ci x m' y' -> m = m' /\ y = y'.
Proof.
  intros ci x m y m' y' [m0 k o z I W|N] [m1 k' o' z' I' W'|N'].
  - apply wspec_complete in W; [|exact (label_keyword _ _ _ I)]. apply wspec_complete in W'; [|exact (label_keyword _ _ _ I')].
    destruct (one_label _ _ _ _ _ _ _ _ _ _ I I' W W') as [X ->]. injection X as <- <-. rewrite W in W'. injection W' as ->. auto.
  - exfalso. exact (N' _ _ _ _ I W).
  - exfalso. exact (N _ _ _ _ I' W').
  - auto.
Qed.
Lemma at_end_ok : forall y, at_end y <-> Ascii.eqb (head (dropbl y)) NUL = true.
Proof. intros y. unfold at_end. destruct (dropbl y) as [|c r]; [now split|]. cbn [head hd]. split; [intros ->; reflexivity|intros H; now apply Ascii.eqb_eq in H]. Qed.
(* the clauses written in a text are determined by it *)
Theorem C77_one_reading : forall {F} ci (rd : list ascii -> option F * list ascii) x l l', clauses ci rd x l -> clauses ci rd x l' -> l = l'.
Proof.
  intros F ci rd x l l' H. revert l'. induction H as [x m x1 f y L R E|x m x1 f y l L R E Lt H IH]; intros l' H'; inversion H' as [x' m' x1' f' y' L' R' E'|x' m' x1' f' y' l2 L' R' E' Lt' H2]; subst; destruct (C77_one_label _ _ _ _ _ _ L L') as [<- <-]; rewrite R in R'; injection R' as <- <-.
  - reflexivity.
  - exfalso. destruct E; [contradiction|lia].
  - exfalso. destruct E'; [contradiction|lia].
  - f_equal. now apply IH.
Qed.
Section Text.
Context {F : Type} (is_value ac_too : F -> bool) (ci : bool) (rd : list ascii -> option F * list ascii) (read_func : cs -> option (option F * cs)).
(* the function is read from the text at the cursor *)
Definition reads : Prop := forall line x s, vw line x s -> exists s', read_func s = Some (fst (rd x), s') /\ vw line (snd (rd x)) s'.
Lemma read_loop_ok : reads -> forall src line n st x s, vw line x s -> (List.length x < n)%nat -> exists l s', clauses ci rd x l /\
  read_loop is_value ci read_func src n (cnt s) st s = Some (fold_left (step is_value src) l st, s').
Proof.
  intros R src line n. induction n as [|n IH]; intros st x s V Ln; [lia|]. cbn [read_loop].
  destruct (read_mode_ok ci line x s V) as (m & x1 & s1 & E1 & L1 & V1). rewrite E1. cbn [bind]. destruct (R line x1 s1 V1) as (s2 & E2 & V2). rewrite E2. cbn [bind].
  destruct (rd x1) as [f y] eqn:Er. cbn [fst snd] in *.
  destruct (more_vw _ _ _ V2) as (s3 & E3 & V3 & _). rewrite E3. cbn [bind]. pose proof (at_end_ok y) as AE. destruct (Ascii.eqb (head (dropbl y)) NUL) eqn:Q.
  - cbn [negb]. exists [(m, f)], s3. split; [|reflexivity]. eapply last_clause; [eassumption|eassumption|]. left. now apply AE.
  - cbn [negb]. destruct (more_vw _ _ _ V3) as (s4 & E4 & V4 & _). rewrite E4. cbn [bind]. rewrite dropbl_idem, Q in *. cbn [negb andb].
    assert (NE : ~ at_end y) by (intros X; apply AE in X; discriminate X).
    pose proof (vw_cnt _ _ _ V) as C0. pose proof (vw_cnt _ _ _ V4) as C4. pose proof (vw_le _ _ _ V) as Le.
    destruct (Z.ltb_spec (cnt s) (cnt s4)) as [Lt|Ge].
    + destruct (IH (step is_value src st (m, f)) (dropbl y) s4 V4 ltac:(lia)) as (l & s5 & C & E). exists ((m, f) :: l), s5. split; [|exact E]. eapply one_more; try eassumption. lia.
    + exists [(m, f)], s4. split; [|reflexivity]. eapply last_clause; [eassumption|eassumption|]. right. lia.
Qed.
(* the clauses read from the rest of a line are those written there; whether it is a source is seen
   from the beginning of the line *)
Theorem C77_text : reads -> forall line x s, vw line x s -> exists src l s', parse is_value ac_too ci read_func s = Some (table is_value ac_too src l, s') /\
  clauses ci rd x l /\ (src = true <-> source_text ci line).
Proof.
  intros R line x s V. unfold parse. assert (S : exists src s', source_line ci s = Some (src, s') /\ vw line x s' /\ cnt s' = cnt s /\ (src = true <-> source_text ci line)).
  { unfold source_line. set (here := cnt s). assert (V0 : vw line line (reset 0 s)).
    { apply vw_ok. destruct V as (A & B & _). split; [exact A|]. split; [exact B|]. exists []. split; reflexivity. }
    destruct (skipbl_vw _ _ _ V0) as (s1 & E1 & V1 & _). rewrite E1. cbn [bind]. rewrite (match1_vw _ _ _ (str "viVI") V1). cbn [bind].
    assert (Fin : forall r' s', vw line r' s' -> vw line x (reset here s') /\ cnt (reset here s') = cnt s) by (intros r' s' V'; split; [exact (vw_reset _ _ _ _ _ V V')|reflexivity]).
    destruct (in_set (str "viVI") (head (dropbl line))) eqn:Q; cbn [bind].
    - exists true. eexists. split; [reflexivity|]. destruct (Fin _ _ V1) as [A B]. split; [assumption|]. split; [assumption|]. split; [intros _|auto]. left. destruct (dropbl line) as [|c r]; [discriminate Q|]. exists c, r. split; [reflexivity|].
      unfold in_set in Q. apply andb_true_iff in Q. destruct Q as [_ Q]. apply existsb_exists in Q. destruct Q as (d & Hd & Ed). apply Ascii.eqb_eq in Ed. cbn [head hd] in Ed. now subst d.
    - assert (NQ : ~ exists c r, dropbl line = c :: r /\ In c (str "viVI")).
      { intros (c & r & E & I). rewrite E in Q. cbn [head hd] in Q. cbn in I. repeat destruct I as [<-|I]; try discriminate Q. contradiction. }
      rewrite (match1c_vw _ _ _ "." V1). cbn [bind].
      assert (KP : forall w, In w [str ".vso"; str ".iso"] -> Forall plain w) by (intros w [<-|[<-|[]]]; repeat constructor; cbn; intuition discriminate).
      assert (KU : Forall plain (str "urce")) by (apply plain_letters; repeat constructor).
      assert (KW : forall w, In w [str ".vso"; str ".iso"] -> keyword w (str "urce")).
      { intros w I. split; [now apply KP|]. split; [assumption|]. apply Forall_forall. intros c Hc d ci0 S. apply (letter_inside c d ci0); [|assumption]. cbn in Hc. repeat destruct Hc as [<-|Hc]; try reflexivity; contradiction. }
      assert (WD : forall w y, In w [str ".vso"; str ".iso"] -> word_at ci w (str "urce") (dropbl line) y -> head (dropbl line) = "."%char).
      { intros w y I (m' & o1 & o2 & o1' & _ & F2 & _ & E & _). rewrite E. destruct I as [<-|[<-|[]]]; inversion F2 as [|a b c d S ? E2]; subst; cbn [app head hd]; (destruct S as [->|[_ S]]; [reflexivity|]; revert S; clear; destruct a as [[] [] [] [] [] [] [] []]; vm_compute; congruence). }
      destruct (Ascii.eqb_spec (head (dropbl line)) ".") as [Ed|Nd]; cbn [bind].
      + assert (Db : dropbl (dropbl line) = dropbl line) by apply dropbl_idem.
        assert (U : forall w, In w [str ".vso"; str ".iso"] -> forall s2, vw line (dropbl line) s2 -> exists s3, umatch ci (pattern w (str "urce")) s2 = Some s3 /\
           match wspec ci w (str "urce") (dropbl line) with Some y => ok s3 = true /\ vw line (dropcom (dropbl y)) s3 | None => ok s3 = false /\ vw line (dropbl line) s3 end).
        { intros w I s2 V2. destruct (umatch_safe ci line _ s2 _ (pattern_closed w (str "urce") (KP w I) KU) V2) as (s3 & r1 & E3 & V3 & _ & F1). exists s3. split; [exact E3|].
          destruct (umatch_word ci line _ s2 w (str "urce") (KP w I) KU V2) as (s4 & E4 & K4). rewrite E4 in E3. injection E3 as <-. rewrite Db in K4.
          destruct (wspec ci w (str "urce") (dropbl line)); [tauto|]. destruct K4 as [K4 _]. rewrite (F1 K4) in V3. auto. }
        destruct (U (str ".vso") ltac:(cbn; tauto) s1 V1) as (s2 & E2 & K2). change (str ".vso{urce} ") with (pattern (str ".vso") (str "urce")). rewrite E2. cbn [bind].
        destruct (wspec ci (str ".vso") (str "urce") (dropbl line)) as [y|] eqn:W2; destruct K2 as [O2 V2]; rewrite O2; cbn [bind].
        * exists true. eexists. split; [reflexivity|]. destruct (Fin _ _ V2) as [A B]. split; [assumption|]. split; [assumption|]. split; [intros _|auto]. right. exists y. left. now apply wspec_sound.
        * destruct (U (str ".iso") ltac:(cbn; tauto) s2 V2) as (s3 & E3 & K3). change (str ".iso{urce} ") with (pattern (str ".iso") (str "urce")). rewrite E3. cbn [bind].
          destruct (wspec ci (str ".iso") (str "urce") (dropbl line)) as [y|] eqn:W3; destruct K3 as [O3 V3]; rewrite O3; eexists; eexists; (split; [reflexivity|]); destruct (Fin _ _ V3) as [A B]; (split; [assumption|]); (split; [assumption|]).
          -- split; [intros _|auto]. right. exists y. right. now apply wspec_sound.
          -- split; [discriminate|]. intros [X|(y & [X|X])]; [contradiction| |]; apply wspec_complete in X; try congruence; apply KW; cbn; tauto.
      + exists false. eexists. split; [reflexivity|]. destruct (Fin _ _ V1) as [A B]. split; [assumption|]. split; [assumption|]. split; [discriminate|]. intros [X|(y & [X|X])]; [contradiction| |]; exfalso; apply Nd; eapply WD; [|exact X| |exact X]; cbn; tauto. }
  destruct S as (src & s1 & E1 & V1 & C1 & Hs). rewrite E1. cbn [bind].
  destruct (read_loop_ok R src line (Datatypes.S (Datatypes.S (List.length (cmd s1)))) start x s1 V1) as (l & s2 & C & E).
  { pose proof (vw_le _ _ _ V1). destruct V1 as (-> & _). lia. }
  rewrite E. cbn [bind]. exists src, l, s2. split; [reflexivity|]. auto.
Qed.
End Text.

(* ---- what goes wrong ---- *)
(* functions for the examples: a value, a function such as sin, a name that may turn out to be a model
   or a parameter (bm_model.cc) *)
Inductive fn := Val (z : Z) | Fun (z : Z) | Name (z : Z).
Definition fn_value (f : fn) : bool := match f with Val _ => true | _ => false end.
Definition fn_ac (f : fn) : bool := match f with Name _ => true | _ => false end.

(* the second of two plain values of a source is used in a transient analysis, the first elsewhere,
   without a warning *)
Theorem C77_two_values_refuted : exists a b, a <> b /\ let st := table fn_value fn_ac true [(NONE, Some (Val a)); (NONE, Some (Val b))] in
  warned st = 0%nat /\ option_map fn_of (func st OP) = Some (Some (Val a)) /\ option_map fn_of (func st DC) = Some (Some (Val a)) /\ option_map fn_of (func st TRAN) = Some (Some (Val b)).
Proof. exists 5%Z, 7%Z. split; [discriminate|]. repeat split. Qed.
(* a value given by the name of a parameter drives an ac analysis, the same value written as a number
   does not *)
Theorem C77_name_refuted : forall n v, option_map fn_of (func (table fn_value fn_ac true [(NONE, Some (Name n))]) AC) = Some (Some (Name n)) /\
  func (table fn_value fn_ac true [(NONE, Some (Val v))]) AC = Some Zero.
Proof. intros n v. split; reflexivity. Qed.
(* a warning is given for a plain value after a function without a label, though nothing is replaced *)
Theorem C77_warning_refuted : exists l, warned (table fn_value fn_ac true l) <> 0%nat /\ forall pre c post, l = pre ++ c :: post -> nobody fn_value true pre (counted fn_value true pre c).
Proof.
  exists [(NONE, Some (Fun 3)); (NONE, Some (Val 5))]. split; [discriminate|]. intros pre c post E. destruct pre as [|a pre].
  - intros p2 c2 q2 X. destruct p2; discriminate X.
  - injection E as <- E. destruct pre as [|b pre]; [|injection E as _ E; destruct pre; discriminate E]. injection E as <- _. intros p2 c2 q2 X. destruct p2 as [|a p2]; [injection X as <- _; discriminate|]. injection X as _ X. destruct p2; discriminate X.
Qed.
(* two plain values of a source are not read again as they were *)
Theorem C77_print_refuted : exists l m, m <> NONE /\ let st := table fn_value fn_ac true l in
  option_map fn_of (func (table fn_value fn_ac true (again (printed st))) m) <> option_map fn_of (func st m).
Proof. exists [(NONE, Some (Val 5)); (NONE, Some (Val 7))], TRAN. split; [discriminate|]. vm_compute. discriminate. Qed.

(* ---- examples ---- *)
(* V1 1 0 sin(..) 5 ac 1 *)
Definition v1 : list (mode * option fn) := [(NONE, Some (Fun 3)); (NONE, Some (Val 5)); (AC, Some (Val 1))].
Example ex_C77 : NoDup (map (label fn_value true) v1) /\ writable fn_value true v1 /\ counted fn_value true [(NONE, Some (Fun 3))] (NONE, Some (Val 5)) = DC /\
  map (fun m => option_map fn_of (func (table fn_value fn_ac true v1) m)) analyses = [Some (Some (Val 1)); Some (Some (Val 5)); Some (Some (Val 5)); Some (Some (Fun 3)); Some (Some (Fun 3))].
Proof.
  split; [cbn; repeat constructor; cbn; intuition discriminate|]. split; [|split; reflexivity]. split; [repeat constructor; discriminate|]. intros pre f _ (post & E & C & _). unfold v1 in E. destruct pre as [|a pre]; [injection E as <- _; reflexivity|]. injection E as <- E.
  destruct pre as [|b pre]; [injection E as <- _; discriminate C|]. injection E as <- E. destruct pre as [|d pre]; [discriminate E|]. injection E as _ E. destruct pre; discriminate E.
Qed.
(* a resistor with one value keeps just the value *)
Example ex_C77_single : deflate (table fn_value fn_ac false [(NONE, Some (Val 1000))]) = Some (Single (Made 0 (Val 1000))) /\
  warned (table fn_value fn_ac false [(NONE, Some (Val 1000))]) = 0%nat.
Proof. split; reflexivity. Qed.

(* functions of one character *)
Definition rd1 (x : list ascii) : option fn * list ascii := match dropbl x with [] => (None, []) | c :: y => (Some (Val (Z.of_nat (nat_of_ascii c))), y) end.
Definition rf1 (s : cs) : option (option fn * cs) :=
  let* s := skipbl s in
  if (cnt s <? len s)%Z then let* c := peek s in Some (Some (Val (Z.of_nat (nat_of_ascii c))), skip s) else Some (None, s).
Example ex_C77_text : reads rd1 rf1 /\ source_text false (str "V1 1 0 ac 1 5 tran 7") /\
  clauses false rd1 (str " ac 1 5 tran 7") [(AC, Some (Val 49)); (NONE, Some (Val 53)); (TRAN, Some (Val 55))] /\
  exists st s', parse fn_value fn_ac false rf1 (set_cnt (cs_string (str "V1 1 0 ac 1 5 tran 7")) 6) = Some (st, s') /\ map (fun m => option_map fn_of (func st m)) analyses =
    [Some (Some (Val 49)); Some (Some (Val 53)); Some (Some (Val 53)); Some (Some (Val 55)); Some (Some (Val 55))].
Proof.
  split; [|split; [|split]].
  - intros line x s V. unfold rf1, rd1. destruct (skipbl_vw _ _ _ V) as (s1 & E1 & V1 & _). rewrite E1. cbn [bind]. pose proof (vw_cnt _ _ _ V1) as C. pose proof (vw_len _ _ _ V1) as L. destruct (dropbl x) as [|c y].
    + cbn [List.length] in C. destruct (Z.ltb_spec (cnt s1) (len s1)); [lia|]. exists s1. auto.
    + cbn [List.length] in C. destruct (Z.ltb_spec (cnt s1) (len s1)); [|lia]. rewrite (peek_vw _ _ _ V1). cbn [bind head hd fst snd]. exists (skip s1). split; [reflexivity|]. exact (proj1 (skip_vw _ _ _ _ V1)).
  - left. eexists. eexists. split; [reflexivity|]. cbn. tauto.
  - assert (Lab : forall x m k o y, In (m, (k, o)) labels -> wspec false k o (dropbl x) = Some y -> labelled false x m (dropcom (dropbl y))) by (intros; eapply with_label; [eassumption|now apply wspec_sound]).
    eapply one_more; [apply (Lab _ AC (str "ac") [] (str " 1 5 tran 7")); [cbn; tauto|reflexivity]|reflexivity|cbn; discriminate|cbn; lia|].
    eapply one_more; [apply without; intros m k o y I W; apply wspec_complete in W; [|exact (label_keyword _ _ _ I)]; cbn in I; repeat destruct I as [I|I]; try contradiction; injection I as <- <- <-; discriminate W|reflexivity|cbn; discriminate|cbn; lia|].
    eapply last_clause; [apply (Lab _ TRAN (str "tran") (str "sient") (str " 7")); [cbn; tauto|reflexivity]|reflexivity|left; cbn; exact I].
  - eexists. eexists. split; [vm_compute; reflexivity|]. vm_compute. reflexivity.
Qed.
Print Assumptions C77_choice.
Print Assumptions C77_one_choice.
Print Assumptions C77_silent.
Print Assumptions C77_order.
Print Assumptions C77_round_trip.
Print Assumptions C77_one_label.
Print Assumptions C77_one_reading.
Print Assumptions C77_text.
Print Assumptions C77_two_values_refuted.
Print Assumptions C77_name_refuted.
Print Assumptions C77_warning_refuted.
Print Assumptions C77_print_refuted.
