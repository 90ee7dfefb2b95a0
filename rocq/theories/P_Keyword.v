(* C15: keyword abbreviation *)
Require Import ZArith QArith List Ascii String Bool Lia.
Require Import ZifyBool.
Require Import Verif.Loops Verif.Wmatch_Model Verif.CS_Model Verif.CS_Proofs Verif.CS_Ops Verif.CS_Float Verif.CS_Word Verif.P_Scanner.
Import ListNotations.
Local Open Scope Z_scope.

(* the text after the cursor *)
Definition after (s : cs) : list ascii := skipn (Z.to_nat (cnt s)) (cmd s).
(* a command word: CS_Word.keyword, starting with a visible mandatory letter *)
Definition command_word (m o : list ascii) : Prop :=
  keyword m o /\ match m with c :: _ => isgraph c = true | [] => False end.
Definition begins_blank (r : list ascii) : Prop := match r with c :: _ => blank c | [] => False end.
Definition begins_comma (r : list ascii) : Prop := match r with c :: _ => c = ","%char | [] => False end.

Lemma after_vw : forall line r s, vw line r s -> after s = r.
Proof.
  intros line r s (E & _ & pre & Ep & Ec). unfold after. rewrite E, Ec, Ep, Nat2Z.id, skipn_app, skipn_all, Nat.sub_diag. reflexivity.
Qed.
Lemma blank_fblank : forall c, blank c <-> fblank c = true.
Proof.
  intros c. unfold blank, fblank. rewrite andb_true_iff, !negb_true_iff, Ascii.eqb_neq. reflexivity.
Qed.
Lemma same_graph : forall ci k c, same_char ci k c -> isgraph c = true -> isgraph k = true.
Proof.
  intros ci k c [->|[_ H]] G; [assumption|].
  assert (L : forall x, isgraph (to_lower x) = isgraph x).
  { intros [[] [] [] [] [] [] [] []]; vm_compute; reflexivity. }
  now rewrite <- L, H, L.
Qed.
Lemma word_at_visible : forall ci m o r rest, command_word m o -> word_at ci m o r rest -> dropbl r = r.
Proof.
  intros ci m o r rest [_ G] (m' & o1 & o2 & o1' & _ & Fm & _ & -> & _). destruct m as [|c m]; [contradiction|].
  inversion Fm as [|k ? m'' ? Hk Fm' E1 E2]; subst. cbn. unfold dropbl, drop_while at 1. cbn [app].
  assert (isgraph k = true) by now apply same_graph with ci c.
  cbn. unfold fblank at 1. rewrite H, andb_false_r. reflexivity.
Qed.
Lemma dropbl_app : forall bl r, Forall blank bl -> dropbl (bl ++ r) = dropbl r.
Proof. intros bl r H. apply drop_app. eapply Forall_impl; [|exact H]. intros c. now apply blank_fblank. Qed.
Lemma split_blank : forall r, exists bl, r = bl ++ dropbl r /\ Forall blank bl.
Proof.
  intros r. exists (take_while fblank r). split; [unfold dropbl; now rewrite take_drop|].
  eapply Forall_impl; [|apply take_all]. intros c. now apply blank_fblank.
Qed.
Lemma not_begins_blank : forall r, ~ begins_blank (dropbl r).
Proof.
  intros r. pose proof (dropbl_head r) as H. destruct (dropbl r) as [|c q]; [auto|]. cbn. unfold head in H. cbn in H.
  intros B. apply blank_fblank in B. congruence.
Qed.
Lemma split_com : forall r, exists b1 cm b2, r = b1 ++ cm ++ b2 ++ dropcom r /\ Forall blank b1 /\ Forall blank b2 /\
  (cm = [] \/ cm = [","%char]) /\ ~ begins_blank (dropcom r) /\ (cm = [] -> b2 = [] /\ ~ begins_comma (dropcom r)).
Proof.
  intros r. destruct (split_blank r) as (b1 & E1 & B1). unfold dropcom, eat1b.
  destruct (dropbl r) as [|c q] eqn:Ed.
  - exists b1, [], []. cbn [eat1 dropbl drop_while app]. rewrite app_nil_r in E1. rewrite app_nil_r. repeat split; try assumption; try constructor; auto.
  - cbn [eat1]. destruct (fcomma c) eqn:Ec.
    + destruct (split_blank q) as (b2 & E2 & B2). exists b1, [c], b2. split; [cbn; now rewrite <- E2|]. split; [assumption|]. split; [assumption|].
      split; [right; apply in_set_In in Ec; destruct Ec as [<-|[]]; reflexivity|]. split; [apply not_begins_blank|discriminate].
    + exists b1, [], []. rewrite <- Ed.
      assert (D : dropbl (dropbl r) = dropbl r) by (apply drop_idem; apply dropbl_head). rewrite D.
      split; [cbn [app]; rewrite Ed; exact E1|]. split; [assumption|]. split; [constructor|]. split; [now left|].
      split; [apply not_begins_blank|]. intros _. split; [reflexivity|]. rewrite Ed. cbn. intros ->. discriminate Ec.
Qed.

(* ---- the theorems ---- *)

(* which inputs a keyword pattern accepts; on failure nothing is consumed *)
Theorem C15_keyword_accepts : forall ci line s m o, command_word m o -> on_line line s ->
  exists s', umatch ci (pattern m o) s = Some s' /\
   (ok s' = true <-> exists bl word rest, after s = bl ++ word /\ Forall blank bl /\ word_at ci m o word rest) /\
   (ok s' = false -> cnt s' = cnt s).
Proof.
  intros ci line s m o Hk Hs. destruct (on_line_vw _ _ Hs) as (r & V). destruct Hk as [K G]. pose proof K as (Hm & Ho & _).
  destruct (umatch_word ci line r s m o Hm Ho V) as (s' & E & H). exists s'. split; [exact E|]. rewrite (after_vw _ _ _ V).
  destruct (wspec ci m o (dropbl r)) as [x|] eqn:Ew.
  - destruct H as (O & _). split; [|rewrite O; discriminate]. split; [|intros _; exact O]. intros _.
    destruct (split_blank r) as (bl & Er & Bl). exists bl, (dropbl r), x. split; [exact Er|]. split; [exact Bl|]. now apply wspec_sound.
  - destruct H as (O & C). split; [|intros _; exact C]. split; [rewrite O; discriminate|]. intros (bl & w & rest & -> & Bl & W).
    exfalso. rewrite dropbl_app in Ew by assumption. rewrite (word_at_visible ci m o w rest (conj K G) W) in Ew.
    rewrite (wspec_complete ci m o w rest K W) in Ew. discriminate Ew.
Qed.
Print Assumptions C15_keyword_accepts.

(* where the cursor is left and what last_match returns *)
Theorem C15_keyword_consumes : forall ci line s s' m o, command_word m o -> on_line line s ->
  umatch ci (pattern m o) s = Some s' -> ok s' = true ->
  exists bl word b1 cm b2, after s = bl ++ word ++ b1 ++ cm ++ b2 ++ after s' /\
    Forall blank bl /\ Forall blank b1 /\ Forall blank b2 /\ (cm = [] \/ cm = [","%char]) /\
    word_at ci m o (word ++ b1 ++ cm ++ b2 ++ after s') (b1 ++ cm ++ b2 ++ after s') /\
    ~ begins_blank (after s') /\ (cm = [] -> ~ begins_comma (after s')) /\
    last_match s' = Some (word ++ b1).
Proof.
  intros ci line s s' m o [K G] Hs E O. destruct (on_line_vw _ _ Hs) as (r & V). pose proof K as (Hm & Ho & _).
  destruct (umatch_word ci line r s m o Hm Ho V) as (s'' & E' & H). rewrite E in E'. injection E' as <-. rewrite (after_vw _ _ _ V).
  destruct (wspec ci m o (dropbl r)) as [x|] eqn:Ew; [|destruct H as [H _]; congruence].
  destruct H as (_ & V' & s0 & V0 & Bm & s1 & V1 & Em). rewrite (after_vw _ _ _ V').
  pose proof (wspec_sound _ _ _ _ _ Ew) as W.
  destruct (split_blank r) as (bl & Er & Bl). destruct (split_blank x) as (b1 & Ex & B1).
  destruct (split_com (dropbl x)) as (b1' & cm & b2 & Ec & B1' & B2 & Cm & Nb & Nc).
  assert (b1' = []).
  { destruct b1' as [|c q]; [reflexivity|]. exfalso. inversion_clear B1' as [|? ? Hc _]. apply (not_begins_blank x). rewrite Ec. exact Hc. }
  subst b1'. cbn [app] in Ec.
  destruct W as (m' & o1 & o2 & o1' & Eo & Fm & Fo & Ed & He).
  exists bl, (m' ++ o1'), b1, cm, b2.
  assert (Ex' : x = b1 ++ cm ++ b2 ++ dropcom (dropbl x)) by (rewrite <- Ec; exact Ex).
  split; [rewrite <- Ex'; rewrite <- app_assoc, <- Ed; exact Er|]. split; [assumption|]. split; [assumption|]. split; [assumption|]. split; [assumption|].
  split; [rewrite <- Ex'; exists m', o1, o2, o1'; repeat split; try assumption; now rewrite <- app_assoc|].
  split; [assumption|]. split; [intros X; now apply Nc|].
  unfold last_match. replace (cmd s') with line by (symmetry; apply V'). rewrite Bm, Em.
  destruct V as (_ & _ & pre & El & _).
  assert (El2 : line = (pre ++ bl) ++ ((m' ++ o1') ++ b1) ++ dropbl x).
  { rewrite El, Er, Ed, Ex at 1. rewrite <- !app_assoc. reflexivity. }
  assert (C0 : cnt s0 = Z.of_nat (List.length (pre ++ bl))).
  { rewrite (vw_cnt _ _ _ V0). rewrite El at 1. rewrite Er at 1. rewrite !app_length. lia. }
  assert (C1 : cnt s1 = Z.of_nat (List.length (pre ++ bl)) + Z.of_nat (List.length ((m' ++ o1') ++ b1))).
  { rewrite (vw_cnt _ _ _ V1). rewrite El2 at 1. rewrite !app_length. lia. }
  rewrite C0, C1. replace (Z.of_nat (List.length (pre ++ bl)) + Z.of_nat (List.length ((m' ++ o1') ++ b1)) - Z.of_nat (List.length (pre ++ bl)))
    with (Z.of_nat (List.length ((m' ++ o1') ++ b1))) by lia.
  eapply substr_vw. exact El2.
Qed.
Print Assumptions C15_keyword_consumes.

(* a list of alternatives accepts what one of them accepts, if no blank precedes *)
Theorem C15_alternatives_accept : forall ci line s ws, ws <> [] -> Forall (fun w => command_word (fst w) (snd w)) ws ->
  on_line line s -> ~ begins_blank (after s) ->
  exists s', umatch ci (alts ws) s = Some s' /\
   (ok s' = true <-> exists w rest, In w ws /\ word_at ci (fst w) (snd w) (after s) rest) /\
   (ok s' = false -> cnt s' = cnt s).
Proof.
  intros ci line s ws Hne Hw Hs Nb. destruct (on_line_vw _ _ Hs) as (r & V). rewrite (after_vw _ _ _ V) in *.
  assert (Hb : dropbl r = r).
  { apply drop_idem. destruct r as [|c q]; [reflexivity|]. unfold head. cbn. destruct (fblank c) eqn:E; [|reflexivity].
    exfalso. apply Nb. now apply blank_fblank. }
  destruct (umatch_alts ci line r s ws Hne) with (2 := V) (3 := Hb) as (s' & E & H).
  { eapply Forall_impl; [|exact Hw]. intros w ((A & B & _) & _). now split. }
  exists s'. split; [exact E|].
  assert (F : match first_alt ci ws r with Some x => exists w, In w ws /\ word_at ci (fst w) (snd w) r x
     | None => forall w rest, In w ws -> ~ word_at ci (fst w) (snd w) r rest end).
  { clear -Hw. induction ws as [|[m o] ws IH]; cbn [first_alt]; [intros w rest []|]. inversion_clear Hw as [|? ? K Hw']. cbn in K.
    destruct (wspec ci m o r) as [x|] eqn:Ew.
    - exists (m, o). split; [now left|]. now apply wspec_sound.
    - specialize (IH Hw'). destruct (first_alt ci ws r) as [x|].
      + destruct IH as (w & I & W). exists w. split; [now right|assumption].
      + intros w rest [<-|I] W; [|now apply (IH w rest)]. cbn in W. rewrite (wspec_complete ci m o r rest (proj1 K) W) in Ew. discriminate Ew. }
  destruct (first_alt ci ws r) as [x|].
  - destruct H as (O & _). split; [|rewrite O; discriminate]. split; [|intros _; exact O]. intros _. destruct F as (w & I & W). now exists w, x.
  - destruct H as (O & C). split; [|intros _; exact C]. split; [rewrite O; discriminate|]. intros (w & rest & I & W). now elim (F w rest I).
Qed.
Print Assumptions C15_alternatives_accept.

(* a word used by the program, on an abbreviated and mixed-case input *)
Lemma transient_word : command_word (str "tr") (str "ansient").
Proof.
  split; [|reflexivity]. split; [|split].
  - repeat constructor; try discriminate; intros H; cbn in H; intuition discriminate.
  - repeat constructor; try discriminate; intros H; cbn in H; intuition discriminate.
  - repeat constructor; intros d ci H W;
      (assert (A : isalpha d = true); [destruct H as [->|[_ H]]; [reflexivity|]; revert H; destruct d as [[] [] [] [] [] [] [] []]; vm_compute; intros H; (discriminate H || reflexivity)|]);
      clear H; revert A W; destruct d as [[] [] [] [] [] [] [] []]; intros A W; try discriminate A; cbn in W; destruct W as [W|[W|W]]; try discriminate W; intuition discriminate.
Qed.
Example C15_case : command_word (str "tr") (str "ansient") /\ on_line (str "  Tran  , 5") (cs_string (str "  Tran  , 5")) /\
  (let* s := umatch true (pattern (str "tr") (str "ansient")) (cs_string (str "  Tran  , 5")) in
   let* lm := last_match s in Some (ok s, after s, lm)) = Some (true, str "5", str "Tran  ") /\
  (let* s := umatch true (pattern (str "tr") (str "ansient")) (cs_string (str "  trap")) in Some (ok s, cnt s)) = Some (false, 0).
Proof. split; [apply transient_word|]. split; [repeat split; vm_compute; discriminate|]. split; vm_compute; reflexivity. Qed.
Lemma ac_word : command_word (str "ac") [].
Proof.
  split; [|reflexivity]. split; [|split; constructor].
  repeat constructor; try discriminate; intros H; cbn in H; intuition discriminate.
Qed.
Example C15_alternatives_case : Forall (fun w => command_word (fst w) (snd w)) [(str "ac", []); (str "tr", str "ansient")] /\
  ~ begins_blank (after (cs_string (str "tr 1"))) /\
  (let* s := umatch true (alts [(str "ac", []); (str "tr", str "ansient")]) (cs_string (str "tr 1")) in Some (ok s)) = Some true.
Proof.
  split; [apply Forall_cons; [apply ac_word|apply Forall_cons; [apply transient_word|apply Forall_nil]]|]. split; [intros [_ H]; discriminate H|vm_compute; reflexivity].
Qed.

(* with blanks in front only the first alternative is found: after a failed alternative the cursor goes
   back to before the blanks and the blanks are not skipped again *)
Theorem C15_later_alternative_after_blank_refuted : exists line s' rest,
  umatch true (alts [(str "ac", []); (str "tr", str "ansient")]) (cs_string line) = Some s' /\ ok s' = false /\
  exists bl word, line = bl ++ word /\ Forall blank bl /\ word_at true (str "tr") (str "ansient") word rest.
Proof.
  exists (str " tran 1"). eexists _, (str " 1"). split; [vm_compute; reflexivity|]. split; [reflexivity|].
  exists (str " "), (str "tran 1"). split; [reflexivity|]. split; [repeat constructor; discriminate|].
  exists (str "tr"), (str "an"), (str "sient"), (str "an"). split; [reflexivity|].
  split; [repeat constructor|]. split; [repeat constructor|]. split; [reflexivity|]. cbn. right. left. reflexivity.
Qed.
Print Assumptions C15_later_alternative_after_blank_refuted.
(* a pattern whose '{' is never closed makes the matcher read beyond the pattern *)
Theorem C15_unclosed_brace_refuted : exists p line, ~ In NUL p /\ umatch true p (cs_string line) = None.
Proof. exists (str "tr{an"), (str "trx"). split; [intros H; cbn in H; intuition discriminate|vm_compute; reflexivity]. Qed.
Print Assumptions C15_unclosed_brace_refuted.
