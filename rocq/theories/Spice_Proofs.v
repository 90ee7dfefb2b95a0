(* Lemmas for C65: what the reading steps of the spice parsers do to the text after the cursor. *)
Require Import ZArith List Ascii String Bool Lia.
Require Import ZifyBool.
Require Import Verif.Loops Verif.Wmatch_Model Verif.CS_Model Verif.CS_Proofs Verif.CS_Ops Verif.CS_Word Verif.Quote_Proofs Verif.Parse_Model Verif.Parse_Scan.
Require Import Verif.P_Scanner Verif.P_Keyword Verif.P_Quote Verif.Verilog_Model Verif.Verilog_Proofs Verif.P_Verilog.
Require Import Verif.Spice_Model.
Import ListNotations.
Local Open Scope Z_scope.

(* ---- a key without optional part, with or without the blank behind it ---- *)
Fixpoint pre (ci : bool) (m r : text) : option text :=
  match m, r with
  | [], _ => Some r
  | c :: m', k :: r' => if sameb ci k c then pre ci m' r' else None
  | _, [] => None
  end.
Lemma pre_some : forall ci m r x, pre ci m r = Some x <-> exists u, r = u ++ x /\ Forall2 (same_char ci) u m.
Proof.
  intros ci m. induction m as [|c m IH]; intros r x; cbn [pre].
  - split; [intros [= <-]; exists []; split; [reflexivity|constructor]|]. intros (u & -> & H). now inversion H.
  - destruct r as [|k r]; [split; [discriminate|intros (u & E & H); inversion H; subst; discriminate E]|].
    destruct (sameb ci k c) eqn:E.
    + rewrite IH. apply sameb_ok in E. split; intros (u & E1 & H).
      * exists (k :: u). subst r. split; [reflexivity|now constructor].
      * inversion H as [|k' ? u' ? Hk Hu]; subst. injection E1 as -> ->. now exists u'.
    + split; [discriminate|]. intros (u & E1 & H). inversion H as [|k' ? u' ? Hk Hu]; subst. injection E1 as -> ->. apply sameb_ok in Hk. congruence.
Qed.
Lemma key_loop : forall ci line st m t, Forall plain m -> (t = [] \/ t = [" "%char]) -> forall n r s, (List.length (m ++ t) < n)%nat -> vw line r s ->
  match pre ci m r with
  | Some x => if match t with [] => true | _ => fterm TERM (head x) end
      then exists s2, umatch_loop ci n st (m ++ t) false s = Some s2 /\ ok s2 = true /\ vw line (match t with [] => x | _ => dropbl x end) s2
      else exists s2 r2, umatch_loop ci n st (m ++ t) false s = Some s2 /\ ok s2 = false /\ vw line r2 s2
  | None => exists s2 r2, umatch_loop ci n st (m ++ t) false s = Some s2 /\ ok s2 = false /\ vw line r2 s2
  end.
Proof.
  intros ci line st m t Hm Ht. induction Hm as [|c m Hc Hm IH]; intros n r s Hn V.
  - cbn [pre app]. destruct n as [|n]; [cbn in Hn; lia|]. destruct Ht as [->| ->].
    + cbn [umatch_loop]. exists (set_ok s true). auto.
    + cbn [umatch_loop]. replace (Ascii.eqb " " "|") with false by reflexivity. inb (peek_vw _ _ _ V). cbv iota.
      replace (Ascii.eqb " " "{") with false by reflexivity. cbn [negb andb]. inb (is_term_vw _ _ _ TERM V). replace (Ascii.eqb " " " ") with true by reflexivity. cbn [andb].
      destruct (fterm TERM (head r)) eqn:F.
      * destruct (skipbl_vw _ _ _ V) as (s1 & E1 & V1 & _). inb E1. destruct n as [|n]; [cbn in Hn; lia|]. cbn [umatch_loop]. exists (set_ok s1 true). auto.
      * assert (N : Ascii.eqb (head r) " " = false) by (destruct (Ascii.eqb_spec (head r) " ") as [E|_]; [rewrite E in F; discriminate F|reflexivity]). rewrite N.
        assert (N2 : ci && Ascii.eqb (to_lower (head r)) (to_lower " ") = false).
        { destruct ci; [|reflexivity]. cbn [andb]. revert N. generalize (head r). intros a. destruct a as [[] [] [] [] [] [] [] []]; vm_compute; congruence. }
        rewrite N2. cbn [find_bar]. exists (set_ok s false), r. auto.
  - cbn [app]. destruct n as [|n]; [cbn in Hn; lia|]. rewrite (plain_step ci line st n c (m ++ t) false r s Hc V). destruct r as [|k r]; cbn [pre].
    + exists (set_ok s false), []. split; [|auto]. rewrite <- (app_nil_r (m ++ t)), find_bar_plain; [reflexivity|now left|].
      apply Forall_app. split; [eapply Forall_impl; [|exact Hm]; intros a [_ Ha] ->; apply Ha; cbn; auto 8|]. destruct Ht as [->| ->]; repeat constructor; discriminate.
    + destruct (sameb ci k c) eqn:E.
      * destruct (skip_vw _ _ _ _ V) as [V1 _]. apply (IH n r (skip s)); [cbn in Hn; lia|exact V1].
      * exists (set_ok s false), (k :: r). split; [|auto]. rewrite <- (app_nil_r (m ++ t)), find_bar_plain; [reflexivity|now left|].
        apply Forall_app. split; [eapply Forall_impl; [|exact Hm]; intros a [_ Ha] ->; apply Ha; cbn; auto 8|]. destruct Ht as [->| ->]; repeat constructor; discriminate.
Qed.
Lemma key_vw : forall ci line m t r s, Forall plain m -> (t = [] \/ t = [" "%char]) -> vw line r s ->
  exists s', umatch ci (m ++ t) s = Some s' /\
  match pre ci m (dropbl r) with
  | Some x => if match t with [] => true | _ => fterm TERM (head x) end
      then ok s' = true /\ vw line (dropcom (match t with [] => x | _ => dropbl x end)) s'
      else ok s' = false /\ vw line r s'
  | None => ok s' = false /\ vw line r s'
  end.
Proof.
  intros ci line m t r s Hm Ht V. unfold umatch. destruct (skipbl_vw _ _ _ V) as (s1 & E1 & V1 & _). inb E1.
  pose proof (key_loop ci line (cnt s) m t Hm Ht (umatch_rounds (m ++ t)) (dropbl r) s1 ltac:(unfold umatch_rounds; lia) V1) as L.
  destruct (pre ci m (dropbl r)) as [x|]; [destruct (match t with [] => true | _ => fterm TERM (head x) end)|].
  - destruct L as (s2 & E2 & O2 & V2). inb E2. rewrite O2. destruct (skipcom_vw _ _ _ (vw_m _ _ _ (cnt s1) (cnt s2) V2)) as (s4 & E4 & V4 & _).
    cbn [bind]. rewrite E4. cbn [bind]. eexists. split; [reflexivity|]. split; [reflexivity|exact V4].
  - destruct L as (s2 & r2 & E2 & O2 & V2). inb E2. rewrite O2. eexists. split; [reflexivity|]. split; [reflexivity|]. exact (vw_reset_fail _ _ s _ s2 V V2).
  - destruct L as (s2 & r2 & E2 & O2 & V2). inb E2. rewrite O2. eexists. split; [reflexivity|]. split; [reflexivity|]. exact (vw_reset_fail _ _ s _ s2 V V2).
Qed.
Lemma key_miss : forall ci line m t r s, Forall plain m -> (t = [] \/ t = [" "%char]) -> vw line r s ->
  (forall x, pre ci m (dropbl r) = Some x -> t <> [] /\ fterm TERM (head x) = false) ->
  exists s', umatch ci (m ++ t) s = Some s' /\ ok s' = false /\ vw line r s'.
Proof.
  intros ci line m t r s Hm Ht V H. destruct (key_vw ci line m t r s Hm Ht V) as (s' & E & L). exists s'. split; [exact E|].
  destruct (pre ci m (dropbl r)) as [x|]; [|exact L]. destruct (H x eq_refl) as [Nt F]. destruct t; [now elim Nt|]. rewrite F in L. exact L.
Qed.
(* a whole word other than the key *)
Definition keychar (c : ascii) : Prop := plain c /\ forall k ci, same_char ci k c -> fterm TERM k = false.
Lemma word_miss : forall ci line m w x s, Forall keychar m -> isgraph (head (w ++ x)) = true -> Forall (fun c => fterm TERM c = false) w ->
  fterm TERM (head x) = true -> ~ Forall2 (same_char ci) w m -> vw line (w ++ x) s ->
  exists s', umatch ci (m ++ [" "%char]) s = Some s' /\ ok s' = false /\ vw line (w ++ x) s'.
Proof.
  intros ci line m w x s Hm G Fw Fx N V. apply key_miss; [eapply Forall_impl; [|exact Hm]; now intros c [? _]|now right|exact V|].
  assert (D : dropbl (w ++ x) = w ++ x). { destruct (w ++ x) as [|c q]; [reflexivity|now apply dropbl_graph]. }
  rewrite D. intros y E. split; [discriminate|]. apply pre_some in E. destruct E as (u & E & H2). clear V D G.
  destruct (fterm TERM (head y)) eqn:Fy; [|reflexivity]. elim N. clear N.
  assert (Fu : Forall (fun c => fterm TERM c = false) u).
  { clear -H2 Hm. induction H2 as [|k c u m Hk _ IH]; [constructor|]. inversion_clear Hm as [|? ? [_ Hc] Hm']. constructor; [now apply (Hc k ci)|now apply IH]. }
  replace w with u; [exact H2|]. clear H2 Hm. revert u E Fu. induction Fw as [|c w Fc _ IH]; intros u E Fu.
  - destruct u as [|k u]; [reflexivity|]. inversion_clear Fu as [|? ? Fk _]. cbn [app] in E. subst x. change (head (k :: u ++ y)) with k in Fx. congruence.
  - destruct u as [|k u]; [cbn [app] in E; subst y; change (head (c :: w ++ x)) with c in Fy; congruence|]. injection E as -> E. f_equal. inversion_clear Fu. now apply IH.
Qed.
Definition KEYWORDS := [str "poly"; str "pwl"; str "vccap"; str "vcg"; str "vcr"].
Lemma alpha_key : forall c, In c (str "polywvcagr") -> keychar c.
Proof.
  intros c I. split.
  - split; [intros ->; cbn in I; intuition discriminate|]. intros J. cbn in I, J. intuition (subst; discriminate).
  - intros k ci [->|[_ E]].
    + repeat (destruct I as [<-|I]; [reflexivity|]). destruct I.
    + repeat (destruct I as [<-|I]; [revert E; destruct k as [[] [] [] [] [] [] [] []]; vm_compute; congruence|]). destruct I.
Qed.
Lemma keywords_ok : forall k, In k KEYWORDS -> Forall keychar k.
Proof.
  intros k I. apply Forall_forall. intros c Ic. apply alpha_key. repeat (destruct I as [<-|I]; [cbn in *; intuition (subst; auto 12)|]). destruct I.
Qed.
Lemma any_key_miss : forall ci line w x s, isgraph (head (w ++ x)) = true -> Forall (fun c => fterm TERM c = false) w ->
  fterm TERM (head x) = true -> (forall k, In k KEYWORDS -> ~ Forall2 (same_char ci) w k) -> vw line (w ++ x) s ->
  exists s', any_key ci KEYS s = Some (false, s') /\ vw line (w ++ x) s'.
Proof.
  intros ci line w x s G Fw Fx N V.
  change KEYS with (map (fun k => k ++ [" "%char]) KEYWORDS).
  assert (K : forall l, (forall k, In k l -> In k KEYWORDS) -> forall s, vw line (w ++ x) s ->
    exists s', any_key ci (map (fun k => k ++ [" "%char]) l) s = Some (false, s') /\ vw line (w ++ x) s').
  { clear s V. induction l as [|k l IH]; intros Hl s V; [exists s; auto|]. cbn [map any_key].
    destruct (word_miss ci line k w x s (keywords_ok k (Hl k (or_introl eq_refl))) G Fw Fx (N k (Hl k (or_introl eq_refl))) V) as (s1 & E1 & O1 & V1).
    inb E1. rewrite O1. apply IH; [|exact V1]. intros k' I. apply Hl. now right. }
  now apply K.
Qed.

(* ---- words with separators between them ---- *)
Inductive words : list text -> text -> Prop :=
  | w_one w : name w -> words [w] w
  | w_cons w sp l t : name w -> sep sp -> sp <> [] -> words l t -> words (w :: l) (w ++ sp ++ t).
Lemma words_firm : forall l t x, words l t -> firm (t ++ x).
Proof. intros l t x [w H|w sp l' t' H _ _ _]; [now apply name_firm|]. rewrite <- app_assoc. now apply name_firm. Qed.
Lemma words_len : forall l t, words l t -> (List.length l <= List.length t)%nat.
Proof.
  intros l t H. induction H as [w (N & _)|w sp l t (N & _) _ _ _ IH]; (destruct w as [|c w]; [now elim N|]); [cbn; lia|].
  repeat (rewrite app_length; cbn [List.length]). lia.
Qed.
Lemma words_app : forall l1 t1 l2 t2 sp, words l1 t1 -> words l2 t2 -> sep sp -> sp <> [] -> words (l1 ++ l2) (t1 ++ sp ++ t2).
Proof.
  intros l1 t1 l2 t2 sp H1 H2 S N. induction H1 as [w Hw|w sp1 l t Hw S1 N1 H1 IH].
  - cbn [app]. now apply w_cons.
  - cbn [app]. rewrite <- !app_assoc. now apply w_cons.
Qed.
Lemma words_ne : forall l t, words l t -> l <> [] /\ t <> [].
Proof.
  intros l t [w (N & _)|w sp l' t' (N & _) _ _ _]; [split; [discriminate|exact N]|]. split; [discriminate|]. intros E. apply app_eq_nil in E. now elim N.
Qed.
(* what ends a word: a separator, or a character that no word contains, or the end of the line *)
Lemma sep_fterm : forall sp r, sep sp -> sp <> [] -> fterm TERM (head (sp ++ r)) = true.
Proof.
  intros [|c sp] r S N; [now elim N|]. destruct S as [B|(b1 & b2 & B1 & _ & E)]; [inversion_clear B; now apply fterm_space|].
  destruct b1 as [|d b1]; injection E as -> _; [reflexivity|]. inversion_clear B1. now apply fterm_space.
Qed.
Definition ended (sp x : text) : Prop := sep sp /\ (sp <> [] \/ fterm TERM (head x) = true).
Lemma ended_fterm : forall sp x, ended sp x -> fterm TERM (head (sp ++ x)) = true.
Proof. intros sp x [S H]. destruct sp as [|c sp]; [destruct H as [H|H]; [now elim H|exact H]|]. apply sep_fterm; [exact S|discriminate]. Qed.
(* a word is read together with the separator behind it *)
Lemma word_step : forall line w sp x s, name w -> ended sp x -> firm x -> vw line (w ++ sp ++ x) s ->
  exists s', word s = Some (w, s') /\ vw line x s' /\ ok s' = true /\ cnt s < cnt s'.
Proof.
  intros line w sp x s Hw He F V. destruct (name_vw line w [] (sp ++ x) s Hw nil_sp (ended_fterm sp x He) V) as (s' & E & V' & O).
  rewrite (dropcom_sep sp x (proj1 He) F) in V'. exists s'. split; [exact E|]. split; [exact V'|]. split; [exact O|].
  pose proof (vw_cnt _ _ _ V). pose proof (vw_cnt _ _ _ V'). destruct Hw as (N & _). destruct w as [|c w]; [now elim N|].
  repeat (rewrite app_length in *; cbn [List.length] in *). lia.
Qed.
Lemma close_none : forall line p c r s, c <> NUL -> firm r -> head r <> c -> vw line r s -> exists s', close_if p c s = Some (false, s') /\ vw line r s'.
Proof.
  intros line p c r s N F H V. unfold close_if. destruct p; [|exists s; auto]. destruct (nochar_vw line c r s N F H V) as (s1 & E1 & V1 & O1). inb E1. exists s1. now rewrite O1.
Qed.
Lemma firm_more : forall line r s, firm r -> vw line r s -> exists s', more s = Some (match r with [] => false | _ => true end, s') /\ vw line r s' /\ (r <> [] -> cnt s' = cnt s).
Proof.
  intros line r s F V. destruct (more_vw _ _ _ V) as (s1 & E1 & V1 & _). rewrite (dropbl_firm r F) in E1, V1. exists s1. split; [|split; [exact V1|]].
  - rewrite E1. destruct r as [|c q]; [reflexivity|]. destruct (F c q eq_refl) as [G _]. unfold head. cbn [hd]. destruct (Ascii.eqb_spec c NUL) as [->|_]; [discriminate G|reflexivity].
  - intros _. now apply (vw_same_cnt _ _ _ _ _ V V1).
Qed.
Lemma set_none : forall line t r s, firm r -> in_set t (head r) = false -> vw line r s -> exists s', skip1b t s = Some s' /\ vw line r s' /\ ok s' = false.
Proof.
  intros line t r s F H V. destruct (skip1b_vw _ _ _ t V) as (s' & E & V' & _ & O). rewrite (eat_none _ r F H) in V'. rewrite (dropbl_firm r F), H in O. eauto.
Qed.
Lemma name_head : forall w x, name w -> exists c q, w ++ x = c :: q /\ isgraph c = true /\ ~ In c TERM.
Proof.
  intros [|c w] x (N & [V S] & _); [now elim N|]. exists c, (w ++ x). split; [reflexivity|]. split; [apply V; now left|apply S; now left].
Qed.
(* count_ports: the words, and what follows them *)
Definition counted (paren : bool) (mx mn tail i : Z) (x : text) : Z :=
  match x with
  | [] => at_end mx mn tail i
  | c :: _ => if paren && Ascii.eqb c ")" then i else if Ascii.eqb c "=" then at_equal mx tail i else at_paren mx tail i
  end.
Definition stop_at (x : text) : Prop := match x with [] => True | c :: _ => In c (str "({})=") end.
Lemma stop_firm : forall x, stop_at x -> firm x /\ fterm TERM (head x) = true.
Proof. intros [|c q] H; [split; [intros ? ? [=]|reflexivity]|]. cbn in H. split; [|]; repeat (destruct H as [<-|H]; [try reflexivity; now apply firm_cons|]); destruct H. Qed.
Lemma count_step : forall line paren mx mn tail i spots n w sp x s, name w -> ended sp x -> firm x -> vw line (w ++ sp ++ x) s ->
  exists s1, vw line x s1 /\ (stop_at x -> exists s', count_loop (S n) paren mx mn tail i spots s = Some (counted paren mx mn tail (i + 1) x, spots ++ [cnt s1], s') /\ exists r, vw line r s') /\
    (forall c q, x = c :: q -> ~ In c TERM -> exists s', vw line x s' /\ count_loop (S n) paren mx mn tail i spots s = count_loop n paren mx mn tail (i + 1) (spots ++ [cnt s1]) s').
Proof.
  intros line paren mx mn tail i spots n w sp x s Hw He F V. destruct (word_step line w sp x s Hw He F V) as (s1 & E1 & V1 & _). exists s1. split; [exact V1|]. split.
  - intros Hx. cbn [count_loop]. inb E1. destruct x as [|c q].
    + destruct (close_none line paren ")" [] s1 ltac:(discriminate) F ltac:(discriminate) V1) as (s2 & E2 & V2). inb E2.
      destruct (firm_more line [] s2 F V2) as (s3 & E3 & V3 & _). inb E3. exists s3. split; [reflexivity|eauto].
    + unfold counted. destruct paren; cbn [andb].
      * destruct (Ascii.eqb_spec c ")") as [->|Nc].
        -- destruct (char_bl line [] ")" q s1 eq_refl nil_sp V1) as (s2 & E2 & V2 & O2). unfold close_if. inb E2. rewrite O2. cbn [bind]. exists s2. split; [reflexivity|eauto].
        -- destruct (close_none line true ")" (c :: q) s1 ltac:(discriminate) F Nc V1) as (s2 & E2 & V2). inb E2.
           destruct (firm_more line _ s2 F V2) as (s3 & E3 & V3 & _). inb E3. cbn [negb]. destruct (Ascii.eqb_spec c "=") as [->|Ne].
           ++ destruct (set_none line (str "({})") _ s3 F eq_refl V3) as (s4 & E4 & V4 & O4). inb E4. rewrite O4.
              destruct (char_bl line [] "=" q s4 eq_refl nil_sp V4) as (s5 & E5 & V5 & O5). inb E5. rewrite O5. exists s5. split; [reflexivity|eauto].
           ++ destruct (skip1b_vw _ _ _ (str "({})") V3) as (s4 & E4 & V4 & _ & O4). inb E4. rewrite (dropbl_firm _ F) in O4. unfold head in O4. cbn [hd] in O4.
              assert (I : in_set (str "({})") c = true). { apply In_in_set; [destruct (F c q eq_refl) as [G _]; now apply graph_nul|]. cbn in Hx |- *. intuition congruence. }
              rewrite I in O4. rewrite O4. exists s4. split; [reflexivity|eauto].
      * cbn [close_if bind].
           destruct (firm_more line _ s1 F V1) as (s3 & E3 & V3 & _). inb E3. cbn [negb]. destruct (Ascii.eqb_spec c "=") as [->|Ne].
           ++ destruct (set_none line (str "({})") _ s3 F eq_refl V3) as (s4 & E4 & V4 & O4). inb E4. rewrite O4.
              destruct (char_bl line [] "=" q s4 eq_refl nil_sp V4) as (s5 & E5 & V5 & O5). inb E5. rewrite O5. exists s5. split; [reflexivity|eauto].
           ++ destruct (skip1b_vw _ _ _ (str "({})") V3) as (s4 & E4 & V4 & _ & O4). inb E4. rewrite (dropbl_firm _ F) in O4. unfold head in O4. cbn [hd] in O4.
              assert (I : in_set (str "({})") c = true). { apply In_in_set; [destruct (F c q eq_refl) as [G _]; now apply graph_nul|]. cbn in Hx |- *. intuition congruence. }
              rewrite I in O4. rewrite O4. exists s4. split; [reflexivity|eauto].
  - intros c q -> Nc. cbn [count_loop]. inb E1.
    assert (N1 : c <> ")"%char) by (intros ->; apply Nc; cbn; auto 12). assert (N2 : c <> "="%char) by (intros ->; apply Nc; cbn; auto 12).
    destruct (close_none line paren ")" (c :: q) s1 ltac:(discriminate) F N1 V1) as (s2 & E2 & V2). inb E2.
    destruct (firm_more line _ s2 F V2) as (s3 & E3 & V3 & _). inb E3. cbn [negb].
    assert (I : in_set (str "({})") c = false) by (apply notin_set; intros I; apply Nc; cbn in I |- *; intuition auto 12).
    destruct (set_none line (str "({})") _ s3 F I V3) as (s4 & E4 & V4 & O4). inb E4. rewrite O4.
    destruct (nochar_vw line "=" _ s4 ltac:(discriminate) F N2 V4) as (s5 & E5 & V5 & O5). inb E5. rewrite O5. exists s5. split; [exact V5|reflexivity].
Qed.
Lemma count_words : forall line paren mx mn tail sp x, stop_at x -> sep sp -> forall l t, words l t -> forall i spots n s, (List.length l <= n)%nat -> vw line (t ++ sp ++ x) s ->
  exists P s', count_loop n paren mx mn tail i spots s = Some (counted paren mx mn tail (i + Z.of_nat (List.length l)) x, spots ++ P, s') /\
    List.length P = List.length l /\ (exists r, vw line r s') /\ forall p, In p P -> exists s0 r0, cnt s0 = p /\ vw line r0 s0.
Proof.
  intros line paren mx mn tail sp x Hx Hs l t H. destruct (stop_firm x Hx) as [F T]. induction H as [w Hw|w sp1 l t Hw S1 N1 H IH]; intros i spots n s Hn V.
  - destruct n as [|n]; [cbn in Hn; lia|]. destruct (count_step line paren mx mn tail i spots n w sp x s Hw) as (s1 & V1 & A & _); [split; [exact Hs|now right]|exact F|exact V|].
    destruct (A Hx) as (s' & E & V'). exists [cnt s1], s'. split; [exact E|]. split; [reflexivity|]. split; [exact V'|]. intros p [<-|[]]. eauto.
  - destruct n as [|n]; [cbn in Hn; lia|]. rewrite <- !app_assoc in V.
    destruct (count_step line paren mx mn tail i spots n w sp1 (t ++ sp ++ x) s Hw) as (s1 & V1 & _ & B); [split; [exact S1|now left]|now apply words_firm with l|exact V|].
    assert (Q : exists c q, t ++ sp ++ x = c :: q /\ ~ In c TERM).
    { destruct H as [w2 H2|w2 sp2 l2 t2 H2 _ _ _]; [|rewrite <- app_assoc]; destruct (name_head w2 (sp ++ x) H2) as (c & q & E & _ & Nc).
      - exists c, q. auto.
      - destruct (name_head w2 (sp2 ++ t2 ++ sp ++ x) H2) as (c2 & q2 & E2 & _ & N2). exists c2, q2. rewrite <- !app_assoc in *. auto. }
    destruct Q as (c & q & Eq & Nc). destruct (B c q Eq Nc) as (s2 & V2 & E2). rewrite E2.
    destruct (IH (i + 1) (spots ++ [cnt s1]) n s2 ltac:(cbn in Hn; lia) V2) as (P & s' & E3 & L3 & V3 & I3).
    exists (cnt s1 :: P), s'. split; [|split; [cbn; lia|split; [exact V3|intros p [<-|I]; [eauto|now apply I3]]]]. rewrite E3. rewrite <- app_assoc. cbn [app List.length].
    replace (i + 1 + Z.of_nat (List.length l)) with (i + Z.of_nat (S (List.length l))) by lia. reflexivity.
Qed.
