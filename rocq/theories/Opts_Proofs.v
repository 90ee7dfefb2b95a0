(* Lemmas about the matching of option names. *)
Require Import String.
Require Import ZArith QArith Qabs List Ascii Bool Lia.
Require Import Verif.Loops Verif.Wmatch_Model Verif.CS_Model Verif.CS_Proofs Verif.CS_Ops Verif.CS_Word Verif.Probes_Model.
Import ListNotations.
Local Open Scope string_scope.
Local Open Scope list_scope.

(* the parts of a pattern: a letter, optional letters in braces, the blank that asks for the end of the word *)
Inductive seg := Lit (c : ascii) | Op (o : list ascii) | Bl.
Definition flat1 (g : seg) : list ascii := match g with Lit c => [c] | Op o => "{"%char :: o ++ ["}"%char] | Bl => [" "%char] end.
Definition flat (p : list seg) : list ascii := concat (map flat1 p).
Definition okseg (g : seg) : Prop := match g with Lit c => plain c | Op o => Forall plain o | Bl => True end.
Fixpoint mt (ci : bool) (p : list seg) (r : list ascii) : option (list ascii) :=
  match p with
  | [] => Some r
  | Lit c :: p => match r with k :: r => if sameb ci k c then mt ci p r else None | [] => None end
  | Op o :: p => mt ci p (eat_some ci o r)
  | Bl :: p => if fterm TERM (head r) then mt ci p (dropbl r) else None
  end.

Lemma no_bar : forall p prev, Forall okseg p -> find_bar prev (flat p) = None.
Proof.
  intros p. induction p as [|g p IH]; intros prev H; [reflexivity|]. inversion_clear H as [|? ? Hg Hp].
  change (flat (g :: p)) with (flat1 g ++ flat p). destruct g as [c|o|]; cbn [flat1 app find_bar].
  - rewrite (plain_neq c "|") by (assumption || (cbn; auto 8)). now apply IH.
  - change (Ascii.eqb "{" "|") with false. cbv iota. rewrite <- app_assoc. cbn [okseg] in Hg. generalize "{"%char as prv.
    induction o as [|d o IHo]; intros prv; cbn [app find_bar].
    + change (Ascii.eqb "}" "|") with false. cbv iota. now apply IH.
    + inversion_clear Hg as [|? ? Hd Ho]. rewrite (plain_neq d "|") by (assumption || (cbn; auto 8)). now apply IHo.
  - change (Ascii.eqb " " "|") with false. cbv iota. now apply IH.
Qed.
Lemma to_brace_plain : forall o p, Forall plain o -> to_brace (o ++ "}"%char :: p) = Some ("}"%char :: p).
Proof.
  intros o p H. induction H as [|c o Hc _ IH]; [reflexivity|]. cbn [app to_brace].
  rewrite (plain_neq c "}") by (assumption || (cbn; auto 8)). exact IH.
Qed.
Lemma brace_step : forall ci line st n p r s, vw line r s ->
  umatch_loop ci (S n) st ("}"%char :: p) true s = umatch_loop ci n st p false s.
Proof.
  intros. cbn [umatch_loop]. change (Ascii.eqb "}" "|") with false. cbv iota. inb (peek_vw _ _ _ H).
  change (Ascii.eqb "}" "\") with false. cbn [andb]. destruct p; reflexivity.
Qed.
Lemma open_step : forall ci line st n p r s, vw line r s ->
  umatch_loop ci (S n) st ("{"%char :: p) false s = umatch_loop ci n st p true s.
Proof.
  intros. cbn [umatch_loop]. change (Ascii.eqb "{" "|") with false. cbv iota. inb (peek_vw _ _ _ H).
  change (Ascii.eqb "{" "\") with false. cbn [andb negb]. destruct p; reflexivity.
Qed.
Lemma op_loop : forall ci line st o p, Forall plain o -> forall n r s, (List.length (o ++ "}"%char :: p) < n)%nat -> vw line r s ->
  exists n' s', (List.length p < n')%nat /\ vw line (eat_some ci o r) s' /\
    umatch_loop ci n st (o ++ "}"%char :: p) true s = umatch_loop ci n' st p false s'.
Proof.
  intros ci line st o p H. induction H as [|c o Hc Ho IH]; intros n r s L V.
  - destruct n as [|n]; [lia|]. exists n, s. cbn [app] in *. split; [cbn in L; lia|]. split; [destruct r; exact V|]. now apply brace_step with line r.
  - destruct n as [|n]; [lia|]. cbn [app]. rewrite (plain_step ci line st n c _ true r s Hc V). cbn [app List.length] in L.
    destruct r as [|k r].
    + cbn [eat_some]. replace (to_brace (c :: o ++ "}"%char :: p)) with (Some ("}"%char :: p)) by (symmetry; apply (to_brace_plain (c :: o) p); now constructor). cbn [bind]. destruct n as [|n]; [lia|].
      exists n, s. split; [rewrite app_length in L; cbn in L; lia|]. split; [exact V|]. now apply brace_step with line [].
    + cbn [eat_some]. destruct (sameb ci k c) eqn:Ek.
      * destruct (skip_vw _ _ _ _ V) as [V' _]. apply IH; [lia|exact V'].
      * replace (to_brace (c :: o ++ "}"%char :: p)) with (Some ("}"%char :: p)) by (symmetry; apply (to_brace_plain (c :: o) p); now constructor). cbn [bind]. destruct n as [|n]; [lia|].
        exists n, s. split; [rewrite app_length in L; cbn in L; lia|]. split; [exact V|]. now apply brace_step with line (k :: r).
Qed.
Lemma lower_blank : forall c, to_lower c = " "%char -> c = " "%char.
Proof. intros [[] [] [] [] [] [] [] []]; vm_compute; intros H; congruence. Qed.
Lemma blank_step : forall ci line st n p r s, vw line r s -> find_bar " " p = None ->
  umatch_loop ci (S n) st (" "%char :: p) false s =
  if fterm TERM (head r) then let* s := skipbl s in umatch_loop ci n st p false s else Some (set_ok s false).
Proof.
  intros ci line st n p r s V B. cbn [umatch_loop]. change (Ascii.eqb " " "|") with false. cbv iota. inb (peek_vw _ _ _ V).
  change (Ascii.eqb " " "\") with false. cbn [andb].
  replace (match p with [] => false | _ :: _ => false end) with false by (destruct p; reflexivity).
  change (Ascii.eqb " " "{") with false. change (Ascii.eqb " " "}") with false. cbn [andb negb].
  inb (is_term_vw _ _ _ TERM V). change (Ascii.eqb " " " ") with true. cbn [andb].
  destruct (fterm TERM (head r)) eqn:Et; [reflexivity|].
  destruct (Ascii.eqb_spec (head r) " ") as [E|_]; [rewrite E in Et; discriminate Et|].
  assert (E : ci && Ascii.eqb (to_lower (head r)) (to_lower " ") = false).
  { destruct ci; [|reflexivity]. cbn [andb]. destruct (Ascii.eqb_spec (to_lower (head r)) (to_lower " ")) as [E|_]; [|reflexivity].
    rewrite (lower_blank _ E) in Et. discriminate Et. }
  rewrite E, B. reflexivity.
Qed.
Lemma seg_loop : forall ci line st p, Forall okseg p -> forall n r s, (List.length (flat p) < n)%nat -> vw line r s ->
  exists s', umatch_loop ci n st (flat p) false s = Some s' /\
    match mt ci p r with Some x => ok s' = true /\ vw line x s' | None => ok s' = false /\ exists r', vw line r' s' end.
Proof.
  intros ci line st p H. induction H as [|g p Hg Hp IH]; intros n r s L V.
  - destruct n as [|n]; [cbn in L; lia|]. exists (set_ok s true). split; [reflexivity|]. split; [reflexivity|now apply vw_ok].
  - change (flat (g :: p)) with (flat1 g ++ flat p) in *. destruct n as [|n]; [cbn in L; lia|]. destruct g as [c|o|]; cbn [flat1 app] in *.
    + rewrite (plain_step ci line st n c _ false r s Hg V). rewrite (no_bar p c Hp). cbn [mt].
      destruct r as [|k r]; [exists (set_ok s false); split; [reflexivity|]; split; [reflexivity|exists []; now apply vw_ok]|].
      destruct (sameb ci k c); [|exists (set_ok s false); split; [reflexivity|]; split; [reflexivity|exists (k :: r); now apply vw_ok]].
      destruct (skip_vw _ _ _ _ V) as [V' _]. apply IH; [cbn in L; lia|exact V'].
    + rewrite (open_step ci line st n _ r s V). rewrite <- app_assoc in *. cbn [app] in *.
      destruct (op_loop ci line st o (flat p) Hg n r s) as (n' & s' & L' & V' & E); [cbn in L; lia|exact V|].
      rewrite E. cbn [mt]. now apply IH.
    + rewrite (blank_step ci line st n _ r s V (no_bar p _ Hp)). cbn [mt]. destruct (fterm TERM (head r)).
      * destruct (skipbl_vw _ _ _ V) as (s1 & E1 & V1 & _). inb E1. apply IH; [cbn in L; lia|exact V1].
      * exists (set_ok s false). split; [reflexivity|]. split; [reflexivity|]. exists r. now apply vw_ok.
Qed.
Lemma umatch_seg : forall ci line p r s, Forall okseg p -> vw line r s ->
  exists s', umatch ci (flat p) s = Some s' /\
    match mt ci p (dropbl r) with Some x => ok s' = true /\ vw line (dropcom x) s' | None => ok s' = false /\ vw line r s' end.
Proof.
  intros ci line p r s H V. unfold umatch. destruct (skipbl_vw _ _ _ V) as (s1 & E1 & V1 & _). inb E1.
  destruct (seg_loop ci line (cnt s) p H (umatch_rounds (flat p)) (dropbl r) s1) as (s2 & E2 & K); [unfold umatch_rounds; lia|exact V1|].
  inb E2. destruct (mt ci p (dropbl r)) as [x|].
  - destruct K as [O2 V2]. rewrite O2. destruct (skipcom_vw _ _ _ (vw_m _ _ _ (cnt s1) (cnt s2) V2)) as (s4 & E4 & V4 & _). inb E4.
    exists (set_ok s4 true). split; [reflexivity|]. split; [reflexivity|exact V4].
  - destruct K as [O2 (r' & V2)]. rewrite O2. eexists. split; [reflexivity|]. split; [reflexivity|]. exact (vw_reset_fail _ _ _ _ _ V V2).
Qed.

(* ---- which words a pattern stands for ---- *)
(* the letters of a pattern, with the text in braces set apart; inside: the letters since the brace, last first *)
Fixpoint parse_from (inside : option (list ascii)) (l : list ascii) : list seg :=
  match l with
  | [] => []
  | c :: l =>
      match inside with
      | None => if Ascii.eqb c "{" then parse_from (Some []) l else Lit c :: parse_from None l
      | Some o => if Ascii.eqb c "}" then Op (rev o) :: parse_from None l else parse_from (Some (c :: o)) l
      end
  end.
Definition parse (k : string) : list seg := parse_from None (str k).
(* the word is spelled by the pattern: its letters in order, of those in braces any number from the left *)
Fixpoint spells (ci : bool) (p : list seg) (w : list ascii) : Prop :=
  match p with
  | [] => w = []
  | Lit c :: p => exists d w', w = d :: w' /\ same_char ci d c /\ spells ci p w'
  | Op o :: p => exists o1 o2 o1' w', o = o1 ++ o2 /\ Forall2 (same_char ci) o1' o1 /\ w = o1' ++ w' /\ spells ci p w'
  | Bl :: p => False
  end.
Definition inner (c : ascii) : bool := negb (fterm TERM c).
(* letters that are plain and do not end a word; a letter after braces is not one of those inside *)
Definition plainb (c : ascii) : bool := negb (Ascii.eqb c NUL) && negb (mem c (str "\{}| ")).
Definition goodc (c : ascii) : bool := plainb c && inner c.
Fixpoint wordy (p : list seg) : bool :=
  match p with
  | [] => true
  | Lit c :: p => goodc c && wordy p
  | Op o :: p => forallb goodc o && (match p with [] => true | Lit c :: _ => forallb (fun d => negb (Ascii.eqb (to_lower d) (to_lower c))) o | _ => false end) && wordy p
  | Bl :: _ => false
  end.
Lemma lower_inner : forall c, inner (to_lower c) = inner c.
Proof. intros [[] [] [] [] [] [] [] []]; reflexivity. Qed.
Lemma same_lower : forall ci c d, same_char ci c d -> to_lower c = to_lower d.
Proof. intros ci c d [->|[_ H]]; [reflexivity|exact H]. Qed.
Lemma same_inner : forall ci c d, same_char ci c d -> inner d = true -> inner c = true.
Proof. intros ci c d H I. rewrite <- lower_inner, (same_lower _ _ _ H), lower_inner. exact I. Qed.
Lemma plainb_ok : forall c, plainb c = true -> plain c.
Proof.
  intros c H. apply andb_true_iff in H. destruct H as [A B]. split.
  - intros ->. discriminate A.
  - intros I. unfold mem in B. replace (existsb (Ascii.eqb c) (str "\{}| ")) with true in B; [discriminate B|].
    symmetry. apply existsb_exists. exists c. split; [exact I|apply Ascii.eqb_refl].
Qed.
Lemma goodc_plain : forall c, goodc c = true -> plain c.
Proof. intros c H. apply andb_true_iff in H. now apply plainb_ok. Qed.
Lemma goodc_inner : forall c, goodc c = true -> inner c = true.
Proof. intros c H. apply andb_true_iff in H. apply H. Qed.
Lemma wordy_ok : forall p, wordy p = true -> Forall okseg p.
Proof.
  intros p. induction p as [|[c|o|] p IH]; intros H; cbn [wordy] in H; [constructor| | |discriminate H].
  - apply andb_true_iff in H. destruct H as [A B]. constructor; [now apply goodc_plain|now apply IH].
  - apply andb_true_iff in H. destruct H as [A B]. apply andb_true_iff in A. destruct A as [A _]. constructor; [|now apply IH].
    apply Forall_forall. intros x I. apply goodc_plain. rewrite forallb_forall in A. now apply A.
Qed.
Lemma eat_some_split : forall ci o r, exists o1 o2 o1', o = o1 ++ o2 /\ Forall2 (same_char ci) o1' o1 /\ r = o1' ++ eat_some ci o r.
Proof.
  intros ci. induction o as [|c o IH]; intros r; cbn; [exists [], [], []; repeat split; constructor|].
  destruct r as [|k r]; [exists [], (c :: o), []; repeat split; constructor|].
  destruct (sameb ci k c) eqn:E; [|exists [], (c :: o), []; repeat split; constructor].
  destruct (IH r) as (o1 & o2 & o1' & -> & F & Er). exists (c :: o1), o2, (k :: o1'). split; [reflexivity|].
  split; [constructor; [now apply sameb_ok|assumption]|]. cbn. now rewrite <- Er.
Qed.
Lemma mt_app : forall ci p q r, mt ci (p ++ q) r = match mt ci p r with Some x => mt ci q x | None => None end.
Proof.
  intros ci p q. induction p as [|[c|o|] p IH]; intros r; cbn [app mt]; [reflexivity| | |].
  - destruct r as [|k r]; [reflexivity|]. destruct (sameb ci k c); [apply IH|reflexivity].
  - apply IH.
  - destruct (fterm TERM (head r)); [apply IH|reflexivity].
Qed.
Lemma mt_sound : forall ci p r x, wordy p = true -> mt ci p r = Some x -> exists w, spells ci p w /\ r = w ++ x.
Proof.
  intros ci p. induction p as [|[c|o|] p IH]; intros r x W H; cbn [mt wordy] in *; [injection H as <-; now exists []| | |discriminate W].
  - apply andb_true_iff in W. destruct r as [|k r]; [discriminate H|]. destruct (sameb ci k c) eqn:E; [|discriminate H].
    destruct (IH r x (proj2 W) H) as (w & S & ->). exists (k :: w). split; [|reflexivity]. exists k, w. split; [reflexivity|]. split; [now apply sameb_ok|exact S].
  - apply andb_true_iff in W. destruct (IH _ x (proj2 W) H) as (w & S & E). destruct (eat_some_split ci o r) as (o1 & o2 & o1' & Eo & F & Er).
    exists (o1' ++ w). split; [exists o1, o2, o1', w; auto|]. rewrite Er, E. now rewrite app_assoc.
Qed.
Lemma spells_inner : forall ci p w, wordy p = true -> spells ci p w -> Forall (fun c => inner c = true) w.
Proof.
  intros ci p. induction p as [|[c|o|] p IH]; intros w W S; cbn [wordy spells] in *; [subst w; constructor| | |contradiction].
  - apply andb_true_iff in W. destruct S as (d & w' & -> & D & S). constructor; [|now apply IH].
    apply (same_inner ci d c D). now apply goodc_inner.
  - apply andb_true_iff in W. destruct W as [A W]. apply andb_true_iff in A. destruct A as [A _].
    destruct S as (o1 & o2 & o1' & w' & -> & F & -> & S). apply Forall_app. split; [|now apply IH].
    rewrite forallb_app in A. apply andb_true_iff in A. destruct A as [A _]. clear -F A.
    induction F as [|k c o1' o1 Hk _ IH]; [constructor|]. cbn in A. apply andb_true_iff in A. constructor; [|now apply IH].
    apply (same_inner ci k c Hk). now apply goodc_inner.
Qed.
Lemma end_not_inner : forall r, fterm TERM (head r) = true <-> (match r with [] => True | c :: _ => inner c = false end).
Proof.
  intros [|c r]; [split; reflexivity|]. unfold head, inner. cbn [hd]. split; [intros ->; reflexivity|].
  intros H. destruct (fterm TERM c); [reflexivity|discriminate H].
Qed.
Lemma eat_some_take : forall ci o1 o2 o1' x, Forall2 (same_char ci) o1' o1 ->
  (match x with [] => True | k :: _ => forall c, In c o2 -> ~ same_char ci k c end) -> eat_some ci (o1 ++ o2) (o1' ++ x) = x.
Proof.
  intros ci o1 o2 o1' x F. induction F as [|k c o1' o1 Hk _ IH]; intros N; cbn [app eat_some].
  - destruct o2 as [|c o2]; [destruct x; reflexivity|]. cbn [eat_some]. destruct x as [|k x]; [reflexivity|].
    destruct (sameb ci k c) eqn:E; [|reflexivity]. apply sameb_ok in E. now elim (N c (or_introl eq_refl)).
  - apply sameb_ok in Hk. rewrite Hk. now apply IH.
Qed.
Lemma mt_complete : forall ci p w rest, wordy p = true -> spells ci p w -> word_end rest -> mt ci p (w ++ rest) = Some rest.
Proof.
  intros ci p. induction p as [|[c|o|] p IH]; intros w rest W S E; cbn [wordy spells mt] in *; [now subst w| | |contradiction].
  - apply andb_true_iff in W. destruct S as (d & w' & -> & D & S). cbn [app]. apply sameb_ok in D. rewrite D. now apply IH.
  - apply andb_true_iff in W. destruct W as [A W]. apply andb_true_iff in A. destruct A as [A B].
    destruct S as (o1 & o2 & o1' & w' & -> & F & -> & S). rewrite <- app_assoc. rewrite eat_some_take; [now apply IH|exact F|].
    rewrite forallb_app in A. apply andb_true_iff in A. destruct A as [_ A].
    destruct p as [|[c|o|] p]; [| |discriminate B|discriminate B].
    + cbn [spells] in S. subst w'. cbn [app]. destruct rest as [|k rest]; [exact I|]. intros c I H.
      apply fterm_ok in E. apply end_not_inner in E. rewrite forallb_forall in A. specialize (A c I). apply goodc_inner in A.
      rewrite (same_inner ci k c H A) in E. discriminate E.
    + destruct S as (d & w'' & -> & D & S). cbn [app]. intros e I H. rewrite forallb_app in B. apply andb_true_iff in B. destruct B as [_ B].
      rewrite forallb_forall in B. specialize (B e I). apply same_lower in H. apply same_lower in D. rewrite <- H, <- D, Ascii.eqb_refl in B. discriminate B.
Qed.
(* a word of inner letters before the end of a word *)
Lemma word_prefix : forall w rest u x, Forall (fun c => inner c = true) w -> word_end rest -> Forall (fun c => inner c = true) u ->
  w ++ rest = u ++ x -> exists v, w = u ++ v.
Proof.
  intros w rest u x Hw He Hu. revert w Hw. induction Hu as [|c u Hc _ IH]; intros w Hw E; [now exists w|].
  destruct Hw as [|d w Hd Hw]; cbn [app] in E.
  - subst rest. apply fterm_ok in He. apply end_not_inner in He. rewrite Hc in He. discriminate He.
  - injection E as -> E. destruct (IH w Hw E) as (v & ->). now exists v.
Qed.
Lemma word_same : forall w rest u x, Forall (fun c => inner c = true) w -> word_end rest -> Forall (fun c => inner c = true) u -> word_end x ->
  w ++ rest = u ++ x -> w = u /\ rest = x.
Proof.
  intros w rest u x Hw He Hu Hx E. destruct (word_prefix w rest u x Hw He Hu E) as (v & Ev).
  destruct (word_prefix u x w rest Hu Hx Hw (eq_sym E)) as (v' & Ev'). subst w.
  destruct v as [|c v]; [|exfalso; apply (f_equal (@List.length ascii)) in Ev'; rewrite !app_length in Ev'; cbn in Ev'; lia].
  rewrite app_nil_r in *. split; [reflexivity|]. now apply app_inv_head in E.
Qed.

(* ---- all words of a pattern, in lower case ---- *)
Fixpoint prefixes (o : list ascii) : list (list ascii) := [] :: match o with [] => [] | c :: o => map (cons (to_lower c)) (prefixes o) end.
Fixpoint words (p : list seg) : list (list ascii) :=
  match p with
  | [] => [[]]
  | Lit c :: p => map (cons (to_lower c)) (words p)
  | Op o :: p => concat (map (fun a => map (app a) (words p)) (prefixes o))
  | Bl :: _ => []
  end.
Lemma spells_words : forall ci p w, spells ci p w -> In (map to_lower w) (words p).
Proof.
  intros ci p. induction p as [|[c|o|] p IH]; intros w S; cbn [spells words] in *; [subst w; now left| | |contradiction].
  - destruct S as (d & w' & -> & D & S). cbn [map]. rewrite (same_lower _ _ _ D). apply in_map. now apply IH.
  - destruct S as (o1 & o2 & o1' & w' & -> & F & -> & S). rewrite map_app. apply in_concat. exists (map (app (map to_lower o1')) (words p)).
    split; [|apply in_map; now apply IH]. apply (in_map (fun a => map (app a) (words p))). clear -F.
    induction F as [|k c o1' o1 Hk _ IH]; [destruct o2; now left|]. right. cbn [map]. rewrite (same_lower _ _ _ Hk). now apply in_map.
Qed.
Fixpoint begins (y x : list ascii) : bool :=
  match y, x with
  | [], _ => true
  | c :: y, d :: x => Ascii.eqb c d && begins y x
  | _, [] => false
  end.
Lemma begins_app : forall y v, begins y (y ++ v) = true.
Proof. induction y as [|c y IH]; intros v; [reflexivity|]. cbn. now rewrite Ascii.eqb_refl, IH. Qed.
Definition sameword (y x : list ascii) : bool := begins y x && begins x y.
