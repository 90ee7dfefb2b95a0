(* C61: reading and printing expressions. *)
Require Import ZArith List Ascii String Bool Lia.
Require Import Verif.Loops Verif.Wmatch_Model Verif.CS_Model Verif.CS_Proofs Verif.CS_Ops Verif.Parse_Model Verif.Parse_Spec Verif.Parse_Scan Verif.Parse_Proofs Verif.Parse_Complete Verif.Parse_Dump.
Require Import Verif.P_Scanner Verif.P_Keyword.
Require Import Verif.Value_Model Verif.Expr_Model Verif.Expr_Sem Verif.Expr_Proofs.
Import ListNotations.
Local Open Scope Z_scope.

(* ---- glue ---- *)
Lemma after_split : forall line s, on_line line s -> vw line (after s) s.
Proof. intros line s H. destruct (on_line_vw _ _ H) as (r & V). now rewrite (after_vw _ _ _ V). Qed.
Lemma parse_sound : forall ci line r s, vw line r s ->
  parse ci s = Bad \/ exists s' r' t e, parse ci s = Good (s', post e) /\ vw line r' s' /\ r = t ++ r' /\ dropbl r' = r' /\ writes true 0 t e.
Proof.
  intros ci line r s V. pose proof (vw_le _ _ _ V) as L. assert (Cl : cmd s = line) by apply V.
  assert (F : (16 * List.length r + rank Nexpression < 16 * S (List.length (cmd s)))%nat) by (rewrite Cl; unfold rank; lia).
  destruct (sound ci line _ Nexpression r s [] V I F) as [B|(s' & r' & t & D & E & V' & Er & Br & (e & -> & W & _))]; [now left|].
  right. exists s', r', t, e. auto.
Qed.
Lemma ends_ok : forall r, ends r -> okrest r /\ clean 0 r.
Proof.
  intros r [H1 H2]. split.
  - destruct r as [|c q]; [repeat split; try reflexivity; discriminate|]. destruct (H1 c q eq_refl) as (G & Nn & Nb).
    assert (A : falpha c = false).
    { destruct (falpha c) eqn:E; [|reflexivity]. elim Nn. left. left. unfold falpha in E. destruct G as [->|G]; [discriminate E|].
      revert G E. clear. destruct c as [[] [] [] [] [] [] [] []]; vm_compute; congruence. }
    assert (B : fpf c = false).
    { destruct (fpf c) eqn:E; [|reflexivity]. elim Nn. right. left. unfold fpf in E. now apply in_set_In in E. }
    assert (C : fus c = false).
    { destruct (fus c) eqn:E; [|reflexivity]. elim Nn. right. right. unfold fus in E. now apply in_set_In in E. }
    unfold okrest, stops, head. cbn [hd]. split; [repeat split; try assumption; intros ->; apply Nb; cbn; auto|].
    split; [intros ->; apply Nb; cbn; auto|]. unfold fblank. destruct G as [->|G]; [reflexivity|]. rewrite G. apply andb_false_r.
  - intros j Hj. destruct (opm j r) as [[o x]|] eqn:E; [|reflexivity]. exfalso.
    destruct j as [|j].
    { cbn [opm] in E. apply first_op_some in E. destruct E as [[<-|[]] ->]. apply (H2 (str "?") x); [cbn; auto 20|reflexivity]. }
    destruct (opm_some (S j) r o x ltac:(lia) E) as [-> [I|(_ & Hk & I)]].
    + apply (H2 o x); [|reflexivity]. unfold operators. rewrite !in_app_iff. destruct j as [|[|[|[|[|j]]]]]; try lia; auto 10.
    + apply (H2 o x); [|reflexivity]. unfold operators. rewrite !in_app_iff. cbn in I. do 5 right. cbn. tauto.
Qed.
Lemma parse_complete : forall ci line r s t e, vw line (t ++ r) s -> writes false 0 t e -> ends r -> exists s', parse ci s = Good (s', post e) /\ vw line r s'.
Proof.
  intros ci line r s t e V W H. destruct (ends_ok r H) as [O C]. destruct (proj1 (complete ci line) _ _ _ W) as [_ R].
  destruct (R r [] O C s V) as (n & s' & A & V'). cbn [app] in A. exists s'. split; [|exact V'].
  unfold parse. set (F := (16 * S (List.length (cmd s)))%nat).
  destruct (go_mono ci F (Nat.max F n) Nexpression s [] ltac:(lia)) as [X|X].
  - exfalso. destruct (parse_sound ci line _ s V) as [B|(s2 & r2 & t2 & e2 & E & _)]; [unfold parse in B; fold F in B|unfold parse in E; fold F in E]; congruence.
  - rewrite X. apply A. lia.
Qed.

(* ==== C61 ==== *)

(* What is written according to the grammar (precedences, left association, calls, arrays, strings,
   signs, conditionals) is read completely, and its tokens are those of the tree it stands for *)
Theorem C61_parse : forall ci line s t r e, on_line line s -> after s = t ++ r -> writes false 0 t e -> ends r ->
  exists s', parse ci s = Good (s', post e) /\ on_line line s' /\ after s' = r.
Proof.
  intros ci line s t r e H E W Hr. pose proof (after_split _ _ H) as V. rewrite E in V.
  destruct (parse_complete ci line r s t e V W Hr) as (s' & P & V'). exists s'. split; [exact P|]. split; [now apply vw_on_line with r|now apply after_vw with line].
Qed.
Print Assumptions C61_parse.

(* Whatever the text: reading ends, with an exception or with the tokens of a tree that the text read
   (possibly in the lenient sense) stands for *)
Theorem C61_total : forall ci line s, on_line line s ->
  parse ci s = Bad \/
  exists s' t e, parse ci s = Good (s', post e) /\ on_line line s' /\ after s = t ++ after s' /\ writes true 0 t e.
Proof.
  intros ci line s H. pose proof (after_split _ _ H) as V. destruct (parse_sound ci line _ s V) as [B|(s' & r' & t & e & E & V' & Er & _ & W)]; [now left|].
  right. exists s', t, e. split; [exact E|]. split; [now apply vw_on_line with r'|]. rewrite (after_vw _ _ _ V'). auto.
Qed.
Print Assumptions C61_total.

(* A text stands for one tree, and the tokens determine the tree *)
Theorem C61_unambiguous : (forall t e e', writes false 0 t e -> writes false 0 t e' -> e = e') /\ (forall e e', post e = post e' -> e = e').
Proof.
  split; [|exact post_inj]. intros t e e' W W'. apply post_inj.
  assert (En : ends []) by (split; [discriminate|intros o q Ho X; cbn in Ho; destruct o; [repeat (destruct Ho as [Ho|Ho]; [discriminate Ho|]); destruct Ho|discriminate X]]).
  pose proof (vw_start t) as V. rewrite <- (app_nil_r t) in V at 2.
  destruct (parse_complete false t [] _ t e V W En) as (s1 & E1 & _). destruct (parse_complete false t [] _ t e' V W' En) as (s2 & E2 & _). congruence.
Qed.
Print Assumptions C61_unambiguous.

(* Printing never fails on what was read; and when no conditional is a direct operand of an operator,
   the printed text is read back as the same tokens *)
Theorem C61_printing_succeeds : forall ci line s s' ts, on_line line s -> parse ci s = Good (s', ts) -> exists d, dump ts = Good d.
Proof.
  intros ci line s s' ts H E. destruct (C61_total ci line s H) as [B|(s2 & t & e & E2 & _)]; [congruence|]. rewrite E in E2. injection E2 as _ ->.
  exists (show e). unfold dump. now rewrite (post_prints e [] I).
Qed.
Print Assumptions C61_printing_succeeds.
Theorem C61_print_read : forall t e, writes false 0 t e -> ~ tern_under e ->
  exists d, dump (post e) = Good d /\ writes false 0 d e /\
  forall ci line s r, on_line line s -> after s = d ++ r -> ends r -> exists s', parse ci s = Good (s', post e) /\ on_line line s' /\ after s' = r.
Proof.
  intros t e W N. exists (show e). split; [unfold dump; now rewrite (post_prints e [] I)|].
  assert (Ws : writes false 0 (show e) e) by (apply show_writes; exact (proj1 written_proper _ _ _ W N)).
  split; [exact Ws|]. intros ci line s r H E Hr. now apply C61_parse with (show e).
Qed.
Print Assumptions C61_print_read.

(* ---- from text to value ---- *)
Definition same (a b : list ascii) : bool := if list_eq_dec ascii_dec a b then true else false.
(* the operator of that name, lib/m_expression_reduce.cc:44-70, 92-98 *)
Definition bop_of (n : list ascii) : option bop :=
  option_map snd (find (fun p => same (fst p) n) [(str "*", BMul); (str "+", BAdd); (str "-", BSub); (str "/", BDiv); (str "%", BMod); (str "==", BEq); (str "!=", BNe);
    (str "<", BLt); (str ">", BGt); (str "<=", BLe); (str ">=", BGe); (str "||", BOr); (str "&&", BAnd)]).
Definition uop_of (n : list ascii) : option uop :=
  option_map snd (find (fun p => same (fst p) n) [(str "-", UMinus); (str "+", UPlus); (str "!", UNot)]).
Section Value.
Variable B : dbl.
Definition obind {A C} (x : option A) (f : A -> option C) : option C := match x with Some a => f a | None => None end.
(* the tokens as Expr_Model.v has them; arrays are not in it *)
Fixpoint translate (t : ptok) : option (tok B) :=
  let fix all (l : list ptok) : option (list (tok B)) := match l with [] => Some [] | x :: r => obind (translate x) (fun a => obind (all r) (fun b => Some (a :: b))) end in
  match t with
  | KSym n => Some (TSym n)
  | KBin n => option_map TBin (bop_of n)
  | KUn n => option_map (fun u => TUn (Some u)) (uop_of n)
  | KStr d => Some (TConst (VS true (Some d)))
  | KTern tp fp => obind (all tp) (fun a => obind (all fp) (fun b => Some (TTern a b)))
  | KStop _ => Some TStop | KPar _ => Some TPar | KArr _ => None
  end.
Fixpoint translate_all (l : list ptok) : option (list (tok B)) := match l with [] => Some [] | x :: r => obind (translate x) (fun a => obind (translate_all r) (fun b => Some (a :: b))) end.
(* the tree as an expression of Expr_Model.v *)
Fixpoint expr_of (e : tree) : option (expr B) :=
  match e with
  | Leaf n => Some (ESym n)
  | Str d => Some (EConst (VS true (Some d)))
  | Call n args => option_map (ECall n) ((fix all (l : list tree) := match l with [] => Some [] | x :: r => obind (expr_of x) (fun a => obind (all r) (fun b => Some (a :: b))) end) args)
  | Arr _ => None
  | Un o e => obind (uop_of o) (fun u => option_map (EUn (Some u)) (expr_of e))
  | Bin o a b => obind (bop_of o) (fun p => obind (expr_of a) (fun x => option_map (EBin p x) (expr_of b)))
  | Tern c t f => obind (expr_of c) (fun c => obind (expr_of t) (fun t => option_map (ETern c t) (expr_of f)))
  end.
Lemma translate_inner : forall l, (fix all (l : list ptok) : option (list (tok B)) := match l with [] => Some [] | x :: r => obind (translate x) (fun a => obind (all r) (fun b => Some (a :: b))) end) l = translate_all l.
Proof. induction l as [|x l IH]; [reflexivity|]. cbn [translate_all]. now rewrite IH. Qed.
Lemma translate_app : forall a b x y, translate_all a = Some x -> translate_all b = Some y -> translate_all (a ++ b) = Some (x ++ y).
Proof.
  induction a as [|t a IH]; intros b x y Ha Hb; [injection Ha as <-; exact Hb|]. cbn [app translate_all] in *. destruct (translate t) as [u|]; [cbn in *|discriminate Ha].
  destruct (translate_all a) as [w|]; [cbn in *|discriminate Ha]. injection Ha as <-. now rewrite (IH b w y eq_refl Hb).
Qed.
Lemma translate_post : forall e x, expr_of e = Some x -> translate_all (post e) = Some (rpn B x).
Proof.
  refine (tree_all (fun e => forall x, expr_of e = Some x -> translate_all (post e) = Some (rpn B x)) _ _ _ _ _ _ _); cbn [expr_of].
  - intros n x [= <-]. reflexivity.
  - intros d x [= <-]. reflexivity.
  - intros n args F x H.
    assert (L : forall xs, (fix all (l : list tree) := match l with [] => Some [] | x :: r => obind (expr_of x) (fun a => obind (all r) (fun b => Some (a :: b))) end) args = Some xs ->
      translate_all (flat_map post args) = Some (flat_map (rpn B) xs)).
    { clear H. induction F as [|e l He F IH]; intros xs H; [injection H as <-; reflexivity|]. destruct (expr_of e) as [a|] eqn:Ea; [cbn [obind] in H|discriminate H].
      destruct ((fix all (l : list tree) := match l with [] => Some [] | x :: r => obind (expr_of x) (fun a => obind (all r) (fun b => Some (a :: b))) end) l) as [b|] eqn:Eb; [cbn [obind] in H|discriminate H].
      injection H as <-. cbn [flat_map]. apply translate_app; [now apply He|now apply IH]. }
    destruct ((fix all (l : list tree) := match l with [] => Some [] | x :: r => obind (expr_of x) (fun a => obind (all r) (fun b => Some (a :: b))) end) args) as [xs|]; [cbn in H|discriminate H].
    injection H as <-. cbn [post rpn]. cbn [translate_all translate obind]. now rewrite (translate_app _ [KPar (str ")"); KSym n] _ [TPar; TSym n] (L xs eq_refl) eq_refl).
  - intros items F x H. discriminate H.
  - intros o e He x H. destruct (uop_of o) as [u|] eqn:Eu; [cbn in H|discriminate H]. destruct (expr_of e) as [a|]; [cbn in H|discriminate H]. injection H as <-.
    cbn [post rpn]. apply translate_app; [now apply He|]. cbn. now rewrite Eu.
  - intros o a b HA HB x H. destruct (bop_of o) as [p|] eqn:Ep; [cbn in H|discriminate H]. destruct (expr_of a) as [xa|]; [cbn in H|discriminate H].
    destruct (expr_of b) as [xb|]; [cbn in H|discriminate H]. injection H as <-. cbn [post rpn]. apply translate_app; [now apply HA|]. apply translate_app; [now apply HB|]. cbn. now rewrite Ep.
  - intros c t f HC HT HF x H. destruct (expr_of c) as [xc|]; [cbn in H|discriminate H]. destruct (expr_of t) as [xt|]; [cbn in H|discriminate H].
    destruct (expr_of f) as [xf|]; [cbn in H|discriminate H]. injection H as <-. cbn [post rpn]. apply translate_app; [now apply HC|].
    cbn [translate_all translate]. rewrite translate_inner, (HT _ eq_refl). cbn [obind]. rewrite translate_inner, (HF _ eq_refl). reflexivity.
Qed.
End Value.

(* Reading a text and reducing what was read gives the value that the tree has when it is evaluated
   from the leaves up with the operators of C20, in any arithmetic *)
Theorem C61_text_has_its_value : forall B lit pdef fn cval, computes B cval fn ->
  forall ci line s t r e x w, on_line line s -> after s = t ++ r -> writes false 0 t e -> ends r -> expr_of B e = Some x -> Ev B lit pdef cval x w ->
  exists s' ts toks, parse ci s = Good (s', ts) /\ after s' = r /\ translate_all B ts = Some toks /\
  exists k, forall k', (k <= k')%nat -> reduce B lit (scope_lookup B pdef) fn k' toks = OK [TConst w].
Proof.
  intros B lit pdef fn cval CF ci line s t r e x w H E W Hr Ex V. destruct (C61_parse ci line s t r e H E W Hr) as (s' & P & _ & A).
  exists s', (post e), (rpn B x). split; [exact P|]. split; [exact A|]. split; [now apply translate_post|]. exact (ev_reduces B lit pdef fn cval CF x w V).
Qed.
Print Assumptions C61_text_has_its_value.

(* ---- a case ---- *)
Lemma word_letter : forall c, isalpha c = true -> ~ pointdigit c -> word false [c].
Proof.
  intros c H N. left. split; [now exists c, []|]. split; [constructor; [|constructor]; left; left; now left|].
  intros [|k a] b E; injection E as -> E; [discriminate H|destruct a; discriminate E].
Qed.
Lemma word_digit : forall c, In c (str "0123456789") -> word false [c].
Proof. intros c I. right. exists [c], []. split; [reflexivity|]. split; [discriminate|]. split; [constructor; [now right|constructor]|]. left. split; [constructor|discriminate]. Qed.
Definition one := Leaf (str "1"). Definition two := Leaf (str "2"). Definition x := Leaf (str "x"). Definition y := Leaf (str "y").
Ltac wletter := unfold one, two, x, y; match goal with |- writes false _ _ (Leaf ?n) => apply writes_down with 7%nat; [lia|]; apply (w_leaf false n []); [|apply Forall_nil] end;
  first [apply word_letter; [reflexivity|cbn; intuition discriminate] | apply word_digit; cbn; auto 12].
(* 1+x*f(y,-2) *)
Definition sum := Bin (str "+") one (Bin (str "*") x (Call (str "f") [y; Un (str "-") two])).
Lemma sum_written : writes false 0 (str "1+x*f(y,-2)") sum.
Proof.
  apply writes_down with 4%nat; [lia|]. apply (w_bin false 4 (str "+") [] (str "1") (str "x*f(y,-2)")); [left; cbn; auto|left; apply Forall_nil|wletter|].
  apply (w_bin false 5 (str "*") [] (str "x") (str "f(y,-2)")); [left; cbn; auto|left; apply Forall_nil|wletter|]. apply w_up.
  apply (w_call false (str "f") [] [] [] (str "y,-2")); try apply Forall_nil.
  { apply word_letter; [reflexivity|cbn; intuition discriminate]. }
  apply (l_cons false (str "y") [] (str "-2")); [wletter|apply Forall_nil|discriminate|]. apply l_one. apply writes_down with 6%nat; [lia|].
  apply (w_sign false (str "-") [] (str "2")); [cbn; auto|left; apply Forall_nil|wletter].
Qed.
Lemma ends_semi : ends (str "; more").
Proof.
  split.
  - intros c q E. injection E as <- _. split; [now right|]. split; [|cbn; intuition discriminate]. intros [[L|[D _]]|[P|U]]; [discriminate L|discriminate D|cbn in P; intuition discriminate|cbn in U; intuition discriminate].
  - intros o q I E. cbn in I. repeat (destruct I as [<-|I]; [discriminate E|]). destruct I.
Qed.
Example C61_example : exists s', parse false (cs_string (str "1+x*f(y,-2); more")) = Good (s', post sum) /\ after s' = str "; more".
Proof.
  destruct (C61_parse false (str "1+x*f(y,-2); more") (cs_string (str "1+x*f(y,-2); more")) (str "1+x*f(y,-2)") (str "; more") sum) as (s' & E & _ & A).
  - apply vw_on_line with (str "1+x*f(y,-2); more"). apply vw_start.
  - reflexivity.
  - exact sum_written.
  - exact ends_semi.
  - exists s'. split; [exact E|exact A].
Qed.
(* precedence and association matter *)
Example C61_example_order : post sum <> post (Bin (str "*") (Bin (str "+") one x) (Call (str "f") [y; Un (str "-") two])).
Proof. discriminate. Qed.
(* printed, with every operator in parentheses *)
Example C61_example_print : dump (post sum) = Good (str "(1 + (x * f(y, (- 2))))") /\ ~ tern_under sum.
Proof. split; [reflexivity|]. cbn. intuition auto. Qed.
(* the tokens read from a text, and what is left of it *)
Definition reading (t : string) : option (list ptok * list ascii) := match parse false (cs_string (str t)) with Good (s, ts) => Some (ts, after s) | _ => None end.
(* text that is refused, and text that is accepted in part *)
Example C61_example_bad : parse false (cs_string (str "1+*2")) = Bad /\ parse false (cs_string (str "f(1")) = Bad /\ parse false (cs_string (str "--1")) = Bad /\
  reading "a|b" = Some (post (Leaf (str "a")), str "|b").
Proof. vm_compute. repeat split; reflexivity. Qed.
Example C61_example_value : forall B, expr_of B sum = Some (EBin BAdd (ESym (str "1")) (EBin BMul (ESym (str "x")) (ECall (str "f") [ESym (str "y"); EUn (Some UMinus) (ESym (str "2"))]))).
Proof. reflexivity. Qed.

(* ---- what does not hold ---- *)
(* A conditional that is an operand is printed without parentheses: its text reads as something else *)
Definition cond_sum := Bin (str "+") (Tern (Leaf (str "a")) (Leaf (str "b")) (Leaf (str "c"))) (Leaf (str "d")).
Theorem C61_conditional_operand_refuted : exists t e d e',
  reading t = Some (post e, []) /\ dump (post e) = Good (str d) /\ reading d = Some (post e', []) /\ e' <> e.
Proof.
  exists "(a?b:c)+d"%string, cond_sum, "((a)? (b):(c) + d)"%string, (Tern (Leaf (str "a")) (Leaf (str "b")) (Bin (str "+") (Leaf (str "c")) (Leaf (str "d")))).
  split; [vm_compute; reflexivity|]. split; [vm_compute; reflexivity|]. split; [vm_compute; reflexivity|]. discriminate.
Qed.
Print Assumptions C61_conditional_operand_refuted.
(* Text in angle brackets takes the comma behind it, so it can only be the last argument *)
Theorem C61_angle_argument_refuted : parse false (cs_string (str "f(<a>,b)")) = Bad /\
  reading "f(b,<a>)" = Some (post (Call (str "f") [Leaf (str "b"); Leaf (str "<a>")]), []).
Proof. vm_compute. split; reflexivity. Qed.
Print Assumptions C61_angle_argument_refuted.
(* After a blank, only the first of the signs is found *)
Theorem C61_leading_blank_refuted : parse false (cs_string (str " !x")) = Bad /\ parse false (cs_string (str " +x")) = Bad /\
  reading " -x" = Some (post (Un (str "-") (Leaf (str "x"))), []) /\ reading "!x" = Some (post (Un (str "!") (Leaf (str "x"))), []).
Proof. vm_compute. repeat split; reflexivity. Qed.
Print Assumptions C61_leading_blank_refuted.
(* The pattern for "||" takes its backslashes literally: a backslash is accepted as a binary operator,
   which no later stage knows; and a comma behind an operator is skipped *)
Theorem C61_stray_operator_refuted :
  reading "a\b" = Some (post (Bin (str "\") (Leaf (str "a")) (Leaf (str "b"))), []) /\ bop_of (str "\") = None /\
  reading "a*,b" = Some (post (Bin (str "*") (Leaf (str "a")) (Leaf (str "b"))), []).
Proof. vm_compute. repeat split; reflexivity. Qed.
Print Assumptions C61_stray_operator_refuted.
