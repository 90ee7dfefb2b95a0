(* Proofs about Probes_Model: the commands as they are written. *)
Require Import ZArith QArith List Ascii String Bool Lia.
Require Import Verif.Loops Verif.Wmatch_Model Verif.CS_Model Verif.CS_Proofs Verif.CS_Ops Verif.CS_Float Verif.CS_Word Verif.Verilog_Proofs
  Verif.Probes_Model Verif.Probes_Proofs Verif.Probes_Text Verif.Probes_Cmd.
Import ListNotations.
Local Open Scope Z_scope.
Ltac inb E ::= rewrite E; cbn [bind].

(* ---- a keyword followed by a blank ---- *)
Lemma blank_loop : forall ci line st n r s, (1 < n)%nat -> vw line r s ->
  if fterm TERM (head r) then exists s', umatch_loop ci n st [" "%char] false s = Some (set_ok s' true) /\ vw line (dropbl r) s'
  else umatch_loop ci n st [" "%char] false s = Some (set_ok s false).
Proof.
  intros ci line st n r s L V. destruct n as [|[|n]]; [lia|lia|].
  cbn [umatch_loop]. change (Ascii.eqb " " "|") with false. cbv iota. inb (peek_vw _ _ _ V).
  change (Ascii.eqb " " "{") with false. change (Ascii.eqb " " "}") with false. cbn [negb andb].
  inb (is_term_vw _ _ _ TERM V). change (Ascii.eqb " " " ") with true. cbn [andb].
  destruct (fterm TERM (head r)) eqn:Et.
  - destruct (skipbl_vw _ _ _ V) as (s3 & E3 & V3 & _). inb E3. exists s3. split; [reflexivity|exact V3].
  - assert (K : Ascii.eqb (head r) " " = false).
    { destruct (Ascii.eqb_spec (head r) " ") as [E|]; [|reflexivity]. rewrite E in Et. discriminate Et. }
    rewrite K. assert (K2 : ci && Ascii.eqb (to_lower (head r)) (to_lower " ") = false).
    { destruct ci; [|reflexivity]. cbn [andb]. destruct (Ascii.eqb_spec (to_lower (head r)) (to_lower " ")) as [E|]; [|reflexivity].
      exfalso. revert E Et. generalize (head r). intros [[] [] [] [] [] [] [] []]; vm_compute; discriminate. }
    rewrite K2. reflexivity.
Qed.
Lemma find_bar_none : forall p prev, ~ In "|"%char p -> find_bar prev p = None.
Proof.
  induction p as [|c p IH]; intros prev N; [reflexivity|]. cbn [find_bar]. destruct (Ascii.eqb_spec c "|") as [->|_]; [elim N; now left|].
  apply IH. intros I. apply N. now right.
Qed.
Lemma plain_bar : forall m t, Forall plain m -> ~ In "|"%char t -> ~ In "|"%char (m ++ t).
Proof.
  intros m t F N I. apply in_app_or in I. destruct I as [I|I]; [|auto]. rewrite Forall_forall in F. destruct (F _ I) as [_ X]. apply X. cbn. auto 8.
Qed.
Lemma word_then : forall ci line st t, ~ In "|"%char t -> forall m, Forall plain m -> forall n r s, (List.length (m ++ t) < n)%nat -> vw line r s ->
  match eat_all ci m r with
  | Some x => exists n' s', (List.length t < n')%nat /\ vw line x s' /\ umatch_loop ci n st (m ++ t) false s = umatch_loop ci n' st t false s'
  | None => exists s' r', umatch_loop ci n st (m ++ t) false s = Some (set_ok s' false) /\ vw line r' s'
  end.
Proof.
  intros ci line st t Nt m F. induction F as [|c m Hc F IH]; intros n r s L V; cbn [eat_all app].
  - exists n, s. auto.
  - destruct n as [|n]; [cbn in L; lia|]. cbn [app] in L. rewrite (plain_step ci line st n c (m ++ t) false r s Hc V).
    destruct r as [|k r].
    + rewrite find_bar_none by now apply plain_bar. exists s, []. auto.
    + destruct (sameb ci k c) eqn:E.
      * apply IH; [cbn [List.length] in L; lia|]. apply (skip_vw _ _ _ _ V).
      * rewrite find_bar_none by now apply plain_bar. exists s, (k :: r). auto.
Qed.
Definition starts (ci : bool) (m r : list ascii) : option (list ascii) :=
  match eat_all ci m r with Some x => if fterm TERM (head x) then Some x else None | None => None end.
Lemma umatch_blank : forall ci line r s m, Forall plain m -> vw line r s ->
  exists s', umatch ci (m ++ [" "%char]) s = Some s' /\
    match starts ci m (dropbl r) with
    | Some x => ok s' = true /\ vw line (dropcom (dropbl x)) s'
    | None => ok s' = false /\ vw line r s' end.
Proof.
  intros ci line r s m F V. unfold umatch, starts. destruct (skipbl_vw _ _ _ V) as (s1 & E1 & V1 & _). inb E1.
  pose proof (word_then ci line (cnt s) [" "%char] ltac:(cbn; intuition discriminate) m F (umatch_rounds (m ++ [" "%char])) (dropbl r) s1) as K.
  assert (L : (List.length (m ++ [" "%char]) < umatch_rounds (m ++ [" "%char]))%nat) by (unfold umatch_rounds; lia).
  specialize (K L V1). destruct (eat_all ci m (dropbl r)) as [x|].
  - destruct K as (n' & s2 & L2 & V2 & E2). rewrite E2. pose proof (blank_loop ci line (cnt s) n' x s2 L2 V2) as B.
    destruct (fterm TERM (head x)).
    + destruct B as (s3 & E3 & V3). inb E3. cbn [ok set_ok].
      destruct (skipcom_vw _ _ _ (vw_m _ _ _ (cnt s1) (cnt s3) (vw_ok _ _ _ true V3))) as (s4 & E4 & V4 & _).
      cbn [cnt set_ok]. inb E4. eexists. split; [reflexivity|]. split; [reflexivity|]. exact V4.
    + inb B. cbn [ok set_ok]. eexists. split; [reflexivity|]. split; [reflexivity|]. exact (vw_reset_fail _ _ _ _ _ V V2).
  - destruct K as (s2 & r2 & E2 & V2). inb E2. cbn [ok set_ok]. eexists. split; [reflexivity|]. split; [reflexivity|]. exact (vw_reset_fail _ _ _ _ _ V V2).
Qed.
Lemma umatch_start : forall ci line r s m, Forall plain m -> vw line r s ->
  exists s', umatch ci m s = Some s' /\
    match eat_all ci m (dropbl r) with
    | Some x => ok s' = true /\ vw line (dropcom x) s'
    | None => ok s' = false /\ vw line r s' end.
Proof.
  intros ci line r s m F V. unfold umatch. destruct (skipbl_vw _ _ _ V) as (s1 & E1 & V1 & _). inb E1.
  pose proof (word_then ci line (cnt s) [] ltac:(intros []) m F (umatch_rounds m) (dropbl r) s1) as K. rewrite app_nil_r in K.
  assert (L : (List.length m < umatch_rounds m)%nat) by (unfold umatch_rounds; lia).
  specialize (K L V1). destruct (eat_all ci m (dropbl r)) as [x|].
  - destruct K as (n' & s2 & L2 & V2 & E2). rewrite E2. destruct n' as [|n']; [cbn in L2; lia|]. cbn [umatch_loop bind ok set_ok].
    destruct (skipcom_vw _ _ _ (vw_m _ _ _ (cnt s1) (cnt s2) (vw_ok _ _ _ true V2))) as (s4 & E4 & V4 & _).
    cbn [cnt set_ok]. inb E4. eexists. split; [reflexivity|]. split; [reflexivity|]. exact V4.
  - destruct K as (s2 & r2 & E2 & V2). inb E2. cbn [ok set_ok]. eexists. split; [reflexivity|]. split; [reflexivity|]. exact (vw_reset_fail _ _ _ _ _ V V2).
Qed.
Lemma sameb_fix : forall ci k c, sameb ci k c = Ascii.eqb (fix_case ci k) (fix_case ci c).
Proof.
  intros [] k c; unfold sameb, fix_case; cbn [andb]; [|now rewrite orb_false_r].
  destruct (Ascii.eqb_spec k c) as [->|_]; [now rewrite Ascii.eqb_refl|reflexivity].
Qed.
(* a word before a terminator is the keyword only if it is the same text *)
Lemma starts_word : forall ci m w x, Forall (fun c => fterm TERM c = false) w -> fterm TERM (head x) = true ->
  Forall (fun c => fterm TERM c = false /\ forall ci d, sameb ci d c = true -> fterm TERM d = false) m ->
  starts ci m (w ++ x) = if same_text ci w m then Some x else None.
Proof.
  intros ci m. unfold starts. induction m as [|c m IH]; intros w x Fw Fx Fm; cbn [eat_all].
  - destruct w as [|k w]; cbn [app same_text]; [now rewrite Fx|]. inversion_clear Fw as [|? ? Fk Fw']. change (head (k :: w ++ x)) with k. now rewrite Fk.
  - inversion_clear Fm as [|? ? [Fc Fc'] Fm']. destruct w as [|k w]; cbn [app same_text].
    + destruct x as [|k x]; [reflexivity|]. destruct (sameb ci k c) eqn:E; [|reflexivity]. change (head (k :: x)) with k in Fx. rewrite (Fc' _ _ E) in Fx. discriminate Fx.
    + inversion_clear Fw as [|? ? Fk Fw']. rewrite <- sameb_fix. destruct (sameb ci k c); cbn [andb]; [now apply IH|reflexivity].
Qed.

(* ---- the text of a command ---- *)
Record item := Item { i_sign : option bool; i_what : list ascii; i_name : list ascii; i_more : list (list ascii) }.
Definition names (it : item) : list (list ascii) := i_name it :: i_more it.
Definition more_text (ns : list (list ascii)) : list ascii := List.concat (map (fun n => ","%char :: n) ns).
Definition body_text (it : item) : list ascii := i_what it ++ "("%char :: i_name it ++ more_text (i_more it) ++ [")"%char].
Definition sign_text (b : option bool) : list ascii := match b with Some true => str "+" | Some false => str "-" | None => [] end.
Definition item_text (it : item) : list ascii := sign_text (i_sign it) ++ body_text it.
(* letters between terminators *)
Definition word (t : list ascii) (w : list ascii) : Prop := w <> [] /\ Forall (fun c => isgraph c = true /\ ~ In c t) w.
Definition what_ok (ci : bool) (w : list ascii) : Prop :=
  word (str ",=()[]{};") w /\ ~ In (head w) (QB ++ str "+-") /\ same_text ci w (str "clear") = false.
Definition name_ok (w : list ascii) : Prop := word (str ",=(){};") w /\ (isalpha (head w) = true \/ isdigit (head w) = true \/ In (head w) (str "*?")).
Definition add_ok (ci : bool) (sc : scope) (it : item) : Prop :=
  what_ok ci (i_what it) /\ name_ok (i_name it) /\ head (i_name it) <> "0"%char /\ same_text ci (i_name it) (str "nodes") = false /\
  Forall (fun n => name_ok n /\ add_branches ci n sc <> []) (i_more it).
Definition del_ok (ci : bool) (it : item) : Prop :=
  what_ok ci (i_what it) /\ word (str ",=()[]") (i_name it) /\ ~ In (head (i_name it)) QB /\ i_more it = [].
Definition act (a : action) (it : item) : action := match i_sign it with Some true => aADD | Some false => aDELETE | None => a end.
Fixpoint items_ok (ci : bool) (sc : scope) (a : action) (l : list (item * list ascii)) : Prop :=
  match l with
  | [] => True
  | (it, sp) :: l' => Forall (fun c => isspace c = true) sp /\
      (match act a it with aDELETE => del_ok ci it | _ => add_ok ci sc it end) /\ items_ok ci sc (act a it) l'
  end.
Definition items_text (l : list (item * list ascii)) : list ascii := List.concat (map (fun x => item_text (fst x) ++ snd x) l).
(* what a command does to a list *)
Fixpoint edited (ci : bool) (ll : Z -> list ascii) (sc : scope) (a : action) (its : list item) (l : list probe) : list probe :=
  match its with
  | [] => l
  | it :: its' =>
    edited ci ll sc (act a it) its'
      (match act a it with
       | aDELETE => filter (fun p => negb (wmatch ci (label ll p) (i_what it ++ str "(" ++ i_name it ++ str ")"))) l
       | _ => l ++ map (fun o => Probe (i_what it) (Some o) 0 0) (flat_map (fun n => add_branches ci n sc) (names it))
       end)
  end.

Lemma word_fterm : forall t w, word t w -> Forall (fun c => fterm t c = false) w.
Proof.
  intros t w [_ F]. eapply Forall_impl; [|exact F]. intros c [G N]. unfold fterm.
  assert (E1 : Ascii.eqb c NUL = false) by (destruct (Ascii.eqb_spec c NUL) as [->|]; [discriminate G|reflexivity]).
  assert (E2 : isspace c = false) by (revert G; clear; destruct c as [[] [] [] [] [] [] [] []]; vm_compute; congruence).
  rewrite E1, E2. cbn [orb]. unfold in_set. rewrite E1. cbn [negb andb]. destruct (mem c t) eqn:E; [|reflexivity].
  apply existsb_exists in E. destruct E as (d & I & Q). apply Ascii.eqb_eq in Q. subst d. contradiction.
Qed.
Lemma word_sub : forall t t' w, incl t' t -> word t w -> word t' w.
Proof. intros t t' w I [N F]. split; [exact N|]. eapply Forall_impl; [|exact F]. intros c [G K]. split; [exact G|]. intros J. apply K, I, J. Qed.
Lemma sub_token : incl TOKENTERM (str ",=()[]{};").
Proof. intros c I. cbn in *. intuition. Qed.
Lemma sub_term : incl TERM (str ",=()[]{};").
Proof. intros c I. cbn in *. intuition. Qed.
Lemma word_cons : forall t w, word t w -> exists c q, w = c :: q /\ isgraph c = true /\ ~ In c t.
Proof. intros t [|c q] [N F]; [congruence|]. inversion_clear F as [|? ? [G I] _]. now exists c, q. Qed.
Lemma dropcom_graph : forall c q, isgraph c = true -> c <> ","%char -> dropcom (c :: q) = c :: q.
Proof.
  intros c q G N. unfold dropcom, eat1b. rewrite dropbl_graph by exact G. cbn [eat1].
  rewrite fcomma_not by exact N. now apply dropbl_graph.
Qed.
Lemma dropcom_comma : forall q, dropcom (","%char :: q) = dropbl q.
Proof. intros q. unfold dropcom, eat1b. rewrite dropbl_graph by reflexivity. reflexivity. Qed.
Lemma find_pos_out : forall c l, ~ In c l -> find_pos c l = None.
Proof.
  intros c l. induction l as [|d l IH]; intros N; [reflexivity|]. cbn [find_pos]. destruct (Ascii.eqb_spec c d) as [->|_]; [elim N; now left|].
  rewrite IH; [reflexivity|]. intros I. apply N. now right.
Qed.
Lemma eat1b_here : forall c q, isgraph c = true -> eat1b (fun x => Ascii.eqb x c) (c :: q) = dropbl q.
Proof. intros c q G. unfold eat1b. rewrite dropbl_graph by exact G. cbn [eat1]. now rewrite Ascii.eqb_refl. Qed.
Lemma eat1b_not : forall c r, head r <> c -> fblank (head r) = false -> eat1b (fun x => Ascii.eqb x c) r = r.
Proof.
  intros c r N B. unfold eat1b. assert (D : dropbl r = r) by now apply drop_idem. rewrite D. destruct r as [|d q]; [reflexivity|]. cbn [eat1].
  change (head (d :: q)) with d in N. destruct (Ascii.eqb_spec d c); [contradiction|exact D].
Qed.
Lemma name_start : forall w, name_ok w -> fname (head w) = true /\ ~ In (head w) QB.
Proof.
  intros w [Hw H]. destruct (word_cons _ _ Hw) as (c & q & -> & G & _). change (head (c :: q)) with c in *. clear Hw q. revert G H. unfold fname.
  destruct c as [[] [] [] [] [] [] [] []]; vm_compute; intros G H; try discriminate G; (split; [|intuition discriminate]); try reflexivity; intuition discriminate.
Qed.
(* the terminator of a name in the list *)
Lemma more_text_head : forall ns y, fterm TERM (head (more_text ns ++ ")"%char :: y)) = true.
Proof. intros [|n ns] y; reflexivity. Qed.

Definition spaces (sp : list ascii) : Prop := Forall (fun c => isspace c = true) sp.
Lemma spaces_blank : forall sp, spaces sp -> Forall (fun c => fblank c = true) sp.
Proof. intros sp F. eapply Forall_impl; [|exact F]. intros c H. revert H. clear. destruct c as [[] [] [] [] [] [] [] []]; vm_compute; congruence. Qed.

Section K.
Variables (ci : bool) (u : units) (grow : list probe -> bool) (ll : Z -> list ascii) (live : Z -> bool) (others : Z -> Z) (sc : scope).
Hypothesis Hp : pos others.
Hypothesis Hs : scope_lives live sc.
Notation good := (good live others).

Lemma read_name : forall line w x r s, name_ok w -> fterm TERM (head x) = true -> r = w ++ x -> vw line r s ->
  exists s', ctos TERM QB QE s = Some (w, s') /\ vw line (dropcom x) s'.
Proof.
  intros line w x r s Hw Hx -> V. destruct (name_start w Hw) as [_ Nq]. destruct Hw as [Hw _]. destruct (word_cons _ _ Hw) as (c & q & -> & G & _).
  destruct (ctos_plain line TERM QB QE (c :: q) x _ s eq_refl V) as (s' & E & V' & _).
  - cbn [app]. now apply dropbl_graph.
  - exact (word_fterm _ _ Hw).
  - exact Hx.
  - right. apply find_pos_out. exact Nq.
  - exists s'. auto.
Qed.
Definition names_at (ns : list (list ascii)) (y : list ascii) : list ascii :=
  match ns with [] => ")"%char :: y | n :: ns' => n ++ more_text ns' ++ ")"%char :: y end.
Lemma after_name : forall ns y, Forall name_ok ns -> dropcom (more_text ns ++ ")"%char :: y) = names_at ns y.
Proof.
  intros [|n ns] y F; [now apply dropcom_graph|]. inversion_clear F as [|? ? Fn _]. unfold more_text. cbn [map List.concat app]. rewrite dropcom_comma.
  destruct Fn as [Hw _]. destruct (word_cons _ _ Hw) as (c & q & -> & G & _). rewrite <- app_assoc. cbn [app names_at]. now apply dropbl_graph.
Qed.
Lemma more_names_run : forall line what ns n y l c s, good l c -> Forall (fun n => name_ok n /\ add_branches ci n sc <> []) ns ->
  vw line (names_at ns y) s -> (List.length ns < n)%nat ->
  exists l' c' s', more_names ci grow n what sc (l, c) s = Done (l', c', s') /\
    l' = l ++ map (fun o => Probe what (Some o) 0 0) (flat_map (fun n => add_branches ci n sc) ns) /\ good l' c' /\ vw line (")"%char :: y) s'.
Proof.
  intros line what ns. induction ns as [|nm ns IH]; intros n y l c s G F V L; (destruct n as [|n]; [cbn in L; lia|]); cbn [more_names].
  - rewrite (starts_name_vw _ _ _ V). cbn [txt obind flat_map map]. change (fname (head (names_at [] y))) with false. cbn [negb].
    exists l, c, s. rewrite app_nil_r. auto.
  - inversion_clear F as [|? ? [Fn Ff] F']. rewrite (starts_name_vw _ _ _ V). cbn [txt obind names_at] in *.
    destruct (name_start nm Fn) as [Fs _]. assert (Hh : head (nm ++ more_text ns ++ ")"%char :: y) = head nm).
    { destruct Fn as [Hw _]. destruct (word_cons _ _ Hw) as (d & q & -> & _). reflexivity. }
    rewrite Hh, Fs. cbn [negb].
    destruct (read_name line nm _ _ s Fn (more_text_head ns y) eq_refl V) as (s1 & E1 & V1). rewrite E1. cbn [txt obind].
    rewrite after_name in V1 by (eapply Forall_impl; [|exact F']; intros a [X _]; exact X).
    destruct (push_some_ok grow live others sc Hp Hs what (add_branches ci nm sc) l c G (add_branches_in ci nm sc)) as (c1 & E2 & G2). rewrite E2. cbn [obind].
    rewrite map_map in G2. rewrite map_map.
    destruct (add_branches ci nm sc) as [|o os] eqn:Eo; [congruence|].
    destruct (IH n y _ c1 s1 G2 F' V1) as (l' & c' & s' & E' & El & G' & V'); [cbn in L; lia|].
    exists l', c', s'. split; [exact E'|]. split; [|auto]. rewrite El. cbn [flat_map]. rewrite Eo, map_app, <- app_assoc. reflexivity.
Qed.

Lemma what_read : forall line w x s, what_ok ci w -> vw line (w ++ "("%char :: x) s ->
  exists s', ctos TOKENTERM QB QE s = Some (w, s') /\ vw line ("("%char :: x) s'.
Proof.
  intros line w x s (Hw & Nq & _) V. destruct (word_cons _ _ Hw) as (c & q & -> & G & _).
  destruct (ctos_plain line TOKENTERM QB QE (c :: q) ("("%char :: x) _ s eq_refl V) as (s' & E & V' & _).
  - cbn [app]. now apply dropbl_graph.
  - exact (word_fterm _ _ (word_sub _ _ _ sub_token Hw)).
  - reflexivity.
  - right. apply find_pos_out. intros I. apply Nq. apply in_or_app. now left.
  - exists s'. split; [exact E|]. rewrite dropcom_graph in V' by (reflexivity || discriminate). exact V'.
Qed.
Definition next_ok (x : list ascii) : Prop := fblank (head x) = false /\ head x <> "("%char.
Lemma nodes_word : Forall (fun c => fterm TERM c = false /\ forall ci d, sameb ci d c = true -> fterm TERM d = false) (str "nodes").
Proof. repeat constructor; try reflexivity; intros b d; rewrite sameb_fix; destruct b, d as [[] [] [] [] [] [] [] []]; vm_compute; congruence. Qed.
Lemma clear_word : Forall (fun c => fterm TERM c = false /\ forall ci d, sameb ci d c = true -> fterm TERM d = false) (str "clear").
Proof. repeat constructor; try reflexivity; intros b d; rewrite sameb_fix; destruct b, d as [[] [] [] [] [] [] [] []]; vm_compute; congruence. Qed.
Lemma plain_word : forall w, incl w (str "nodesclear0") -> Forall plain w.
Proof.
  intros w F. apply Forall_forall. intros c I. apply F in I. cbn in I. split; [intros ->; intuition discriminate|]. intros J. cbn in J. intuition (subst; discriminate).
Qed.
Lemma plain_nodes : Forall plain (str "nodes").
Proof. apply plain_word. intros c I. cbn in *. intuition. Qed.
Lemma plain_clear : Forall plain (str "clear").
Proof. apply plain_word. intros c I. cbn in *. intuition. Qed.
Lemma plain_zero : Forall plain (str "0").
Proof. apply plain_word. intros c I. cbn in *. intuition. Qed.

Lemma add_item : forall line it sp x l c s, add_ok ci sc it -> good l c -> Forall (fun c => fblank c = true) sp -> next_ok x ->
  vw line (body_text it ++ sp ++ x) s ->
  exists l' c' s', add_list ci u grow sc (l, c) s = Done (l', c', s') /\
    l' = l ++ map (fun o => Probe (i_what it) (Some o) 0 0) (flat_map (fun n => add_branches ci n sc) (names it)) /\ good l' c' /\ vw line x s'.
Proof.
  intros line it sp x l c s (Ww & Wn & N0 & Nn & Wm) G Fsp [Nx Px] V. unfold add_list, body_text in *. cbn [fst].
  rewrite <- app_assoc in V. cbn [app] in V. destruct (what_read _ _ _ _ Ww V) as (s1 & E1 & V1). rewrite E1. cbn [txt obind].
  destruct (skip1bc_vw line _ s1 "(" ltac:(discriminate) V1) as (s2 & E2 & V2 & _). rewrite E2. cbn [txt obind]. rewrite eat1b_here in V2 by reflexivity.
  set (t := more_text (i_more it) ++ ")"%char :: sp ++ x) in *.
  assert (Et : (i_name it ++ more_text (i_more it) ++ [")"%char]) ++ sp ++ x = i_name it ++ t) by (unfold t; rewrite <- !app_assoc; reflexivity).
  rewrite Et in V2. pose proof Wn as Wn'. destruct Wn as [Wn Wh]. destruct (word_cons _ _ Wn) as (d & q & En & Gd & _).
  assert (D : dropbl (i_name it ++ t) = i_name it ++ t) by (rewrite En; cbn [app]; now apply dropbl_graph). rewrite D in V2.
  assert (Tt : fterm TERM (head t) = true) by apply more_text_head.
  (* not nodes *)
  destruct (umatch_blank ci line _ s2 (str "nodes") plain_nodes V2) as (s3 & E3 & K3).
  change (str "nodes" ++ [" "%char]) with (str "nodes ") in E3. rewrite E3. cbn [txt obind]. rewrite D in K3.
  rewrite (starts_word ci (str "nodes") (i_name it) t (word_fterm _ _ Wn) Tt nodes_word), Nn in K3. destruct K3 as [O3 V3]. rewrite O3.
  (* not 0 *)
  destruct (umatch_start ci line _ s3 (str "0") plain_zero V3) as (s4 & E4 & K4). rewrite E4. cbn [txt obind].
  assert (Z0 : eat_all ci (str "0") (dropbl (i_name it ++ t)) = None).
  { rewrite D, En. cbn [app str list_ascii_of_string eat_all]. destruct (sameb ci d "0") eqn:Es; [|reflexivity]. exfalso. apply N0. rewrite En. change (head (d :: q)) with d.
    revert Es. rewrite sameb_fix. clear. destruct ci, d as [[] [] [] [] [] [] [] []]; vm_compute; congruence. }
  rewrite Z0 in K4. destruct K4 as [O4 V4]. rewrite O4.
  (* the names *)
  rewrite (starts_name_vw _ _ _ V4). cbn [txt obind]. destruct (name_start _ Wn') as [Fs _].
  assert (Hh : head (i_name it ++ t) = head (i_name it)) by (rewrite En; reflexivity). rewrite Hh, Fs.
  destruct (read_name line _ t _ s4 Wn' Tt eq_refl V4) as (s5 & E5 & V5). rewrite E5. cbn [txt obind].
  unfold t in V5. rewrite after_name in V5 by (eapply Forall_impl; [|exact Wm]; intros a [X _]; exact X).
  destruct (push_some_ok grow live others sc Hp Hs (i_what it) (add_branches ci (i_name it) sc) l c G (add_branches_in ci (i_name it) sc)) as (c1 & Ep & Gp). rewrite Ep. cbn [obind].
  destruct (more_names_run line (i_what it) (i_more it) (rounds s5) (sp ++ x) _ c1 s5 Gp Wm V5) as (l' & c' & s6 & E6 & El & G6 & V6).
  { rewrite (vw_rounds _ _ _ V5). pose proof (vw_le _ _ _ V5) as L. assert (List.length (i_more it) <= List.length (names_at (i_more it) (sp ++ x)))%nat; [|lia].
    clear -Wm. destruct Wm as [|n ns [Hn _] Fn]; [cbn; lia|]. cbn [names_at List.length]. rewrite !app_length.
    destruct Hn as [Hn _]. destruct (word_cons _ _ Hn) as (e & z & -> & _). cbn [List.length].
    assert (List.length ns <= List.length (more_text ns))%nat; [|lia]. clear. unfold more_text. induction ns as [|m ns IH]; [cbn; lia|]. cbn [map List.concat]. rewrite app_length. cbn [List.length]. lia. }
  rewrite E6. cbn [obind].
  destruct (skip1bc_vw line _ s6 ")" ltac:(discriminate) V6) as (s7 & E7 & V7 & _). rewrite E7. cbn [txt obind]. rewrite eat1b_here in V7 by reflexivity.
  assert (Dx : dropbl (sp ++ x) = x) by (unfold dropbl; rewrite drop_app by exact Fsp; now apply drop_idem). rewrite Dx in V7.
  destruct (skip1bc_vw line _ s7 "(" ltac:(discriminate) V7) as (s8 & E8 & V8 & _ & O8). rewrite E8. cbn [txt obind].
  assert (Dx2 : dropbl x = x) by now apply drop_idem. rewrite Dx2 in O8. destruct (Ascii.eqb_spec (head x) "(") as [X|_]; [contradiction|]. rewrite O8.
  rewrite eat1b_not in V8 by assumption. exists l', c', s8. split; [reflexivity|]. split; [|auto]. rewrite El. unfold names. cbn [flat_map]. rewrite map_app, map_map, <- app_assoc. reflexivity.
Qed.

Lemma del_item : forall line it sp x l c s, del_ok ci it -> good l c -> Forall (fun c => fblank c = true) sp -> next_ok x ->
  vw line (body_text it ++ sp ++ x) s ->
  exists l' c' s', remove_list ci ll (l, c) s = Done (l', c', s') /\
    l' = filter (fun p => negb (wmatch ci (label ll p) (i_what it ++ str "(" ++ i_name it ++ str ")"))) l /\ good l' c' /\ vw line x s'.
Proof.
  intros line it sp x l c s (Ww & Wn & Nq & Em) G Fsp [Nx Px] V. unfold remove_list, body_text in *. rewrite Em in V. cbn [more_text map List.concat app] in V.
  rewrite <- app_assoc in V. cbn [app] in V. destruct (what_read _ _ _ _ Ww V) as (s1 & E1 & V1). rewrite E1. cbn [txt obind].
  destruct (skip1bc_vw line _ s1 "(" ltac:(discriminate) V1) as (s2 & E2 & V2 & _). rewrite E2. cbn [txt obind]. rewrite eat1b_here in V2 by reflexivity.
  rewrite <- app_assoc in V2. cbn [app] in V2. destruct (word_cons _ _ Wn) as (d & q & En & Gd & _).
  assert (D : dropbl (i_name it ++ ")"%char :: sp ++ x) = i_name it ++ ")"%char :: sp ++ x) by (rewrite En; cbn [app]; now apply dropbl_graph). rewrite D in V2.
  destruct (ctos_plain line TOKENTERM QB QE (i_name it) (")"%char :: sp ++ x) _ s2 eq_refl V2) as (s3 & E3 & V3 & _).
  { exact D. } { exact (word_fterm _ _ Wn). } { reflexivity. }
  { right. rewrite En in *. apply find_pos_out. exact Nq. }
  rewrite E3. cbn [txt obind]. rewrite dropcom_graph in V3 by (reflexivity || discriminate).
  destruct (skip1bc_vw line _ s3 ")" ltac:(discriminate) V3) as (s4 & E4 & V4 & _). rewrite E4. cbn [txt obind]. rewrite eat1b_here in V4 by reflexivity.
  assert (Dx : dropbl (sp ++ x) = x) by (unfold dropbl; rewrite drop_app by exact Fsp; now apply drop_idem). rewrite Dx in V4.
  destruct G as [B A]. destruct (remove_erase_ok (fun p => wmatch ci (label ll p) (i_what it ++ str "(" ++ i_name it ++ str ")")) l others c Hp B) as (c' & Er & B').
  rewrite Er. cbn [obind]. eexists _, c', s4. split; [reflexivity|]. split; [reflexivity|]. split; [|exact V4]. split; [exact B'|now apply lives_filter].
Qed.

Lemma what_of : forall a it, (match act a it with aDELETE => del_ok ci it | _ => add_ok ci sc it end) -> what_ok ci (i_what it).
Proof. intros a it H. destruct (act a it); apply H. Qed.
Lemma body_head : forall it, what_ok ci (i_what it) -> exists c q, body_text it = c :: q /\ isgraph c = true /\ c <> "("%char /\ c <> "+"%char /\ c <> "-"%char /\ c <> ","%char.
Proof.
  intros it (Hw & Nq & _). destruct (word_cons _ _ Hw) as (c & q & E & G & N). unfold body_text. rewrite E in *. eexists c, _. split; [reflexivity|]. split; [exact G|].
  cbn in Nq, N. intuition congruence.
Qed.
Lemma sign_item : forall line a it y s, what_ok ci (i_what it) -> vw line (item_text it ++ y) s ->
  exists s', sign a s = Done (act a it, s') /\ vw line (body_text it ++ y) s'.
Proof.
  intros line a it y s Ww V. destruct (body_head it Ww) as (e & z & Ee & _ & _ & Np & Nm & _). unfold sign, act, item_text in *.
  rewrite (match1c_vw _ _ _ "-" V), (match1c_vw _ _ _ "+" V). cbn [txt obind].
  destruct (i_sign it) as [[]|]; cbn [sign_text str list_ascii_of_string app] in *.
  - change (Ascii.eqb (head ("+"%char :: body_text it ++ y)) "-") with false. change (Ascii.eqb (head ("+"%char :: body_text it ++ y)) "+") with true.
    exists (skip s). split; [reflexivity|]. apply (skip_vw _ _ _ _ V).
  - change (Ascii.eqb (head ("-"%char :: body_text it ++ y)) "-") with true. exists (skip s). split; [reflexivity|]. apply (skip_vw _ _ _ _ V).
  - rewrite Ee in *. cbn [app] in *. change (head (e :: z ++ y)) with e. destruct (Ascii.eqb_spec e "-"); [contradiction|]. destruct (Ascii.eqb_spec e "+"); [contradiction|].
    exists s. auto.
Qed.
Lemma item_head : forall a it, (match act a it with aDELETE => del_ok ci it | _ => add_ok ci sc it end) ->
  exists c q, item_text it = c :: q /\ isgraph c = true /\ c <> "("%char /\ c <> ","%char.
Proof.
  intros a it H. destruct (body_head it (what_of a it H)) as (c & q & E & G & N1 & _ & _ & N2). unfold item_text, sign_text. rewrite E.
  destruct (i_sign it) as [[]|]; cbn [str list_ascii_of_string app]; eexists _, _; (split; [reflexivity|]); repeat split; (exact G || discriminate || assumption || reflexivity).
Qed.
Lemma items_next : forall a l, items_ok ci sc a l -> next_ok (items_text l).
Proof.
  intros a [|[it sp] l] H; [split; [reflexivity|discriminate]|]. destruct H as (_ & H & _). destruct (item_head a it H) as (c & q & E & G & N & _).
  unfold items_text. cbn [map List.concat fst snd]. rewrite E. cbn [app]. split; [now apply graph_nblank|exact N].
Qed.

Lemma edit_run : forall line l n a b c s, good b c -> items_ok ci sc a l -> vw line (items_text l) s -> (List.length l < n)%nat ->
  exists b' c' s', edit ci u grow ll n sc a (b, c) s = Done (b', c', s') /\ b' = edited ci ll sc a (map fst l) b /\ good b' c'.
Proof.
  intros line l. induction l as [|[it sp] l IH]; intros n a b c s G F V L; (destruct n as [|n]; [cbn in L; lia|]); cbn [edit].
  - destruct (more_vw _ _ _ V) as (s1 & E1 & V1 & _). rewrite E1. cbn [txt obind]. change (items_text []) with (@nil ascii). cbn. exists b, c, s1. auto.
  - destruct F as (Fsp & Fi & Fl). pose proof (items_next _ _ Fl) as Nx. destruct (item_head a it Fi) as (d & q & Ed & Gd & _).
    assert (Et : items_text ((it, sp) :: l) = item_text it ++ sp ++ items_text l) by (unfold items_text; cbn [map List.concat fst snd]; now rewrite <- app_assoc).
    rewrite Et in V. destruct (more_vw _ _ _ V) as (s1 & E1 & V1 & _). rewrite E1. cbn [txt obind].
    assert (D : dropbl (item_text it ++ sp ++ items_text l) = item_text it ++ sp ++ items_text l) by (rewrite Ed; cbn [app]; now apply dropbl_graph).
    rewrite D in V1 |- *. assert (NN : Ascii.eqb (head (item_text it ++ sp ++ items_text l)) NUL = false).
    { rewrite Ed. cbn [app]. change (head (d :: q ++ sp ++ items_text l)) with d. destruct (Ascii.eqb_spec d NUL) as [->|]; [discriminate Gd|reflexivity]. }
    rewrite NN. cbn [negb].
    pose proof (sign_item line a it _ s1 (what_of a it Fi) V1) as Sg.
    destruct Sg as (s2 & E2 & V2). rewrite E2. cbn [obind map fst edited].
    assert (St : exists b1 c1 s3, (match act a it with aDELETE => remove_list ci ll (b, c) s2 | _ => add_list ci u grow sc (b, c) s2 end) = Done (b1, c1, s3) /\
      b1 = (match act a it with aDELETE => filter (fun p => negb (wmatch ci (label ll p) (i_what it ++ str "(" ++ i_name it ++ str ")"))) b
       | _ => b ++ map (fun o => Probe (i_what it) (Some o) 0 0) (flat_map (fun n => add_branches ci n sc) (names it)) end) /\ good b1 c1 /\ vw line (items_text l) s3).
    { apply spaces_blank in Fsp. destruct (act a it); [now apply add_item with sp|now apply del_item with sp|now apply add_item with sp]. }
    destruct St as (b1 & c1 & s3 & E3 & Eb & G3 & V3). rewrite E3. cbn [obind].
    destruct (IH n (act a it) b1 c1 s3 G3 Fl V3) as (b' & c' & s' & E' & Eb' & G'); [cbn in L; lia|]. exists b', c', s'. split; [exact E'|]. split; [|exact G']. now rewrite Eb', Eb.
Qed.

(* the word of the analysis *)
Definition sim_table : list (string * mode) :=
  [("tr", s_TRAN); ("tra", s_TRAN); ("tran", s_TRAN); ("trans", s_TRAN); ("transi", s_TRAN); ("transie", s_TRAN); ("transien", s_TRAN); ("transient", s_TRAN);
   ("ac", s_AC); ("dc", s_DC); ("op", s_OP);
   ("fo", s_FOURIER); ("fou", s_FOURIER); ("four", s_FOURIER); ("fouri", s_FOURIER); ("fourie", s_FOURIER); ("fourier", s_FOURIER)]%string.
Definition spells (w : list ascii) (m : mode) : Prop := exists t, In (t, m) sim_table /\ same_text ci w (str t) = true.
Definition sim_spec (w x : list ascii) : list (option (list ascii)) :=
  [wspec ci (str "tr") (str "ansient") (w ++ x); starts ci (str "ac") (w ++ x); starts ci (str "dc") (w ++ x); starts ci (str "op") (w ++ x);
   wspec ci (str "fo") (str "urier") (w ++ x)].
Definition first_of (m : mode) (x : list ascii) : list (option (list ascii)) :=
  match m with
  | s_TRAN => [Some x] | s_AC => [None; Some x] | s_DC => [None; None; Some x] | s_OP => [None; None; None; Some x]
  | _ => [None; None; None; None; Some x]
  end.
Definition prefix_of {A} (a b : list A) : Prop := exists c, b = a ++ c.
Lemma space_letter : forall b k c, isspace b = true -> isalpha c = true -> sameb k b c = false.
Proof.
  intros b k c B I. destruct (sameb k b c) eqn:E; [|reflexivity]. exfalso. revert E B I. rewrite sameb_fix. clear.
  destruct k, b as [[] [] [] [] [] [] [] []]; try (intros ? X; discriminate X); destruct c as [[] [] [] [] [] [] [] []]; vm_compute; discriminate.
Qed.
Lemma sim_first : forall w m b y, spells w m -> isspace b = true -> prefix_of (first_of m (b :: y)) (sim_spec w (b :: y)).
Proof.
  intros w m b y (t & I & H) B. assert (L : forall c, isalpha c = true -> sameb ci b c = false) by (intros c; now apply space_letter).
  assert (T : fterm TERM b = true) by (unfold fterm; rewrite B; now rewrite orb_true_r).
  cbn [In sim_table] in I.
  repeat (destruct I as [I|I]; [injection I as <- <-;
    repeat (destruct w as [|? w]; [try discriminate H|]; cbn [str list_ascii_of_string same_text] in H; try discriminate H;
      apply andb_true_iff in H; let H1 := fresh "Q" in destruct H as [H1 H]; apply Ascii.eqb_eq in H1);
    try discriminate H; try (destruct w; [clear H|discriminate H]);
    unfold sim_spec, first_of, prefix_of, starts, wspec;
    repeat (cbn [app eat_all eat_some str list_ascii_of_string]; match goal with
      | |- context [sameb ci b ?c] => rewrite (L c eq_refl)
      | Q : fix_case ci ?k = fix_case ci ?d |- context [sameb ci ?k ?c] =>
          let v := eval vm_compute in (Ascii.eqb d c) in replace (sameb ci k c) with v by (rewrite sameb_fix, Q; destruct ci; reflexivity)
      end); change (head (b :: y)) with b; rewrite T; eexists; reflexivity|]).
  destruct I.
Qed.
Lemma plain_letters : forall w, Forall (fun c => isalpha c = true) w -> Forall plain w.
Proof.
  intros w F. eapply Forall_impl; [|exact F]. intros c H. split; [intros ->; discriminate H|]. intros I. cbn in I.
  repeat (destruct I as [<-|I]; [discriminate H|]). destruct I.
Qed.
Lemma sim_word_run : forall line w m b y r s, spells w m -> isspace b = true -> dropbl r = w ++ b :: y -> vw line r s ->
  exists s', sim_word ci sim_words s = Done (m, s') /\ vw line (dropcom (dropbl (b :: y))) s'.
Proof.
  intros line w m b y r s Hw Hb D V. pose proof (sim_first w m b y Hw Hb) as P. unfold sim_word, sim_words.
  assert (U : forall key mm oo, Forall plain mm -> (str key ++ str " " = pattern mm oo /\ Forall plain oo \/ str key ++ str " " = mm ++ [" "%char] /\ oo = []) ->
     closed (str key ++ str " ") -> forall s, vw line r s -> exists s', umatch ci (str key ++ str " ") s = Some s' /\
       match wspec ci mm oo (w ++ b :: y) with Some x => ok s' = true /\ vw line (dropcom (dropbl x)) s' | None => ok s' = false /\ vw line r s' end).
  { intros key mm oo Fm Ho Cl z Vz. destruct Ho as [[Eq Fo]|[Eq ->]].
    - destruct (umatch_safe ci line r z _ Cl Vz) as (s1 & r1 & E1 & V1 & _ & F1). exists s1. split; [exact E1|].
      destruct (umatch_word ci line r z mm oo Fm Fo Vz) as (s2 & E2 & K2). rewrite Eq, E2 in E1. injection E1 as <-. rewrite D in K2.
      destruct (wspec ci mm oo (w ++ b :: y)); [tauto|]. destruct K2 as [K2 _]. rewrite (F1 K2) in V1. auto.
    - destruct (umatch_blank ci line r z mm Fm Vz) as (s2 & E2 & K2). exists s2. rewrite Eq. split; [exact E2|]. rewrite D in K2. exact K2. }
  pose proof sim_closed as C. unfold sim_words in C.
  inversion_clear C as [|? ? C1 C']. inversion_clear C' as [|? ? C2 C'']. inversion_clear C'' as [|? ? C3 C']. inversion_clear C' as [|? ? C4 C''].
  inversion_clear C'' as [|? ? C5 _]. cbn [fst] in *.
  assert (A : forall t, Forall (fun c => isalpha c = true) t -> Forall plain t) by exact plain_letters.
  destruct (U "tr{ansient}"%string (str "tr") (str "ansient") ltac:(apply A; repeat constructor) ltac:(left; split; [reflexivity|apply A; repeat constructor]) C1 s V) as (s1 & E1 & K1).
  rewrite E1. cbn [txt obind].
  assert (Done1 : forall x s', Some x = Some (b :: y) -> vw line (dropcom (dropbl x)) s' -> vw line (dropcom (dropbl (b :: y))) s') by (intros x s' [= ->]; auto).
  destruct P as [rest P]. unfold sim_spec in P.
  destruct (wspec ci (str "tr") (str "ansient") (w ++ b :: y)) as [x1|]; destruct K1 as [O1 V1]; rewrite O1.
  { destruct m; try discriminate P. injection P as -> _. exists s1. auto. }
  destruct (U "ac"%string (str "ac") [] ltac:(apply A; repeat constructor) ltac:(right; split; reflexivity) C2 s1 V1) as (s2 & E2 & K2).
  rewrite E2. cbn [txt obind]. change (wspec ci (str "ac") [] (w ++ b :: y)) with (starts ci (str "ac") (w ++ b :: y)) in K2.
  destruct (starts ci (str "ac") (w ++ b :: y)) as [x1|]; destruct K2 as [O2 V2]; rewrite O2.
  { destruct m; try discriminate P. injection P as -> _. exists s2. auto. }
  destruct (U "dc"%string (str "dc") [] ltac:(apply A; repeat constructor) ltac:(right; split; reflexivity) C3 s2 V2) as (s3 & E3 & K3).
  rewrite E3. cbn [txt obind]. change (wspec ci (str "dc") [] (w ++ b :: y)) with (starts ci (str "dc") (w ++ b :: y)) in K3.
  destruct (starts ci (str "dc") (w ++ b :: y)) as [x1|]; destruct K3 as [O3 V3]; rewrite O3.
  { destruct m; try discriminate P. injection P as -> _. exists s3. auto. }
  destruct (U "op"%string (str "op") [] ltac:(apply A; repeat constructor) ltac:(right; split; reflexivity) C4 s3 V3) as (s4 & E4 & K4).
  rewrite E4. cbn [txt obind]. change (wspec ci (str "op") [] (w ++ b :: y)) with (starts ci (str "op") (w ++ b :: y)) in K4.
  destruct (starts ci (str "op") (w ++ b :: y)) as [x1|]; destruct K4 as [O4 V4]; rewrite O4.
  { destruct m; try discriminate P. injection P as -> _. exists s4. auto. }
  destruct (U "fo{urier}"%string (str "fo") (str "urier") ltac:(apply A; repeat constructor) ltac:(left; split; [reflexivity|apply A; repeat constructor]) C5 s4 V4) as (s5 & E5 & K5).
  rewrite E5. cbn [txt obind].
  assert (Em : m = s_FOURIER \/ m = s_NONE) by (destruct m; try discriminate P; auto).
  destruct Em as [->| ->]; [|destruct Hw as (t & I & _); cbn in I; repeat (destruct I as [I|I]; [discriminate I|]); destruct I].
  cbn [first_of app] in P.
  assert (Px : wspec ci (str "fo") (str "urier") (w ++ b :: y) = Some (b :: y)) by congruence. rewrite Px in K5. destruct K5 as [O5 V5]. rewrite O5. exists s5. auto.
Qed.
Lemma spells_head : forall w m, spells w m -> exists c q, w = c :: q /\ isalpha c = true.
Proof.
  intros w m (t & I & H). destruct w as [|c q].
  - exfalso. cbn in I. repeat (destruct I as [I|I]; [injection I as <- <-; discriminate H|]). destruct I.
  - exists c, q. split; [reflexivity|]. cbn in I.
    repeat (destruct I as [I|I]; [injection I as <- <-; cbn [str list_ascii_of_string same_text] in H; apply andb_true_iff in H; destruct H as [H _]; apply Ascii.eqb_eq in H;
      revert H; clear; destruct ci, c as [[] [] [] [] [] [] [] []]; vm_compute; congruence|]). destruct I.
Qed.
Definition first_sign (its : list item) : option bool := match its with it :: _ => i_sign it | [] => None end.
End K.

Lemma head_cons : forall c q, head (c :: q) = c.
Proof. reflexivity. Qed.
Section R.
Variables (ci : bool) (u : units) (grow : list probe -> bool) (ll : Z -> list ascii) (live : Z -> bool) (sc : scope).
Hypothesis Hs : scope_lives live sc.

Lemma do_probe_run : forall k ls c pre w m sp l n, agree c ls -> all_live live ls ->
  spaces pre -> spells ci w m -> spaces sp -> sp <> [] -> l <> [] -> items_ok ci sc aADD l -> (List.length l < n)%nat ->
  exists ls' c', do_probe ci u grow ll n k sc (ls, c) (cs_string (pre ++ w ++ sp ++ items_text l)) = Done (ls', c', false) /\
    agree c' ls' /\ all_live live ls' /\
    ls' = set_list ls k m (edited ci ll sc aADD (map fst l) (match first_sign (map fst l) with None => [] | Some _ => ls k m end)).
Proof.
  intros k ls c pre w m sp l n A Lv Fpre Hw Fsp Nsp Nl Fl Ln. set (line := pre ++ w ++ sp ++ items_text l).
  pose proof (vw_start line) as V0. unfold do_probe. destruct (spells_head ci w m Hw) as (e & q & Ew & Ge).
  destruct sp as [|b sp]; [congruence|]. assert (Hb : isspace b = true) by now inversion Fsp.
  assert (D : dropbl line = w ++ b :: sp ++ items_text l).
  { unfold line, dropbl. rewrite drop_app by now apply spaces_blank. rewrite Ew. apply drop_idem. cbn [app]. rewrite !head_cons.
    revert Ge. clear. destruct e as [[] [] [] [] [] [] [] []]; vm_compute; congruence. }
  (* the first sign: none *)
  assert (Sg : sign aNEW (cs_string line) = Done (aNEW, cs_string line)).
  { unfold sign. rewrite (match1c_vw _ _ _ "-" V0), (match1c_vw _ _ _ "+" V0). cbn [txt obind].
    assert (Ns : head line <> "-"%char /\ head line <> "+"%char).
    { unfold line. destruct pre as [|c0 pre]; [rewrite Ew; cbn [app]; rewrite !head_cons; split; intros ->; discriminate Ge|].
      inversion_clear Fpre as [|? ? F0 _]. cbn [app]. rewrite !head_cons. split; intros ->; discriminate F0. }
    destruct Ns as [N1 N2]. destruct (Ascii.eqb_spec (head line) "-"); [contradiction|]. destruct (Ascii.eqb_spec (head line) "+"); [contradiction|reflexivity]. }
  rewrite Sg. cbn [obind].
  destruct (sim_word_run ci line w m b _ line _ Hw Hb D V0) as (s1 & E1 & V1). rewrite E1. cbn [obind].
  destruct l as [|[it it_sp] l]; [congruence|]. destruct Fl as (Fis & Fi & Fl).
  destruct (item_head ci sc aADD it Fi) as (d & z & Ed & Gd & Nd1 & Nd2).
  assert (Et : items_text ((it, it_sp) :: l) = item_text it ++ it_sp ++ items_text l) by (unfold items_text; cbn [map List.concat fst snd]; now rewrite <- app_assoc).
  assert (Dx : dropcom (dropbl (b :: sp ++ items_text ((it, it_sp) :: l))) = items_text ((it, it_sp) :: l)).
  { change (b :: sp ++ items_text ((it, it_sp) :: l)) with ((b :: sp) ++ items_text ((it, it_sp) :: l)). unfold dropbl. rewrite drop_app by now apply spaces_blank.
    rewrite Et, Ed. cbn [app]. fold dropbl. rewrite dropbl_graph by exact Gd. now apply dropcom_graph. }
  rewrite Dx in V1. clear Dx. rewrite Et in V1.
  set (t := item_text it ++ it_sp ++ items_text l) in *.
  assert (Dt : dropbl t = t) by (unfold t; rewrite Ed; cbn [app]; now apply dropbl_graph).
  assert (Ht : head t = d) by (unfold t; rewrite Ed; reflexivity).
  destruct (more_vw _ _ _ V1) as (s2 & E2 & V2 & _). rewrite E2. cbn [txt obind]. rewrite Dt, Ht in *.
  assert (NN : Ascii.eqb d NUL = false) by (destruct (Ascii.eqb_spec d NUL) as [->|]; [discriminate Gd|reflexivity]). rewrite NN. cbn [negb].
  (* not clear *)
  destruct (umatch_blank ci line t s2 (str "clear") plain_clear V2) as (s3 & E3 & K3). rewrite Dt in K3.
  assert (Nc : starts ci (str "clear") t = None).
  { pose proof (what_of ci sc aADD it Fi) as (Ww & _ & Nc). unfold t, item_text. destruct (i_sign it) as [[]|]; cbn [sign_text str list_ascii_of_string app].
    - unfold starts. cbn [eat_all]. destruct ci; reflexivity.
    - unfold starts. cbn [eat_all]. destruct ci; reflexivity.
    - unfold body_text. rewrite <- app_assoc. cbn [app].
      change ["c"%char; "l"%char; "e"%char; "a"%char; "r"%char] with (str "clear"). rewrite (fun x H => starts_word ci (str "clear") _ x (word_fterm _ _ (word_sub _ _ _ sub_term Ww)) H clear_word) by reflexivity.
      now rewrite Nc. }
  rewrite Nc in K3. destruct K3 as [O3 V3].
  (* the sign of the first item *)
  set (it0 := Item None (i_what it) (i_name it) (i_more it)).
  assert (Sg2 : exists s4, sign aNEW s3 = Done (act aNEW it, s4) /\ vw line (item_text it0 ++ it_sp ++ items_text l) s4)
    by (apply (sign_item ci line aNEW it _ s3 (what_of ci sc aADD it Fi) V3)).
  destruct Sg2 as (s4 & E4 & V4).
  assert (Mm : m <> s_NONE) by (intros ->; destruct Hw as (t0 & I & _); cbn in I; repeat (destruct I as [I|I]; [discriminate I|]); destruct I).
  set (a0 := match act aNEW it with aNEW => aADD | a => a end).
  set (l0 := match first_sign (map fst ((it, it_sp) :: l)) with None => [] | Some _ => ls k m end).
  assert (Cl : exists c0, bal c0 l0 (others k m ls) /\ lives live l0 /\
    match act aNEW it with aNEW => do (l, c) <- clear (ls k m, c); Done (aADD, l, c) | _ => Done (act aNEW it, ls k m, c) end = Done (a0, l0, c0)).
  { unfold a0, l0, act, first_sign. cbn [map fst]. destruct (i_sign it) as [[]|].
    - exists c. split; [now apply agree_bal|]. split; [apply Lv|reflexivity].
    - exists c. split; [now apply agree_bal|]. split; [apply Lv|reflexivity].
    - destruct (clear_ok (ls k m) _ c (others_pos k m ls) (agree_bal _ _ k m A)) as (c1 & Ec & B1). exists c1. split; [exact B1|]. split; [intros p o []|]. now rewrite Ec. }
  destruct Cl as (c0 & B0 & L0 & Ecl).
  assert (Ea : act a0 it0 = act aADD it) by (unfold a0, act, it0; cbn [i_sign]; destruct (i_sign it) as [[]|]; reflexivity).
  assert (F0 : items_ok ci sc a0 ((it0, it_sp) :: l)).
  { cbn [items_ok]. rewrite Ea. split; [exact Fis|]. split; [|exact Fl]. unfold it0. destruct (act aADD it); exact Fi. }
  assert (V5 : vw line (items_text ((it0, it_sp) :: l)) s4).
  { replace (items_text ((it0, it_sp) :: l)) with (item_text it0 ++ it_sp ++ items_text l) by (unfold items_text; cbn [map List.concat fst snd]; now rewrite <- app_assoc). exact V4. }
  destruct (edit_run ci u grow ll live (others k m ls) sc (others_pos k m ls) Hs line ((it0, it_sp) :: l) n a0 l0 c0 s4 (conj B0 L0) F0 V5 Ln) as (b' & c' & s' & E' & Eb & B' & L').
  exists (set_list ls k m b'), c'. split.
  - change (str "clear" ++ [" "%char]) with (str "clear ") in E3. cbn [fst snd]. rewrite E3. cbn [txt obind]. rewrite O3.
    rewrite E4. cbn [obind]. rewrite Ecl. cbn [obind]. rewrite E'. cbn [obind]. destruct m; try reflexivity. congruence.
  - split; [now apply bal_agree|]. split.
    + intros k' m'. unfold set_list. destruct (kind_eqb k' k && mode_eqb m' m); [exact L'|apply Lv].
    + rewrite Eb. unfold l0. cbn [map fst edited]. rewrite Ea. reflexivity.
Qed.
End R.
