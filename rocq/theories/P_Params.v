(* C47: parameters by name and by index *)
Require Import String.
Require Import ZArith List Ascii Bool Lia.
Require Import ZifyBool.
Require Import Verif.Loops Verif.Wmatch_Model Verif.CS_Model Verif.CS_Proofs Verif.CS_Ops Verif.CS_Word Verif.Params_Model.
Import ListNotations.
Local Open Scope string_scope.
Local Open Scope Z_scope.
Local Open Scope list_scope.

(* ---- a name against a plain pattern ---- *)
Lemma plain_loop : forall ci line st m, Forall plain m -> forall n r s, (length m + 1 < n)%nat -> vw line r s ->
  exists s' r', umatch_loop ci n st (m ++ [" "%char]) false s = Some s' /\ vw line r' s' /\
   ok s' = match eat_all ci m r with Some r1 => fterm TERM (head r1) | None => false end.
Proof.
  intros ci line st m Hm. induction Hm as [|c m Hc Hm IH]; intros n r s Hn V.
  - cbn [app eat_all]. destruct n as [|n]; [lia|]. cbn [umatch_loop]. change (Ascii.eqb " " "|") with false. cbv iota. inb (peek_vw _ _ _ V).
    change (Ascii.eqb " " "{") with false. cbn [andb negb]. cbv iota. inb (is_term_vw _ _ _ TERM V). change (Ascii.eqb " " " ") with true. cbn [andb].
    destruct (fterm TERM (head r)) eqn:E.
    + destruct (skipbl_vw _ _ _ V) as (s1 & E1 & V1 & _). inb E1. destruct n as [|n]; [cbn in Hn; lia|]. cbn [umatch_loop]. exists (set_ok s1 true), (dropbl r). split; [reflexivity|]. split; [now apply vw_ok|reflexivity].
    + assert (N1 : Ascii.eqb (head r) " " = false).
      { destruct (Ascii.eqb_spec (head r) " ") as [X|]; [|reflexivity]. rewrite X in E. discriminate E. }
      assert (N2 : Ascii.eqb (to_lower (head r)) (to_lower " ") = false).
      { destruct (Ascii.eqb_spec (to_lower (head r)) (to_lower " ")) as [X|]; [|reflexivity]. exfalso.
        assert (head r = " "%char). { revert X. clear. destruct (head r) as [[] [] [] [] [] [] [] []]; vm_compute; intros H; try discriminate H; reflexivity. }
        rewrite H in N1. discriminate N1. }
      rewrite N1, N2, andb_false_r. cbn [find_bar]. exists (set_ok s false), r. split; [reflexivity|]. split; [now apply vw_ok|reflexivity].
  - cbn [app]. destruct n as [|n]; [lia|]. rewrite (plain_step ci line st n c _ false r s Hc V). cbn [eat_all].
    destruct (match r with k :: _ => sameb ci k c | [] => false end) eqn:E.
    + destruct r as [|k r]; [discriminate E|]. rewrite E. destruct (skip_vw _ _ _ _ V) as [V1 _]. apply IH; [cbn [length] in Hn; lia|assumption].
    + assert (Fb : find_bar c (m ++ [" "%char]) = None).
      { replace (m ++ [" "%char]) with ((m ++ [" "%char]) ++ []) by apply app_nil_r. rewrite (find_bar_plain [] (or_introl eq_refl)); [reflexivity|].
        apply Forall_app. split; [eapply Forall_impl; [|exact Hm]; intros x [_ X] ->; apply X; cbn; auto 8|]. constructor; [discriminate|constructor]. }
      rewrite Fb. exists (set_ok s false), r. split; [reflexivity|]. split; [now apply vw_ok|]. destruct r as [|k r]; [reflexivity|]. now rewrite E.
Qed.

(* an identifier: visible characters that neither end a word nor mean anything in a pattern *)
Definition ident_char (c : ascii) : Prop := plain c /\ isgraph c = true /\ ~ word_end [c].
Definition ident (n : list ascii) : Prop := n <> [] /\ Forall ident_char n.
Definition same_name (ci : bool) (a b : list ascii) : Prop := Forall2 (same_char ci) a b.

Lemma Umatch_name : forall ci a b, ident a -> ident b -> exists r, Umatch ci a (b ++ [" "%char]) = Some r /\ (r = true <-> same_name ci a b).
Proof.
  intros ci a b [Na Fa] [Nb Fb]. unfold Umatch, umatch.
  destruct (skipbl_vw _ _ _ (vw_start a)) as (s1 & E1 & V1 & _). inb E1.
  assert (Hd : dropbl a = a).
  { apply drop_idem. destruct a as [|c a]; [contradiction|]. apply Forall_cons_iff in Fa. destruct Fa as [(_ & G & _) _]. unfold head. cbn [hd]. unfold fblank. rewrite G. apply andb_false_r. }
  rewrite Hd in V1. assert (Fp : Forall plain b) by (eapply Forall_impl; [|exact Fb]; intros c [H _]; exact H).
  destruct (plain_loop ci a (cnt (cs_string a)) b Fp (umatch_rounds (b ++ [" "%char])) a s1) as (s2 & r2 & E2 & V2 & O2); [unfold umatch_rounds; rewrite app_length; cbn [length]; lia|assumption|].
  rewrite E2. cbn [bind].
  assert (S : match eat_all ci b a with Some r1 => fterm TERM (head r1) | None => false end = true <-> same_name ci a b).
  { clear -Fa. revert a Fa. induction b as [|c b IH]; intros a Fa; cbn [eat_all].
    - destruct a as [|d a]; [split; [constructor|reflexivity]|]. split; [|intros X; inversion X]. intros X. exfalso. apply Forall_cons_iff in Fa. destruct Fa as [(_ & _ & W) _]. apply W. apply fterm_ok. exact X.
    - destruct a as [|d a]; [split; [discriminate|intros X; inversion X]|]. apply Forall_cons_iff in Fa. destruct Fa as [_ Fa].
      destruct (sameb ci d c) eqn:E.
      + rewrite (IH a Fa). apply sameb_ok in E. split; [intros H; constructor; assumption|intros H; now inversion H].
      + split; [discriminate|]. intros H. inversion H; subst. assert (sameb ci d c = true) by now apply sameb_ok. congruence. }
  destruct (ok s2) eqn:Eo.
  - destruct (skipcom_vw _ _ _ (vw_m _ _ _ (cnt s1) (cnt s2) V2)) as (s4 & E4 & _). inb E4. exists true. split; [reflexivity|]. rewrite <- S, <- O2. reflexivity.
  - exists false. split; [reflexivity|]. rewrite <- S, <- O2. reflexivity.
Qed.

(* ---- well-formed components ---- *)
(* every listed name is an identifier that is no system name, a name is listed under one parameter
   only, and there is a value for each parameter *)
Definition well_formed (ci : bool) (c : comp) : Prop :=
  length (own c) = length (own_names c) /\ length (hs c) = 8%nat /\
  Forall (Forall (fun a => ident a /\ hs_which a = -1)) (own_names c) /\
  (forall i j a b, In a (nth i (own_names c) []) -> In b (nth j (own_names c) []) -> same_name ci a b -> i = j).

Lemma any_name_spec : forall ci name l, ident name -> Forall ident l -> exists r, any_name ci name l = Some r /\ (r = true <-> exists a, In a l /\ same_name ci name a).
Proof.
  intros ci name l Hn F. induction F as [|a l Ha F IH]; cbn [any_name].
  - exists false. split; [reflexivity|]. split; [discriminate|intros (a & [] & _)].
  - destruct (Umatch_name ci name a Hn Ha) as (r & E & H). rewrite E. cbn [bind]. destruct r.
    + exists true. split; [reflexivity|]. split; [|reflexivity]. intros _. exists a. split; [now left|now apply H].
    + destruct IH as (r2 & E2 & H2). exists r2. split; [assumption|]. rewrite H2. split; intros (b & Hb & S).
      * exists b. split; [now right|assumption].
      * destruct Hb as [<-|Hb]; [apply H in S; discriminate|]. now exists b.
Qed.
Lemma nth_upd : forall l i v, 0 <= i < Z.of_nat (length l) -> exists l', upd l i v = Some l' /\ length l' = length l /\ forall j, nth j l' [] = if Nat.eqb j (Z.to_nat i) then v else nth j l [].
Proof.
  intros l i v H. unfold upd. replace ((0 <=? i) && (i <? Z.of_nat (length l))) with true by lia. eexists. split; [reflexivity|].
  assert (L : (Z.to_nat i < length l)%nat) by lia. generalize dependent (Z.to_nat i). clear. intros k L. split.
  - rewrite app_length, firstn_length. cbn [length]. rewrite skipn_length. lia.
  - revert k L. induction l as [|x l IH]; intros k L j; [cbn in L; lia|]. destruct k as [|k].
    + cbn [firstn skipn app]. destruct j; reflexivity.
    + destruct j as [|j]; [reflexivity|]. cbn [length] in L. change (nth j (firstn k l ++ v :: skipn (S k) l) [] = if Nat.eqb j k then v else nth j l []). apply IH. lia.
Qed.
Lemma same_refl : forall ci a, same_name ci a a.
Proof. intros ci a. induction a; constructor; [now left|assumption]. Qed.
Lemma same_trans2 : forall ci name a b, same_name ci name a -> same_name ci name b -> same_name ci a b.
Proof.
  intros ci name a b H. revert b. induction H as [|x y n a Hx H IH]; intros b Hb; inversion Hb as [|? z ? b' Hz Hb']; subst; constructor.
  - destruct Hx as [->|[E1 E2]], Hz as [->|[E3 E4]]; unfold same_char; auto. right. split; congruence.
  - now apply IH.
Qed.

(* ---- theorems ---- *)
(* Any name listed for a parameter of the common (in any capitalisation, when case is ignored) sets
   that parameter: its index is returned, its value becomes the given one, all others keep theirs. *)
Theorem C47_listed_names_set : forall ci c i name listed value, well_formed ci c ->
  In listed (nth i (own_names c) []) -> ident name -> hs_which name = -1 -> same_name ci name listed ->
  exists c', set_param_by_name ci name value c = Some (Set_at (Z.of_nat i) c') /\
    (forall j, 0 <= j < param_count c -> param_value c' j = if j =? Z.of_nat i then value else param_value c j) /\
    (forall j, param_name c' j = param_name c j).
Proof.
  intros ci c i name listed value (W1 & W2 & W3 & W4) Hl Hn Hh Hs. unfold set_param_by_name. rewrite Hh. cbn [Z.eqb Z.opp Pos.eqb].
  assert (Hi : (i < length (own_names c))%nat) by (destruct (Nat.lt_ge_cases i (length (own_names c))); [assumption|]; rewrite nth_overflow in Hl by assumption; destruct Hl).
  destruct (nth_upd (own c) (Z.of_nat i) value ltac:(lia)) as (o' & Eu & Lu & Nu).
  assert (G : forall n, (i < n <= length (own_names c))%nat -> search ci n name value c = Some (Set_at (Z.of_nat i) (Comp (own_names c) o' (hs c)))).
  { induction n as [|n IH]; intros R; [lia|]. cbn [search].
    assert (Fn : Forall ident (nth n (own_names c) [])).
    { assert (X : Forall (fun a => ident a /\ hs_which a = -1) (nth n (own_names c) [])) by (apply (proj1 (Forall_forall _ _) W3); apply nth_In; lia). eapply Forall_impl; [|exact X]. intros a [H _]. exact H. }
    destruct (any_name_spec ci name _ Hn Fn) as (r & E & H). rewrite E. cbn [bind]. destruct r.
    - destruct (proj1 H eq_refl) as (b & Hb & Sb). assert (i = n) by (apply (W4 i n listed b Hl Hb); now apply (same_trans2 ci name)). subst n. unfold set_own. rewrite Eu. reflexivity.
    - destruct (Nat.eq_dec i n) as [->|]; [|apply IH; lia]. assert (false = true) by (apply H; now exists listed). discriminate. }
  rewrite (G (length (own_names c))) by lia. eexists. split; [reflexivity|]. split; [|reflexivity].
  intros j Hj. unfold param_value. change (param_count (Comp (own_names c) o' (hs c))) with (param_count c). cbn [own hs].
  assert (P : param_count c = 8 + Z.of_nat (length (own_names c))) by reflexivity.
  destruct ((0 <=? param_count c - 1 - j) && (param_count c - 1 - j <? sysparams_count)) eqn:E.
  - replace (j =? Z.of_nat i) with false by (unfold sysparams_count in *; lia). reflexivity.
  - rewrite Nu. rewrite Nat2Z.id. destruct (j =? Z.of_nat i) eqn:Ej.
    + replace (Nat.eqb (Z.to_nat j) i) with true by (symmetry; apply Nat.eqb_eq; lia). reflexivity.
    + replace (Nat.eqb (Z.to_nat j) i) with false by (symmetry; apply Nat.eqb_neq; lia). reflexivity.
Qed.
Print Assumptions C47_listed_names_set.

(* setting by index sets that index and nothing else *)
Theorem C47_index_sets : forall ci c i value, well_formed ci c -> 0 <= i < param_count c ->
  exists c', set_param_by_index i value c = Some c' /\
    (forall j, 0 <= j < param_count c -> param_value c' j = if j =? i then value else param_value c j) /\
    (forall j, param_name c' j = param_name c j).
Proof.
  intros ci c i value (W1 & W2 & _) Hi. assert (P : param_count c = 8 + Z.of_nat (length (own_names c))) by reflexivity.
  unfold set_param_by_index. destruct (param_count c - 1 - i <? sysparams_count) eqn:E; unfold sysparams_count in E.
  - unfold set_hs. destruct (nth_upd (hs c) (param_count c - 1 - i) value ltac:(lia)) as (h' & -> & Lu & Nu). cbn [bind]. eexists. split; [reflexivity|]. split; [|reflexivity].
    intros j Hj. unfold param_value. change (param_count (Comp (own_names c) (own c) h')) with (param_count c). cbn [own hs].
    destruct ((0 <=? param_count c - 1 - j) && (param_count c - 1 - j <? sysparams_count)) eqn:E2; unfold sysparams_count in E2.
    + rewrite Nu. destruct (j =? i) eqn:Ej.
      * replace (Nat.eqb (Z.to_nat (param_count c - 1 - j)) (Z.to_nat (param_count c - 1 - i))) with true by (symmetry; apply Nat.eqb_eq; lia). reflexivity.
      * replace (Nat.eqb (Z.to_nat (param_count c - 1 - j)) (Z.to_nat (param_count c - 1 - i))) with false by (symmetry; apply Nat.eqb_neq; lia). reflexivity.
    + replace (j =? i) with false by lia. reflexivity.
  - unfold set_own. destruct (nth_upd (own c) i value ltac:(lia)) as (h' & -> & Lu & Nu). cbn [bind]. eexists. split; [reflexivity|]. split; [|reflexivity].
    intros j Hj. unfold param_value. change (param_count (Comp (own_names c) h' (hs c))) with (param_count c). cbn [own hs].
    destruct ((0 <=? param_count c - 1 - j) && (param_count c - 1 - j <? sysparams_count)) eqn:E2; unfold sysparams_count in E2.
    + replace (j =? i) with false by lia. reflexivity.
    + rewrite Nu. destruct (j =? i) eqn:Ej.
      * replace (Nat.eqb (Z.to_nat j) (Z.to_nat i)) with true by (symmetry; apply Nat.eqb_eq; lia). reflexivity.
      * replace (Nat.eqb (Z.to_nat j) (Z.to_nat i)) with false by (symmetry; apply Nat.eqb_neq; lia). reflexivity.
Qed.
Print Assumptions C47_index_sets.

(* the system parameters: the first four listed names set what they list *)
Theorem C47_first_system_names_set : forall ci c k value, well_formed ci c -> 0 <= k < 4 ->
  let i := param_count c - 1 - k in
  exists c', set_param_by_name ci (param_name c i) value c = Some (Set_at i c') /\ param_value c' i = value.
Proof.
  intros ci c k value (W1 & W2 & _) Hk i.
  assert (Ei : param_count c - 1 - i = k) by (unfold i; lia).
  assert (Ew : hs_which (param_name c i) = k).
  { unfold param_name. rewrite Ei. assert (D : k = 0 \/ k = 1 \/ k = 2 \/ k = 3) by lia. destruct D as [->|[->|[->| ->]]]; reflexivity. }
  unfold set_param_by_name. rewrite Ew. replace (k =? -1) with false by lia. unfold set_hs. destruct (nth_upd (hs c) k value ltac:(lia)) as (h' & -> & Lu & Nu). cbn [bind].
  eexists. split; [f_equal; f_equal; unfold i; lia|]. unfold param_value. change (param_count (Comp (own_names c) (own c) h')) with (param_count c). rewrite Ei. cbn [hs]. unfold sysparams_count. replace ((0 <=? k) && (k <? 8)) with true by lia.
  rewrite Nu, Nat.eqb_refl. reflexivity.
Qed.
Print Assumptions C47_first_system_names_set.
(* the other four do not: "$angle" sets what is listed as "$sflip", "$hflip" what is listed as
   "$angle", "$vflip" what is listed as "$hflip", and "$sflip" itself is not accepted at all *)
Theorem C47_system_names_refuted : forall ci c value, well_formed ci c ->
  let pc := param_count c in
  (exists c', param_name c (pc - 5) = str "$angle" /\ set_param_by_name ci (str "$angle") value c = Some (Set_at (pc - 8) c') /\ param_name c' (pc - 8) = str "$sflip") /\
  (exists c', param_name c (pc - 6) = str "$hflip" /\ set_param_by_name ci (str "$hflip") value c = Some (Set_at (pc - 5) c') /\ param_name c' (pc - 5) = str "$angle") /\
  (exists c', param_name c (pc - 7) = str "$vflip" /\ set_param_by_name ci (str "$vflip") value c = Some (Set_at (pc - 6) c') /\ param_name c' (pc - 6) = str "$hflip") /\
  hs_which (str "$sflip") = -1.
Proof.
  intros ci c value (W1 & W2 & _) pc.
  assert (N : forall c', own_names c' = own_names c -> forall k, param_name c' (pc - 1 - k) = param_name c (pc - 1 - k)) by (intros c' E k; unfold param_name, param_count, own_count; now rewrite E).
  assert (Pn : forall c' k nm, own_names c' = own_names c -> (k = 4 /\ nm = str "$angle") \/ (k = 5 /\ nm = str "$hflip") \/ (k = 6 /\ nm = str "$vflip") \/ (k = 7 /\ nm = str "$sflip") -> param_name c' (pc - 1 - k) = nm).
  { intros c' k nm E D. rewrite (N c' E). unfold param_name. fold pc. replace (pc - 1 - (pc - 1 - k)) with k by lia. destruct D as [[-> ->]|[[-> ->]|[[-> ->]|[-> ->]]]]; reflexivity. }
  assert (S : forall nm k, hs_which nm = k -> 4 <= k < 8 -> exists c', set_param_by_name ci nm value c = Some (Set_at (pc - 1 - k) c') /\ own_names c' = own_names c).
  { intros nm k E R. unfold set_param_by_name. rewrite E. replace (k =? -1) with false by lia. unfold set_hs. destruct (nth_upd (hs c) k value ltac:(lia)) as (h' & -> & _). cbn [bind]. eexists. split; [f_equal; f_equal; fold pc; lia|reflexivity]. }
  split; [|split; [|split]].
  - destruct (S (str "$angle") 7 eq_refl ltac:(lia)) as (c' & E & O). exists c'. split; [replace (pc - 5) with (pc - 1 - 4) by lia; apply (Pn c 4); auto|]. split; [rewrite E; f_equal; f_equal; lia|]. replace (pc - 8) with (pc - 1 - 7) by lia. apply (Pn c' 7); auto 10.
  - destruct (S (str "$hflip") 4 eq_refl ltac:(lia)) as (c' & E & O). exists c'. split; [replace (pc - 6) with (pc - 1 - 5) by lia; apply (Pn c 5); auto|]. split; [rewrite E; f_equal; f_equal; lia|]. replace (pc - 5) with (pc - 1 - 4) by lia. apply (Pn c' 4); auto 10.
  - destruct (S (str "$vflip") 5 eq_refl ltac:(lia)) as (c' & E & O). exists c'. split; [replace (pc - 7) with (pc - 1 - 6) by lia; apply (Pn c 6); auto|]. split; [rewrite E; f_equal; f_equal; lia|]. replace (pc - 6) with (pc - 1 - 5) by lia. apply (Pn c' 5); auto 10.
  - reflexivity.
Qed.
Print Assumptions C47_system_names_refuted.
(* an index beyond the end writes outside the array of system parameters *)
Theorem C47_index_too_big_refuted : forall c value, set_param_by_index (param_count c) value c = None.
Proof.
  intros c value. unfold set_param_by_index. replace (param_count c - 1 - param_count c) with (-1) by lia. reflexivity.
Qed.
Print Assumptions C47_index_too_big_refuted.

(* a device with the parameters tnom, dtemp and temp (also called temperature) *)
Definition device : comp := Comp [[str "tnom"]; [str "dtemp"]; [str "temp"; str "temperature"]] (repeat [] 3) (repeat [] 8).
Lemma ident_dec : forall s, forallb (fun c => negb (Ascii.eqb c NUL) && negb (existsb (Ascii.eqb c) (str "\{}| ")) && isgraph c && negb (isspace c) && negb (existsb (Ascii.eqb c) (str ",=(){};"))) s = true -> s <> [] -> ident s.
Proof.
  intros s H N. split; [assumption|]. apply Forall_forall. intros c Hc. rewrite forallb_forall in H. specialize (H c Hc). repeat (apply andb_true_iff in H; destruct H as [H ?]).
  assert (X : forall l, existsb (Ascii.eqb c) l = false -> ~ In c l) by (intros l E X; apply not_true_iff_false in E; apply E; apply existsb_exists; exists c; split; [assumption|apply Ascii.eqb_refl]).
  rewrite negb_true_iff in *. apply Ascii.eqb_neq in H. split; [split; [assumption|now apply X]|]. split; [assumption|]. cbn [word_end]. intros [E|[E|E]]; [contradiction|congruence|]. now apply (X _ H0).
Qed.
Example C47_case : well_formed true device /\ ident (str "TEMPERATURE") /\ same_name true (str "TEMPERATURE") (str "temperature") /\
  match set_param_by_name true (str "TEMPERATURE") (str "85") device with Some (Set_at i c) => i = 2 /\ param_value c 2 = str "85" | _ => False end.
Proof.
  split; [|split; [|split]].
  - split; [reflexivity|]. split; [reflexivity|]. split.
    + repeat apply Forall_cons; try apply Forall_nil; (split; [apply ident_dec; [reflexivity|discriminate]|reflexivity]).
    + assert (L : forall a b, same_name true a b -> (fix go a b := match a, b with x :: a, y :: b => sameb true x y && go a b | [], [] => true | _, _ => false end) a b = true).
      { intros a b H. induction H as [|x y a b Hx _ IH]; [reflexivity|]. apply sameb_ok in Hx. rewrite Hx. exact IH. }
      intros i j a b Ha Hb S. apply L in S. clear L.
      destruct i as [|[|[|i]]]; cbn [nth device own_names] in Ha; [| | |destruct i; contradiction Ha];
      (destruct j as [|[|[|j]]]; cbn [nth device own_names] in Hb; [| | |destruct j; contradiction Hb]); try reflexivity; exfalso;
      cbn [In] in Ha, Hb; repeat match goal with H : _ \/ _ |- _ => destruct H as [<-|H] | H : False |- _ => destruct H end; vm_compute in S; discriminate.
  - apply ident_dec; [reflexivity|discriminate].
  - repeat constructor; right; split; reflexivity.
  - vm_compute. split; reflexivity.
Qed.
