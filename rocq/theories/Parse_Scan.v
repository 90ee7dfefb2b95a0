(* Lemmas for C61: the scanner calls the expression parser makes, as functions of the text after the
   cursor. *)
Require Import ZArith List Ascii String Bool Lia.
Require Import ZifyBool.
Require Import Verif.Loops Verif.Wmatch_Model Verif.CS_Model Verif.CS_Proofs Verif.CS_Ops Verif.Quote_Proofs Verif.CS_Word Verif.Parse_Model.
Import ListNotations.
Local Open Scope Z_scope.

(* ---- operators ---- *)
(* r after the word w, if it begins so *)
Fixpoint strip (w r : list ascii) : option (list ascii) :=
  match w with
  | [] => Some r
  | c :: w' => match r with k :: r' => if Ascii.eqb k c then strip w' r' else None | [] => None end
  end.
Lemma strip_some : forall w r x, strip w r = Some x <-> r = w ++ x.
Proof.
  induction w as [|c w IH]; intros r x; cbn; [split; [now intros [= ->]|now intros ->]|].
  destruct r as [|k r]; [split; discriminate|]. destruct (Ascii.eqb_spec k c) as [->|N].
  - rewrite IH. split; [now intros ->|now intros [= ->]].
  - split; [discriminate|]. intros [= E _]. contradiction.
Qed.
Fixpoint first_op (ws : list (list ascii)) (r : list ascii) : option (list ascii * list ascii) :=
  match ws with
  | [] => None
  | w :: ws' => match strip w r with Some x => Some (w, x) | None => first_op ws' r end
  end.
Lemma first_op_some : forall ws r w x, first_op ws r = Some (w, x) -> In w ws /\ r = w ++ x.
Proof.
  induction ws as [|v ws IH]; intros r w x H; [discriminate H|]. cbn in H. destruct (strip v r) as [y|] eqn:E.
  - injection H as <- <-. apply strip_some in E. split; [now left|assumption].
  - destruct (IH _ _ _ H) as [A B]. split; [now right|assumption].
Qed.
Lemma first_op_none : forall ws r, first_op ws r = None <-> (forall w x, In w ws -> r <> w ++ x).
Proof.
  induction ws as [|v ws IH]; intros r; cbn; [split; [intros _ w x []|reflexivity]|].
  destruct (strip v r) as [y|] eqn:E.
  - split; [discriminate|]. intros H. apply strip_some in E. elim (H v y); [now left|assumption].
  - rewrite IH. split; intros H w x.
    + intros [<-|I]; [|now apply H]. intros X. apply strip_some in X. congruence.
    + intros I. apply H. now right.
Qed.
Fixpoint bars (ws : list (list ascii)) : list ascii :=
  match ws with [] => [] | [w] => w | w :: ws' => w ++ "|"%char :: bars ws' end.

Definition opchar (c : ascii) : Prop := plain c /\ isalpha c = false.
Lemma to_lower_op : forall k c, isalpha c = false -> to_lower k = to_lower c -> k = c.
Proof.
  intros k c H E. assert (L : to_lower c = c) by (revert H; destruct c as [[] [] [] [] [] [] [] []]; vm_compute; congruence).
  rewrite L in E. destruct (Ascii.eqb_spec (to_lower k) k) as [Q|N]; [congruence|].
  exfalso. subst c. revert H N. destruct k as [[] [] [] [] [] [] [] []]; vm_compute; congruence.
Qed.
Lemma sameb_op : forall ci k c, isalpha c = false -> sameb ci k c = Ascii.eqb k c.
Proof.
  intros ci k c H. unfold sameb. destruct (Ascii.eqb_spec k c) as [->|N]; [reflexivity|]. cbn. destruct ci; [|reflexivity]. cbn.
  destruct (Ascii.eqb_spec (to_lower k) (to_lower c)) as [E|]; [|reflexivity]. elim N. now apply to_lower_op.
Qed.

Lemma last_in : forall (w : list ascii) c, In (last w c) (c :: w).
Proof. intros w c. destruct w as [|d w] using rev_ind; [now left|]. rewrite last_last. right. apply in_or_app. right. now left. Qed.
Lemma op_bs : forall c, opchar c -> c <> "\"%char.
Proof. intros c [[_ N] _] ->. apply N. now left. Qed.
Lemma op_bar : forall c, opchar c -> c <> "|"%char.
Proof. intros c [[_ N] _] ->. apply N. cbn. auto 8. Qed.

Section Ops.
Variable ci : bool.
Variable line : list ascii.

Lemma op_mism : forall st n c w t r s, Forall opchar (c :: w) -> (t = [] \/ exists q, t = "|"%char :: q) -> vw line r s ->
  (List.length (w ++ t) < n)%nat ->
  mismatch ci line st t (match find_bar c (w ++ t) with
        | Some (prev, q) =>
            if Ascii.eqb prev "\" then Some (set_ok s false)
            else umatch_loop ci n st q false (reset st s)
        | None => Some (set_ok s false)
        end).
Proof.
  intros st n c w t r s Hw Ht V Hn. rewrite find_bar_plain; [|assumption|].
  2:{ inversion_clear Hw. eapply Forall_impl; [|eassumption]. exact op_bar. }
  exists s, r. split; [assumption|]. split; [now intros ->|]. intros q ->.
  rewrite Forall_forall in Hw. pose proof (op_bs _ (Hw _ (last_in w c))) as L.
  destruct (Ascii.eqb_spec (last w c) "\"); [contradiction|]. exists n. split; [|reflexivity]. rewrite app_length in Hn. cbn in Hn. lia.
Qed.
Lemma op_loop : forall st w t, Forall opchar w -> (t = [] \/ exists q, t = "|"%char :: q) -> forall n r s,
  (List.length (w ++ t) < n)%nat -> vw line r s ->
  match strip w r with
  | Some x => exists n' s', (List.length t < n')%nat /\ vw line x s' /\ umatch_loop ci n st (w ++ t) false s = umatch_loop ci n' st t false s'
  | None => mismatch ci line st t (umatch_loop ci n st (w ++ t) false s)
  end.
Proof.
  intros st w t Hw Ht. induction Hw as [|c w Hc Hw IH]; intros n r s Hn V.
  - cbn. exists n, s. auto.
  - destruct n as [|n]; [cbn in Hn; lia|]. cbn [strip app]. rewrite (plain_step ci line st n c (w ++ t) false r s (proj1 Hc) V).
    cbn in Hn. destruct r as [|k r].
    2: rewrite (sameb_op ci k c (proj2 Hc)); destruct (Ascii.eqb k c).
    2:{ apply IH; [lia|]. eapply proj1, skip_vw. exact V. }
    all: eapply op_mism; [now constructor|assumption|exact V|lia].
Qed.

(* all alternatives, from the start r0; s is there *)
Lemma ops_loop : forall r0 s0, vw line r0 s0 -> forall ws, ws <> [] -> Forall (Forall opchar) ws -> forall n s,
  (List.length (bars ws) < n)%nat -> vw line r0 s ->
  exists s', umatch_loop ci n (cnt s0) (bars ws) false s = Some s' /\
    match first_op ws r0 with Some (_, x) => ok s' = true /\ vw line x s' | None => ok s' = false /\ exists r', vw line r' s' end.
Proof.
  intros r0 s0 V0 ws. induction ws as [|w ws IH]; intros Hne Hp n s Hn V; [now elim Hne|]. inversion_clear Hp as [|? ? Hw Hws].
  assert (Eq : bars (w :: ws) = w ++ match ws with [] => [] | _ => "|"%char :: bars ws end) by (cbn; destruct ws; [now rewrite app_nil_r|reflexivity]).
  rewrite Eq in *. set (t := match ws with [] => [] | _ => "|"%char :: bars ws end) in *.
  assert (Ht : t = [] \/ exists q, t = "|"%char :: q) by (unfold t; destruct ws; [now left|right; eauto]).
  pose proof (op_loop (cnt s0) w t Hw Ht n r0 s Hn V) as L. cbn [first_op]. destruct (strip w r0) as [x|].
  - destruct L as (n' & s' & L & V' & E). rewrite E. destruct n' as [|n']; [lia|].
    exists (set_ok s' true). split; [|split; [reflexivity|exact V']].
    destruct Ht as [->|[q ->]]; reflexivity.
  - destruct L as (s' & r' & V' & A & B). destruct ws as [|v ws].
    + subst t. rewrite (A eq_refl). eexists. split; [reflexivity|]. cbn [first_op]. split; [reflexivity|]. exists r'. exact V'.
    + destruct (B (bars (v :: ws)) eq_refl) as (n' & Ln & E). rewrite E. apply IH; [discriminate|assumption|assumption|].
      exact (vw_reset _ _ _ _ _ V0 V').
Qed.

(* the last match, once umatch has moved from r1 over w to x *)
Lemma last_match_vw : forall w x r s s1 s2, vw line r s -> vw line (w ++ x) s1 -> vw line x s2 ->
  begin_match s = cnt s1 -> end_match s = cnt s2 -> last_match s = Some w.
Proof.
  intros w x r s s1 s2 V V1 V2 B E. unfold last_match. replace (cmd s) with line by (symmetry; apply V).
  rewrite B, E. rewrite (vw_cnt _ _ _ V2). replace (Z.of_nat (List.length line) - Z.of_nat (List.length x) - cnt s1) with (Z.of_nat (List.length w)).
  2:{ rewrite (vw_cnt _ _ _ V1), app_length. lia. }
  destruct V1 as (_ & _ & pre & Ep & ->). now apply (substr_vw line pre w x).
Qed.

(* what umatch does with the outcome of its loop *)
Lemma oper_end : forall p r s s1 s2 r1 (o : option (list ascii * list ascii)), vw line r s -> skipbl s = Some s1 -> vw line r1 s1 ->
  umatch_loop ci (umatch_rounds p) (cnt s) p false s1 = Some s2 ->
  match o with Some (w, x) => r1 = w ++ x /\ ok s2 = true /\ vw line x s2 | None => ok s2 = false /\ exists r', vw line r' s2 end ->
  exists s', oper ci p s = Some (option_map fst o, s') /\ vw line (match o with Some (_, x) => dropcom x | None => r end) s' /\
    ok s' = match o with Some _ => true | None => false end.
Proof.
  intros p r s s1 s2 r1 o V E1 V1 E2 H. unfold oper, umatch. inb E1. inb E2. destruct o as [[w x]|].
  - destruct H as (-> & O2 & V2). rewrite O2.
    destruct (skipcom_vw _ _ _ (vw_m _ _ _ (cnt s1) (cnt s2) V2)) as (s4 & E4 & V4 & M4 & _). inb E4. cbn [ok set_ok].
    rewrite (last_match_vw w x (dropcom x) (set_ok s4 true) s1 s2); [|exact V4|exact V1|exact V2|apply M4|apply M4].
    cbn. eexists. split; [reflexivity|]. split; [exact V4|reflexivity].
  - destruct H as (O2 & r' & V2). rewrite O2. cbn. eexists. split; [reflexivity|]. split; [|reflexivity]. exact (vw_reset_fail _ _ _ _ _ V V2).
Qed.

Lemma oper_vw : forall ws r s, ws <> [] -> Forall (Forall opchar) ws -> vw line r s -> dropbl r = r ->
  exists s', oper ci (bars ws) s = Some (option_map fst (first_op ws r), s') /\
    vw line (match first_op ws r with Some (_, x) => dropcom x | None => r end) s' /\ ok s' = match first_op ws r with Some _ => true | None => false end.
Proof.
  intros ws r s Hne Hp V Hb. destruct (skipbl_vw _ _ _ V) as (s1 & E1 & V1 & _). rewrite Hb in V1.
  destruct (ops_loop r s V ws Hne Hp (umatch_rounds (bars ws)) s1) as (s2 & E2 & H2); [unfold umatch_rounds; lia|assumption|].
  apply (oper_end (bars ws) r s s1 s2 r (first_op ws r)); try assumption.
  destruct (first_op ws r) as [[w x]|] eqn:Ef; [|assumption]. split; [|assumption]. now apply first_op_some in Ef.
Qed.

(* the same when blanks come first: the first alternative is tried after the blanks, the others before *)
Lemma oper_blank : forall w ws r s, Forall opchar w -> ws <> [] -> Forall (Forall opchar) ws -> Forall (fun v => v <> [] /\ fblank (head v) = false) ws ->
  vw line r s -> fblank (head r) = true ->
  exists s', oper ci (bars (w :: ws)) s = Some (option_map fst (first_op [w] (dropbl r)), s') /\
    vw line (match first_op [w] (dropbl r) with Some (_, x) => dropcom x | None => r end) s'.
Proof.
  intros w ws r s Hw Hne Hp Hg V Hb. destruct (skipbl_vw _ _ _ V) as (s1 & E1 & V1 & _).
  assert (Eq : bars (w :: ws) = w ++ "|"%char :: bars ws) by (cbn; destruct ws; [now elim Hne|reflexivity]).
  pose proof (op_loop (cnt s) w ("|"%char :: bars ws) Hw (or_intror (ex_intro _ _ eq_refl)) (umatch_rounds (bars (w :: ws))) (dropbl r) s1) as L.
  rewrite <- Eq in L. specialize (L ltac:(unfold umatch_rounds; lia) V1). cbn [first_op].
  assert (K : exists s2, umatch_loop ci (umatch_rounds (bars (w :: ws))) (cnt s) (bars (w :: ws)) false s1 = Some s2 /\
     match strip w (dropbl r) with Some x => dropbl r = w ++ x /\ ok s2 = true /\ vw line x s2 | None => ok s2 = false /\ exists r', vw line r' s2 end).
  { destruct (strip w (dropbl r)) as [x|] eqn:Es.
    - destruct L as (n' & s2 & L & V2 & E). rewrite E. destruct n' as [|n']; [lia|]. exists (set_ok s2 true). split; [reflexivity|].
      apply strip_some in Es. split; [assumption|]. split; [reflexivity|exact V2].
    - destruct L as (s2 & r2 & V2 & _ & B). destruct (B _ eq_refl) as (n' & Ln & E). rewrite E.
      destruct (ops_loop r s V ws Hne Hp n' (reset (cnt s) s2) Ln (vw_reset _ _ _ _ _ V V2)) as (s3 & E3 & H3). exists s3. split; [exact E3|].
      assert (N : first_op ws r = None).
      { apply first_op_none. intros v x Iv ->. rewrite Forall_forall in Hg. destruct (Hg v Iv) as [N G]. destruct v as [|c v]; [now elim N|].
        unfold head in *. cbn in *. congruence. }
      rewrite N in H3. exact H3. }
  destruct K as (s2 & E2 & H2).
  destruct (oper_end (bars (w :: ws)) r s s1 s2 (dropbl r) (match strip w (dropbl r) with Some x => Some (w, x) | None => None end) V E1 V1 E2) as (s' & E' & V' & _).
  { destruct (strip w (dropbl r)); assumption. }
  exists s'. split; [exact E'|exact V'].
Qed.

(* "\|\|": a backslash in the pattern matches a bar, or itself *)
Definition oror (r : list ascii) : option (list ascii * list ascii) :=
  match r with
  | "|"%char :: "|"%char :: q => Some (str "||", q)
  | "|"%char :: "\"%char :: q => Some (str "|\", q)
  | "\"%char :: q => Some (str "\", q)
  | _ => None
  end.
Definition ooo (r : list ascii) : option (list ascii * list ascii) :=
  match r with
  | [] => None
  | a :: q => if Ascii.eqb a "|" then
      match q with b :: x => if Ascii.eqb b "|" then Some (str "||", x) else if Ascii.eqb b "\" then Some (str "|\", x) else None | [] => None end
    else if Ascii.eqb a "\" then Some (str "\", q) else None
  end.
Lemma ooo_ok : forall r, ooo r = oror r.
Proof.
  intros [|a q]; [reflexivity|]. unfold ooo. destruct (Ascii.eqb_spec a "|") as [->|N1].
  - destruct q as [|b x]; [reflexivity|]. destruct (Ascii.eqb_spec b "|") as [->|M1]; [reflexivity|]. destruct (Ascii.eqb_spec b "\") as [->|M2]; [reflexivity|].
    destruct b as [[] [] [] [] [] [] [] []]; try reflexivity; [now elim M2|now elim M1].
  - destruct (Ascii.eqb_spec a "\") as [->|N2]; [reflexivity|].
    destruct a as [[] [] [] [] [] [] [] []]; try reflexivity; [now elim N2|now elim N1].
Qed.
Lemma lower_bs : forall k, Ascii.eqb (to_lower k) (to_lower "\") = Ascii.eqb k "\".
Proof. intros [[] [] [] [] [] [] [] []]; reflexivity. Qed.

Lemma oror_vw : forall r s, vw line r s -> dropbl r = r ->
  exists s', oper ci (str "\|\|") s = Some (option_map fst (oror r), s') /\
    vw line (match oror r with Some (_, x) => dropcom x | None => r end) s' /\ ok s' = match oror r with Some _ => true | None => false end.
Proof.
  intros r s V Hb. destruct (skipbl_vw _ _ _ V) as (s1 & E1 & V1 & _). rewrite Hb in V1.
  assert (K : exists s2, umatch_loop ci (umatch_rounds (str "\|\|")) (cnt s) (str "\|\|") false s1 = Some s2 /\
    match oror r with Some (w, x) => r = w ++ x /\ ok s2 = true /\ vw line x s2 | None => ok s2 = false /\ exists r', vw line r' s2 end).
  { rewrite <- ooo_ok. change (str "\|\|") with ["\"; "|"; "\"; "|"]%char. change (umatch_rounds ["\"; "|"; "\"; "|"]%char) with 10%nat.
    assert (St : forall n t r1 sA, vw line r1 sA ->
      umatch_loop ci (S (S n)) (cnt s) ("\"%char :: "|"%char :: t) false sA =
      if Ascii.eqb (head r1) "|" then umatch_loop ci (S n) (cnt s) t false (skip sA)
      else if Ascii.eqb (head r1) "\" then Some (set_ok (skip sA) true) else Some (set_ok sA false)).
    { intros n t r1 sA VA. remember (S n) as m. cbn [umatch_loop]. inb (peek_vw _ _ _ VA).
      change (Ascii.eqb "\" "|") with false. change (Ascii.eqb "\" "\") with true. change (Ascii.eqb "\" "{") with false. change (Ascii.eqb "\" "}") with false.
      cbn [andb negb tl]. destruct (Ascii.eqb (head r1) "|"); [reflexivity|]. inb (is_term_vw _ _ _ TERM VA).
      change (Ascii.eqb "\" " ") with false. cbn [andb]. rewrite lower_bs. subst m. destruct (Ascii.eqb (head r1) "\").
      - reflexivity.
      - rewrite andb_false_r. cbn [find_bar]. change (Ascii.eqb "|" "|") with true. reflexivity. }
    rewrite (St 8%nat ["\"; "|"]%char r s1 V1). destruct r as [|a q]; [cbn; eexists; split; [reflexivity|]; split; [reflexivity|]; exists []; exact V1|].
    change (head (a :: q)) with a. cbn [ooo]. destruct (Ascii.eqb_spec a "|") as [->|N1].
    - destruct (skip_vw _ _ _ _ V1) as [V2 _]. rewrite (St 7%nat [] q (skip s1) V2). destruct q as [|b x].
      { cbn. eexists. split; [reflexivity|]. split; [reflexivity|]. exists []. exact V2. }
      change (head (b :: x)) with b. destruct (Ascii.eqb_spec b "|") as [->|M1].
      { destruct (skip_vw _ _ _ _ V2) as [V3 _]. eexists. split; [reflexivity|]. split; [reflexivity|]. split; [reflexivity|]. exact V3. }
      destruct (Ascii.eqb_spec b "\") as [->|M2].
      { destruct (skip_vw _ _ _ _ V2) as [V3 _]. eexists. split; [reflexivity|]. split; [reflexivity|]. split; [reflexivity|]. exact V3. }
      eexists. split; [reflexivity|]. split; [reflexivity|]. eexists. exact V2.
    - destruct (Ascii.eqb_spec a "\") as [->|N2].
      { destruct (skip_vw _ _ _ _ V1) as [V2 _]. eexists. split; [reflexivity|]. split; [reflexivity|]. split; [reflexivity|]. exact V2. }
      eexists. split; [reflexivity|]. split; [reflexivity|]. eexists. exact V1. }
  destruct K as (s2 & E2 & H2). now apply (oper_end (str "\|\|") r s s1 s2 r (oror r)).
Qed.
End Ops.

(* ---- names and numbers ---- *)
Definition fpf := in_set (str ".0123456789").
Definition fexp := in_set (str "eE").
Definition fsign := in_set (str "+-").
Definition num_text (r : list ascii) : list ascii * list ascii :=
  let f := take_while fpf r in let r1 := drop_while fpf r in
  if fexp (head r1) then
    let r2 := tl r1 in
    let sg := if fsign (head r2) then [head r2] else [] in
    let r3 := if fsign (head r2) then tl r2 else r2 in
    let r4 := drop_while fdigit r3 in
    (f ++ head r1 :: sg ++ take_while fdigit r3 ++ take_while falpha r4, drop_while falpha r4)
  else (f ++ take_while falpha r1, drop_while falpha r1).
Definition fus := in_set (str "_$").
Fixpoint ident_text (b : Z) (r : list ascii) : list ascii * list ascii :=
  match r with
  | [] => ([], [])
  | c :: q =>
      let more b' := let (d, x) := ident_text b' q in (c :: d, x) in
      if falpha c || fpf c || fus c then more b
      else if in_set (str "[") c then more (b + 1)
      else if negb (b =? 0) && in_set (str "]") c then more (b - 1)
      else ([], r)
  end.
Definition name_text (r : list ascii) : list ascii * list ascii := if fpf (head r) then num_text r else ident_text 0 r.

Section Names.
Variable line : list ascii.

Lemma take_more_vw : forall cond f, f NUL = false -> (forall r s, vw line r s -> cond s = Some (f (head r))) ->
  forall d r s, vw line r s -> exists s', take_more cond d s = Some (d ++ take_while f r, s') /\ vw line (drop_while f r) s'.
Proof.
  intros cond f F0 Hc d r s V. unfold take_more.
  destruct (conv_vw _ line cond f (fun v c => Some (v ++ [c])) F0 Hc d r s (d ++ take_while f r) V) as (s' & E & V' & _).
  { generalize (take_while f r). clear. intros l. revert d. induction l as [|c l IH]; intros d; cbn; [now rewrite app_nil_r|]. rewrite IH, <- app_assoc. reflexivity. }
  now exists s'.
Qed.
Lemma take1_vw : forall d c r s, vw line (c :: r) s -> exists s', take1 d s = Some (d ++ [c], s') /\ vw line r s' /\ ok s' = ok s.
Proof. intros d c r s V. unfold take1. destruct (ctoc_vw _ _ _ _ V) as (s1 & E1 & V1 & O1 & _). inb E1. now exists s1. Qed.
Lemma head_tl : forall f r, f NUL = false -> f (head r) = true -> r = head r :: tl r.
Proof. intros f [|c r] N H; [unfold head in H; cbn in H; congruence|reflexivity]. Qed.

Lemma number_name_vw : forall r s, vw line r s ->
  exists s', number_name s = Some (fst (num_text r), s') /\ vw line (snd (num_text r)) s'.
Proof.
  intros r s V. unfold number_name, num_text.
  destruct (take_more_vw is_pfloat fpf eq_refl (fun r s V => match1_vw _ _ _ _ V) [] r s V) as (s1 & E1 & V1). inb E1. cbn [app].
  inb (match1_vw _ _ _ (str "eE") V1). change (in_set (str "eE")) with fexp. destruct (fexp (head (drop_while fpf r))) eqn:Ee.
  - rewrite (head_tl fexp _ eq_refl Ee) in V1.
    destruct (take1_vw (take_while fpf r) _ _ _ V1) as (s2 & E2 & V2 & _). inb E2.
    inb (match1_vw _ _ _ (str "+-") V2). change (in_set (str "+-")) with fsign.
    set (r2 := tl (drop_while fpf r)) in *. set (c := head (drop_while fpf r)) in *.
    assert (K : exists s3, (if fsign (head r2) then take1 (take_while fpf r ++ [c]) s2 else Some (take_while fpf r ++ [c], s2)) =
        Some ((take_while fpf r ++ [c]) ++ (if fsign (head r2) then [head r2] else []), s3) /\ vw line (if fsign (head r2) then tl r2 else r2) s3).
    { destruct (fsign (head r2)) eqn:Es; [|exists s2; now rewrite app_nil_r].
      rewrite (head_tl fsign _ eq_refl Es) in V2. destruct (take1_vw (take_while fpf r ++ [c]) _ _ _ V2) as (s3 & E3 & V3 & _). now exists s3. }
    destruct K as (s3 & E3 & V3). inb E3.
    match type of E3 with _ = Some (?d, _) => destruct (take_more_vw is_digit fdigit eq_refl (fun r s V => is_digit_vw _ _ _ V) d _ s3 V3) as (s4 & E4 & V4) end. inb E4.
    match type of E4 with _ = Some (?d, _) => destruct (take_more_vw is_alpha falpha eq_refl (fun r s V => is_alpha_vw _ _ _ V) d _ s4 V4) as (s5 & E5 & V5) end. inb E5.
    exists s5. split; [|exact V5]. cbn [fst]. rewrite <- !app_assoc. reflexivity.
  - cbn [bind].
    destruct (take_more_vw is_alpha falpha eq_refl (fun r s V => is_alpha_vw _ _ _ V) (take_while fpf r) _ s1 V1) as (s5 & E5 & V5). inb E5.
    exists s5. split; [reflexivity|exact V5].
Qed.
Lemma name_loop_vw : forall n b d r s, (List.length r < n)%nat -> vw line r s ->
  exists s', name_loop n b d s = Some (d ++ fst (ident_text b r), s') /\ vw line (snd (ident_text b r)) s'.
Proof.
  induction n as [|n IH]; intros b d r s Hn V; [lia|]. cbn [name_loop].
  inb (is_alpha_vw _ _ _ V). unfold is_pfloat. inb (match1_vw _ _ _ (str ".0123456789") V). inb (match1_vw _ _ _ (str "_$") V).
  inb (match1_vw _ _ _ (str "[") V). inb (match1_vw _ _ _ (str "]") V).
  destruct r as [|c q].
  { change (head []) with NUL. change (falpha NUL || in_set (str ".0123456789") NUL || in_set (str "_$") NUL) with false.
    change (in_set (str "[") NUL) with false. change (in_set (str "]") NUL) with false. rewrite andb_false_r. exists s. cbn. now rewrite app_nil_r. }
  change (head (c :: q)) with c. cbn [ident_text]. fold fpf fus.
  assert (Go : forall b', exists s', (let* (d, s) := take1 d s in name_loop n b' d s) =
      Some (d ++ fst (let (d0, x) := ident_text b' q in (c :: d0, x)), s') /\ vw line (snd (let (d0, x) := ident_text b' q in (c :: d0, x))) s').
  { intros b'. destruct (take1_vw d c q s V) as (s1 & E1 & V1 & _). inb E1. destruct (IH b' (d ++ [c]) q s1) as (s2 & E2 & V2); [cbn in Hn; lia|assumption|].
    exists s2. destruct (ident_text b' q) as [d0 x]. cbn in *. rewrite <- app_assoc in E2. now split. }
  destruct (falpha c || fpf c || fus c); [apply Go|]. destruct (in_set (str "[") c); [apply Go|].
  destruct (negb (b =? 0) && in_set (str "]") c); [apply Go|]. exists s. cbn. now rewrite app_nil_r.
Qed.
Lemma name_parse_vw : forall r s, dropbl r = r -> vw line r s ->
  exists s', name_parse s = Some (fst (name_text r), s') /\ vw line (dropbl (snd (name_text r))) s'.
Proof.
  intros r s Hb V. unfold name_parse, name_text. destruct (skipbl_vw _ _ _ V) as (s1 & E1 & V1 & _). inb E1. rewrite Hb in V1.
  unfold is_pfloat. inb (match1_vw _ _ _ (str ".0123456789") V1). change (in_set (str ".0123456789")) with fpf. destruct (fpf (head r)).
  - destruct (number_name_vw r s1 V1) as (s2 & E2 & V2). inb E2. destruct (skipbl_vw _ _ _ V2) as (s3 & E3 & V3 & _). inb E3. now exists s3.
  - destruct (name_loop_vw (rounds s1) 0 [] r s1) as (s2 & E2 & V2); [rewrite (vw_rounds _ _ _ V1); pose proof (vw_le _ _ _ V1); lia|assumption|].
    inb E2. destruct (skipbl_vw _ _ _ V2) as (s3 & E3 & V3 & _). inb E3. now exists s3.
Qed.

(* ---- strings ---- *)
Definition fq (c : ascii) : bool := Ascii.eqb c QUOTE || Ascii.eqb c "\".
(* after the opening quote: the text, and what follows the closing quote *)
Fixpoint str_text (r : list ascii) : option (list ascii * list ascii) :=
  match r with
  | [] => None
  | c :: q =>
      let more (a : list ascii) (x : option (list ascii * list ascii)) := match x with Some (d, y) => Some (a ++ d, y) | None => None end in
      if Ascii.eqb c "\" then
        match q with
        | k :: q' => if fq k then more [c; k] (str_text q') else more [c] (str_text q)
        | [] => None
        end
      else if Ascii.eqb c QUOTE then Some ([], q)
      else if Ascii.eqb c NUL then None
      else more [c] (str_text q)
  end.
Lemma string_loop_vw : forall n d r s, (List.length r < n)%nat -> vw line r s -> ok s = true ->
  exists d' s' r', string_loop n d s = Some (d', s') /\ vw line r' s' /\
    match str_text r with Some (x, y) => d' = d ++ x /\ r' = y /\ ok s' = true | None => ok s' = false end.
Proof.
  induction n as [|n IH]; intros d r s Hn V O; [lia|]. cbn [string_loop]. rewrite O.
  inb (match1c_vw _ _ _ "\" V). destruct r as [|c q].
  { change (Ascii.eqb (head []) "\") with false. cbv iota. destruct (skip1c_vw _ _ _ QUOTE ltac:(discriminate) V) as (s1 & E1 & V1 & O1 & _). inb E1.
    rewrite O1. change (Ascii.eqb (head []) QUOTE) with false. cbv iota. cbn [eat1] in V1. inb (ns_more_vw _ _ _ V1).
    change (negb (negb (Ascii.eqb (head []) NUL))) with true. cbv iota. cbn [str_text]. exists d, s1, []. split; [reflexivity|]. split; [exact V1|exact O1]. }
  change (head (c :: q)) with c. cbn [List.length] in Hn. destruct (Ascii.eqb_spec c "\") as [->|Nb].
  - destruct (take1_vw d _ _ _ V) as (s1 & E1 & V1 & O1). inb E1. inb (match1c_vw _ _ _ QUOTE V1). inb (match1c_vw _ _ _ "\" V1).
    cbn [str_text]. change (Ascii.eqb "\" "\") with true. cbv iota. destruct q as [|k q'].
    { change (Ascii.eqb (head []) QUOTE || Ascii.eqb (head []) "\") with false. cbv iota. cbn [bind].
      destruct (IH (d ++ ["\"%char]) [] s1) as (d' & s' & r' & E & V' & H'); [cbn; lia|assumption|congruence|]. exists d', s', r'. split; [exact E|]. split; [exact V'|exact H']. }
    change (head (k :: q')) with k. change (Ascii.eqb k QUOTE || Ascii.eqb k "\") with (fq k). cbn [List.length] in Hn. destruct (fq k).
    + destruct (take1_vw (d ++ ["\"%char]) _ _ _ V1) as (s2 & E2 & V2 & O2). inb E2.
      destruct (IH ((d ++ ["\"%char]) ++ [k]) q' s2) as (d' & s' & r' & E & V' & H'); [lia|assumption|congruence|]. exists d', s', r'. split; [exact E|]. split; [exact V'|].
      destruct (str_text q') as [[x y]|]; [|exact H']. rewrite <- !app_assoc in H'. exact H'.
    + cbn [bind]. destruct (IH (d ++ ["\"%char]) (k :: q') s1) as (d' & s' & r' & E & V' & H'); [cbn; lia|assumption|congruence|]. exists d', s', r'.
      split; [exact E|]. split; [exact V'|]. destruct (str_text (k :: q')) as [[x y]|]; [|exact H']. rewrite <- !app_assoc in H'. exact H'.
  - destruct (skip1c_vw _ _ _ QUOTE ltac:(discriminate) V) as (s1 & E1 & V1 & O1 & _ & F1). inb E1. rewrite O1. change (head (c :: q)) with c in *.
    cbn [str_text]. destruct (Ascii.eqb_spec c "\"); [contradiction|]. cbn [eat1] in V1. destruct (Ascii.eqb c QUOTE) eqn:Eq.
    { exists d, s1, q. split; [reflexivity|]. split; [exact V1|]. rewrite app_nil_r. repeat split. exact O1. }
    inb (ns_more_vw _ _ _ V1). change (head (c :: q)) with c. rewrite negb_involutive. destruct (Ascii.eqb c NUL).
    { exists d, s1, (c :: q). split; [reflexivity|]. split; [exact V1|exact O1]. }
    destruct (take1_vw d _ _ _ V1) as (s2 & E2 & V2 & O2). inb E2.
    destruct (IH (d ++ [c]) q (reset (cnt s2) s2)) as (d' & s' & r' & E & V' & H'); [lia| |reflexivity|].
    { exact (vw_reset _ _ _ _ _ V2 V2). }
    exists d', s', r'. split; [exact E|]. split; [exact V'|]. destruct (str_text q) as [[x y]|]; [|exact H']. rewrite <- app_assoc in H'. exact H'.
Qed.
Lemma string_parse_vw : forall q s, vw line (QUOTE :: q) s ->
  exists d s' r', string_parse s = Some (d, s') /\ vw line r' s' /\
    match str_text q with Some (x, y) => d = x /\ r' = dropbl y | None => r' = QUOTE :: q end.
Proof.
  intros q s V. unfold string_parse. destruct (skipbl_vw _ _ _ V) as (s1 & E1 & V1 & F1 & _). inb E1. change (dropbl (QUOTE :: q)) with (QUOTE :: q) in V1.
  destruct (skip1c_vw _ _ _ QUOTE ltac:(discriminate) V1) as (s2 & E2 & V2 & O2 & _). inb E2.
  change (eat1 (fun c => Ascii.eqb c QUOTE) (QUOTE :: q)) with q in V2. change (Ascii.eqb (head (QUOTE :: q)) QUOTE) with true in O2.
  destruct (string_loop_vw (rounds s2) [] q s2) as (d & s3 & r3 & E3 & V3 & H3); [rewrite (vw_rounds _ _ _ V2); pose proof (vw_le _ _ _ V2); lia|assumption|assumption|].
  inb E3. destruct (str_text q) as [[x y]|].
  - destruct H3 as (-> & -> & O3). rewrite O3. destruct (skipbl_vw _ _ _ V3) as (s4 & E4 & V4 & _). inb E4. exists x, s4, (dropbl y). auto.
  - rewrite H3. eexists _, _, _. split; [reflexivity|]. split; [exact (vw_reset_fail _ _ _ _ _ V1 V3)|reflexivity].
Qed.

(* <...> *)
Lemma angle_vw : forall q s, vw line ("<"%char :: q) s ->
  exists s', ctos [] (str "<") (str ">") s = Some (fst (unq "<" ">" 1 q), s') /\ vw line (dropcom (snd (unq "<" ">" 1 q))) s'.
Proof. intros q s V. apply (ctos_quoted line [] (str "<") (str ">") 0%nat); [reflexivity|reflexivity|reflexivity|discriminate|reflexivity|discriminate|exact V]. Qed.
End Names.
