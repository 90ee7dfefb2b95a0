(* Proofs for C61. *)
Require Import ZArith List Ascii String Bool Lia.
Require Import ZifyBool.
Require Import Verif.Loops Verif.Wmatch_Model Verif.CS_Model Verif.CS_Proofs Verif.CS_Ops Verif.Quote_Proofs Verif.Parse_Model Verif.Parse_Spec Verif.Parse_Scan.
Import ListNotations.
Local Open Scope Z_scope.

(* ---- characters ---- *)
Lemma in_set_In : forall t c, in_set t c = true <-> c <> NUL /\ In c t.
Proof.
  intros t c. unfold in_set, mem. rewrite andb_true_iff, negb_true_iff, existsb_exists. split.
  - intros [A (x & I & E)]. apply Ascii.eqb_eq in E. subst x. split; [intros ->; discriminate A|assumption].
  - intros [A I]. split; [now apply Ascii.eqb_neq|]. exists c. split; [assumption|apply Ascii.eqb_refl].
Qed.
Lemma in_set_In' : forall t c, ~ In NUL t -> (in_set t c = true <-> In c t).
Proof. intros t c N. rewrite in_set_In. split; [now intros [_ H]|]. intros H. split; [intros ->; contradiction|assumption]. Qed.
Ltac nonul := cbn; intuition discriminate.
Lemma fpf_ok : forall c, fpf c = true <-> pointdigit c. Proof. intros c. apply in_set_In'. nonul. Qed.
Lemma fexp_ok : forall c, fexp c = true <-> In c (str "eE"). Proof. intros c. apply in_set_In'. nonul. Qed.
Lemma fsign_ok : forall c, fsign c = true <-> In c (str "+-"). Proof. intros c. apply in_set_In'. nonul. Qed.
Lemma fdigit_ok : forall c, fdigit c = true <-> In c (str "0123456789"). Proof. intros c. apply in_set_In'. nonul. Qed.
Lemma fus_ok : forall c, fus c = true <-> In c (str "_$"). Proof. intros c. apply in_set_In'. nonul. Qed.
Lemma alpha_ascii : forall c, isalpha c = true -> falpha c = true.
Proof. intros [[] [] [] [] [] [] [] []]; vm_compute; congruence. Qed.
Lemma falpha_graph : forall c, isgraph c = true -> falpha c = isalpha c.
Proof. intros [[] [] [] [] [] [] [] []]; vm_compute; congruence. Qed.
Lemma letter_alpha : forall lax c, letter lax c -> falpha c = true.
Proof. intros lax c [H|[_ H]]; [now apply alpha_ascii|exact H]. Qed.
Lemma letter_lax : forall c, falpha c = true -> letter true c.
Proof. intros c H. right. now split. Qed.
Lemma alpha_not : forall c, falpha c = true -> isgraph c = true -> fpf c = false /\ fus c = false /\ fdigit c = false /\ fsign c = false /\ c <> "["%char /\ c <> "]"%char.
Proof. intros c H G. revert H G. destruct c as [[] [] [] [] [] [] [] []]; vm_compute; intuition congruence. Qed.

Lemma blanks_drop : forall lax b r, blanks lax b -> dropbl (b ++ r) = dropbl r.
Proof.
  intros lax b r H. apply drop_app. eapply Forall_impl; [|exact H]. intros c (A & B & _). unfold fblank. rewrite B.
  destruct (Ascii.eqb_spec c NUL); [contradiction|reflexivity].
Qed.
Lemma blanks_take : forall r, blanks true (take_while fblank r).
Proof.
  intros r. eapply Forall_impl; [|apply take_all]. intros c H. apply andb_true_iff in H. destruct H as [A B].
  split; [intros ->; discriminate A|]. split; [now destruct (isgraph c)|now left].
Qed.
Lemma blanks_nil : forall lax, blanks lax []. Proof. intros. constructor. Qed.
Lemma dropbl_split : forall r, exists b, blanks true b /\ r = b ++ dropbl r.
Proof. intros r. exists (take_while fblank r). split; [apply blanks_take|]. symmetry. apply take_drop. Qed.
Lemma dropbl_idem : forall r, dropbl (dropbl r) = dropbl r.
Proof. intros r. apply drop_idem. apply dropbl_head. Qed.
Lemma dropbl_graph : forall c q, isgraph c = true -> dropbl (c :: q) = c :: q.
Proof. intros c q H. apply drop_idem. unfold head, fblank. cbn. rewrite H. apply andb_false_r. Qed.

(* ---- names: the parser's and the grammar's ---- *)
Lemma count_cons : forall x c l, count x (c :: l) = ((if Ascii.eqb x c then 1 else 0) + count x l)%nat.
Proof. intros x c l. unfold count. cbn. destruct (Ascii.eqb x c); reflexivity. Qed.
Lemma ident_text_sound : forall r b d x, 0 <= b -> ident_text b r = (d, x) ->
  r = d ++ x /\ Forall (fun c => namechar true c \/ c = "["%char \/ c = "]"%char) d /\
  (forall a q, d = a ++ "]"%char :: q -> Z.of_nat (count "]" a) < Z.of_nat (count "[" a) + b).
Proof.
  induction r as [|c r IH]; intros b d x Hb H.
  { injection H as <- <-. split; [reflexivity|]. split; [constructor|]. intros [|? ?] q; discriminate. }
  cbn [ident_text] in H.
  assert (Go : forall b', 0 <= b' -> (namechar true c \/ c = "["%char \/ c = "]"%char) ->
     b' = b + (if Ascii.eqb "[" c then 1 else 0) - (if Ascii.eqb "]" c then 1 else 0) -> (c = "]"%char -> 0 < b) ->
     (let (d0, x0) := ident_text b' r in (c :: d0, x0)) = (d, x) ->
     c :: r = d ++ x /\ Forall (fun c => namechar true c \/ c = "["%char \/ c = "]"%char) d /\
     (forall a q, d = a ++ "]"%char :: q -> Z.of_nat (count "]" a) < Z.of_nat (count "[" a) + b)).
  { intros b' Hb' Hc Eb' Hcl E. destruct (ident_text b' r) as [d0 x0] eqn:Et. injection E as <- <-.
    destruct (IH b' d0 x0 Hb' Et) as (-> & F & C). split; [reflexivity|]. split; [now constructor|].
    intros a q Ea. destruct a as [|k a]; cbn in Ea; injection Ea as -> Ed.
    - specialize (Hcl eq_refl). cbn. lia.
    - specialize (C a q Ed). rewrite !count_cons. destruct (Ascii.eqb "[" k), (Ascii.eqb "]" k); lia. }
  destruct (falpha c || fpf c || fus c) eqn:E1.
  - assert (Nc : namechar true c).
    { apply orb_true_iff in E1. destruct E1 as [E1|E1]; [apply orb_true_iff in E1; destruct E1 as [E1|E1]|].
      - left. now apply letter_lax.
      - right. left. now apply fpf_ok.
      - right. right. now apply fus_ok. }
    assert (Br : c <> "["%char /\ c <> "]"%char) by (split; intros ->; discriminate E1).
    apply (Go b Hb); [now left| |intros ->; now elim (proj2 Br)|exact H].
    destruct (Ascii.eqb_spec "[" c); [exfalso; apply (proj1 Br); congruence|]. destruct (Ascii.eqb_spec "]" c); [exfalso; apply (proj2 Br); congruence|]. lia.
  - destruct (in_set (str "[") c) eqn:E2.
    + apply in_set_In' in E2; [|nonul]. destruct E2 as [<-|[]]. apply (Go (b + 1)); [lia|auto|cbn; lia|discriminate|exact H].
    + destruct (negb (b =? 0) && in_set (str "]") c) eqn:E3.
      * apply andb_true_iff in E3. destruct E3 as [E3 E4]. apply in_set_In' in E4; [|nonul]. destruct E4 as [<-|[]].
        apply (Go (b - 1)); [lia|auto|cbn; lia|lia|exact H].
      * injection H as <- <-. split; [reflexivity|]. split; [constructor|]. intros [|? ?] q; discriminate.
Qed.
(* nothing here continues a name *)
Definition stops (r : list ascii) : Prop :=
  falpha (head r) = false /\ fpf (head r) = false /\ fus (head r) = false /\ head r <> "["%char /\ head r <> "]"%char.
Lemma ident_text_complete : forall n b r, 0 <= b -> Forall (fun c => namechar false c \/ c = "["%char \/ c = "]"%char) n ->
  (forall a q, n = a ++ "]"%char :: q -> Z.of_nat (count "]" a) < Z.of_nat (count "[" a) + b) -> stops r ->
  ident_text b (n ++ r) = (n, r).
Proof.
  induction n as [|c n IH]; intros b r Hb F C S; cbn [app].
  - destruct S as (S1 & S2 & S3 & S4 & S5). destruct r as [|c q]; [reflexivity|]. unfold head in *. cbn in S1, S2, S3, S4, S5. cbn [ident_text].
    rewrite S1, S2, S3. cbn [orb]. assert (in_set (str "[") c = false) as ->.
    { destruct (in_set (str "[") c) eqn:E; [|reflexivity]. apply in_set_In' in E; [|nonul]. destruct E as [E|[]]. now elim S4. }
    assert (in_set (str "]") c = false) as ->.
    { destruct (in_set (str "]") c) eqn:E; [|reflexivity]. apply in_set_In' in E; [|nonul]. destruct E as [E|[]]. now elim S5. }
    now rewrite andb_false_r.
  - inversion_clear F as [|? ? Fc Fn].
    assert (Cn : forall b', b' = b + (if Ascii.eqb "[" c then 1 else 0) - (if Ascii.eqb "]" c then 1 else 0) -> 0 <= b' -> ident_text b' (n ++ r) = (n, r)).
    { intros b' Eb Hb'. apply IH; try assumption. intros a q Ea. specialize (C (c :: a) q ltac:(cbn; now rewrite Ea)). rewrite !count_cons in C.
      destruct (Ascii.eqb "[" c), (Ascii.eqb "]" c); lia. }
    cbn [ident_text]. destruct Fc as [Nc|[->| ->]].
    + assert (E1 : falpha c || fpf c || fus c = true).
      { destruct Nc as [L|[P|U]]; [apply letter_alpha in L|apply fpf_ok in P|apply fus_ok in U]; rewrite ?L, ?P, ?U, ?orb_true_r; reflexivity. }
      rewrite E1. rewrite (Cn b); [reflexivity| |assumption].
      destruct (Ascii.eqb_spec "[" c); [subst; discriminate|]. destruct (Ascii.eqb_spec "]" c); [subst; discriminate|]. lia.
    + cbn -[ident_text]. rewrite (Cn (b + 1)); [reflexivity|cbn; lia|lia].
    + pose proof (C [] n eq_refl) as Cb. cbn in Cb. assert (b =? 0 = false) as -> by lia. cbn -[ident_text]. rewrite (Cn (b - 1)); [reflexivity|cbn; lia|lia].
Qed.

Lemma name_text_sound : forall r d x, name_text r = (d, x) -> r = d ++ x /\ (d <> [] -> word true d).
Proof.
  intros r d x H. unfold name_text in H. destruct (fpf (head r)) eqn:E0.
  - unfold num_text in H. set (f := take_while fpf r) in *. set (r1 := drop_while fpf r) in *.
    assert (Er : r = f ++ r1) by (symmetry; apply take_drop).
    assert (Ff : Forall pointdigit f) by (eapply Forall_impl; [|apply take_all]; intros c; apply fpf_ok).
    assert (Nf : f <> []) by (unfold f; destruct r as [|c q]; [discriminate E0|]; unfold head in E0; cbn in E0 |- *; rewrite E0; discriminate).
    assert (Fl : forall y, Forall (letter true) (take_while falpha y)) by (intros y; eapply Forall_impl; [|apply take_all]; exact letter_lax).
    destruct (fexp (head r1)) eqn:Ee.
    + pose proof (head_tl fexp r1 eq_refl Ee) as E1. set (r2 := tl r1) in *.
      set (sg := if fsign (head r2) then [head r2] else []) in *. set (r3 := if fsign (head r2) then tl r2 else r2) in *. set (r4 := drop_while fdigit r3) in *.
      injection H as <- <-. split.
      * rewrite Er, <- app_assoc. f_equal. rewrite E1 at 1. cbn [app]. f_equal.
        assert (E2 : r2 = sg ++ r3) by (unfold sg, r3; destruct (fsign (head r2)) eqn:Es; [exact (head_tl fsign r2 eq_refl Es)|reflexivity]).
        rewrite E2 at 1. rewrite <- !app_assoc. f_equal. rewrite <- (take_drop fdigit r3) at 1. f_equal. symmetry. apply take_drop.
      * intros _. right. exists f, (head r1 :: sg ++ take_while fdigit r3 ++ take_while falpha r4). split; [reflexivity|]. split; [exact Nf|]. split; [exact Ff|].
        right. exists (head r1), sg, (take_while fdigit r3), (take_while falpha r4). split; [reflexivity|]. split; [now apply fexp_ok|]. split.
        { unfold sg. destruct (fsign (head r2)) eqn:Es; [|now left]. right. eexists. split; [reflexivity|]. now apply fsign_ok. }
        split; [eapply Forall_impl; [|apply take_all]; intros c; apply fdigit_ok|]. split; [apply Fl|now left].
    + injection H as <- <-. split.
      * rewrite Er, <- app_assoc. f_equal. symmetry. apply take_drop.
      * intros _. right. exists f, (take_while falpha r1). split; [reflexivity|]. split; [exact Nf|]. split; [exact Ff|]. left. split; [apply Fl|].
        intros c q Ec I. apply fexp_ok in I. destruct r1 as [|k r1]; [discriminate Ec|]. cbn in Ec. destruct (falpha k); [|discriminate Ec].
        injection Ec as -> _. unfold head in Ee. cbn in Ee. congruence.
  - destruct (ident_text_sound r 0 d x ltac:(lia) H) as (-> & F & C). split; [reflexivity|]. intros N. left. split; [|split; [assumption|]].
    + destruct d as [|c d]; [now elim N|]. exists c, d. split; [reflexivity|]. intros P. apply fpf_ok in P. unfold head in E0. cbn in E0. congruence.
    + intros a q E. specialize (C a q E). lia.
Qed.
Lemma take_app_stop : forall f a r, Forall (fun c => f c = true) a -> f (head r) = false -> take_while f (a ++ r) = a /\ drop_while f (a ++ r) = r.
Proof. intros f a r H E. rewrite take_app, drop_app by assumption. rewrite take_stop, drop_idem by assumption. now rewrite app_nil_r. Qed.
Lemma pf_not_alpha : forall c, pointdigit c -> falpha c = false /\ isgraph c = true.
Proof. intros c H. cbn in H. repeat (destruct H as [<-|H]; [split; reflexivity|]). destruct H. Qed.
Lemma head_app : forall (a b : list ascii), a <> [] -> head (a ++ b) = head a.
Proof. intros [|c a] b H; [now elim H|reflexivity]. Qed.
Lemma name_text_complete : forall n r, word false n -> stops r -> name_text (n ++ r) = (n, r).
Proof.
  intros n r [I|Nm] S; unfold name_text.
  - destruct I as ((c & q & En & Np) & F & C). 
    assert (E0 : fpf (head (n ++ r)) = false).
    { rewrite En. unfold head. cbn. destruct (fpf c) eqn:E; [|reflexivity]. apply fpf_ok in E. contradiction. }
    rewrite E0. apply ident_text_complete; [lia|assumption| |assumption]. intros a q' Ea. specialize (C a q' Ea). lia.
  - destruct Nm as (f & g & -> & Nf & Ff & G). destruct S as (S1 & S2 & S3 & S4 & S5).
    assert (Ff' : Forall (fun c => fpf c = true) f) by (eapply Forall_impl; [|exact Ff]; intros c; apply fpf_ok).
    assert (E0 : fpf (head ((f ++ g) ++ r)) = true).
    { destruct f as [|c f]; [now elim Nf|]. inversion_clear Ff'. assumption. }
    rewrite E0. unfold num_text. rewrite <- app_assoc.
    assert (Al : forall l : list ascii, Forall (letter false) l -> Forall (fun c => falpha c = true) l) by (intros l H; eapply Forall_impl; [|exact H]; intros c; apply letter_alpha).
    assert (Hg : fpf (head (g ++ r)) = false).
    { destruct g as [|c g]; [exact S2|]. cbn. assert (L : letter false c \/ In c (str "eE")).
      { destruct G as [[G _]|(e & sg & ds & ls & Eg & Ie & _)]; [inversion_clear G; now left|injection Eg as -> _; now right]. }
      destruct (fpf c) eqn:E; [|reflexivity]. apply fpf_ok in E. exfalso. destruct (pf_not_alpha c E) as [N _].
      destruct L as [L|L]; [apply letter_alpha in L; congruence|]. cbn in L. destruct L as [<-|[<-|[]]]; discriminate N. }
    destruct (take_app_stop fpf f (g ++ r) Ff' Hg) as [-> ->].
    destruct G as [[G1 G2]|(e & sg & ds & ls & -> & Ie & Hs & Hd & Hl & Hne)].
    + assert (Ee : fexp (head (g ++ r)) = false).
      { destruct g as [|c g].
        - cbn [app]. destruct (fexp (head r)) eqn:E; [|reflexivity]. apply fexp_ok in E. exfalso. cbn in E. destruct E as [E|[E|[]]]; rewrite <- E in S1; discriminate S1.
        - cbn. destruct (fexp c) eqn:E; [|reflexivity]. apply fexp_ok in E. now elim (G2 c g eq_refl). }
      rewrite Ee. destruct (take_app_stop falpha g r (Al _ G1) S1) as [-> ->]. reflexivity.
    + assert (Ee : fexp (head ((e :: sg ++ ds ++ ls) ++ r)) = true) by (cbn; now apply fexp_ok).
      rewrite Ee. cbn [app tl]. change (head (e :: (sg ++ ds ++ ls) ++ r)) with e. rewrite <- !app_assoc.
      assert (Hd' : Forall (fun c => fdigit c = true) ds) by (eapply Forall_impl; [|exact Hd]; intros c; apply fdigit_ok).
      assert (Nd : fdigit (head (ls ++ r)) = false).
      { destruct ls as [|c ls]; cbn.
        - destruct (fdigit (head r)) eqn:E; [|reflexivity]. apply fdigit_ok in E. assert (pointdigit (head r)) as P by (right; exact E). apply fpf_ok in P. congruence.
        - inversion_clear Hl as [|? ? Lc _]. destruct (fdigit c) eqn:E; [|reflexivity]. apply fdigit_ok in E. assert (pointdigit c) as P by (right; exact E).
          apply pf_not_alpha in P. apply letter_alpha in Lc. destruct P. congruence. }
      assert (K : (if fsign (head (sg ++ ds ++ ls ++ r)) then [head (sg ++ ds ++ ls ++ r)] else []) = sg /\
        (if fsign (head (sg ++ ds ++ ls ++ r)) then tl (sg ++ ds ++ ls ++ r) else sg ++ ds ++ ls ++ r) = ds ++ ls ++ r).
      { destruct Hs as [->|(c & -> & Ic)].
        - cbn [app]. cbn [app] in Hne. assert (Ns : fsign (head (ds ++ ls ++ r)) = false).
          { destruct Hne as [D|Hne]; [discriminate D|]. rewrite app_assoc. rewrite head_app by assumption.
            destruct ds as [|c ds]; [destruct ls as [|c ls]; [now elim Hne|]|]; cbn; destruct (fsign c) eqn:E; try reflexivity; exfalso; apply fsign_ok in E.
            - inversion_clear Hl as [|? ? Lc _]. apply letter_alpha in Lc. cbn in E. destruct E as [<-|[<-|[]]]; discriminate Lc.
            - inversion_clear Hd as [|? ? Dc _]. apply fdigit_ok in Dc. cbn in E. destruct E as [<-|[<-|[]]]; discriminate Dc. }
          rewrite Ns. split; reflexivity.
        - apply fsign_ok in Ic. cbn. rewrite Ic. split; reflexivity. }
      destruct K as [-> ->]. destruct (take_app_stop fdigit ds (ls ++ r) Hd' Nd) as [-> ->]. destruct (take_app_stop falpha ls r (Al _ Hl) S1) as [-> ->].
      reflexivity.
Qed.

(* ---- strings ---- *)
Lemma fq_ok : forall c, fq c = true <-> In c [QUOTE; "\"%char].
Proof. intros c. unfold fq. rewrite orb_true_iff, !Ascii.eqb_eq. cbn. intuition congruence. Qed.
Lemma str_text_sound : forall r d x, str_text r = Some (d, x) -> r = d ++ QUOTE :: x /\ quotable d.
Proof.
  intros r. remember (List.length r) as n. assert (L : (List.length r <= n)%nat) by lia. clear Heqn. revert r L.
  induction n as [|n IH]; intros r L d x H; [destruct r; [discriminate H|cbn in L; lia]|].
  destruct r as [|c q]; [discriminate H|]. cbn [str_text] in H. cbn in L. destruct (Ascii.eqb_spec c "\") as [->|Nb].
  - destruct q as [|k q']; [discriminate H|]. cbn in L. destruct (fq k) eqn:Ek.
    + destruct (str_text q') as [[d0 y]|] eqn:E; [|discriminate H]. injection H as <- <-. destruct (IH q' ltac:(lia) _ _ E) as [-> Q]. split; [reflexivity|].
      cbn. apply q_esc; [now apply fq_ok|assumption].
    + destruct (str_text (k :: q')) as [[d0 y]|] eqn:E; [|discriminate H]. injection H as <- <-. destruct (IH (k :: q') ltac:(cbn; lia) _ _ E) as [Er Q].
      split; [cbn; now rewrite Er|]. cbn. destruct d0 as [|k' d0].
      * exfalso. injection Er as -> _. discriminate Ek.
      * injection Er as -> ->. apply q_bs; [rewrite <- fq_ok; congruence|assumption].
  - destruct (Ascii.eqb_spec c QUOTE) as [->|Nq]; [injection H as <- <-; split; [reflexivity|constructor]|].
    destruct (Ascii.eqb_spec c NUL) as [->|Nn]; [discriminate H|].
    destruct (str_text q) as [[d0 y]|] eqn:E; [|discriminate H]. injection H as <- <-. destruct (IH q ltac:(lia) _ _ E) as [-> Q]. split; [reflexivity|].
    cbn. apply q_char; [assumption|cbn; intuition congruence|assumption].
Qed.
Lemma str_text_complete : forall d, quotable d -> forall x, str_text (d ++ QUOTE :: x) = Some (d, x).
Proof.
  intros d H. induction H as [|c d Nn Nq H IH|c d Ic H IH|c d Nc H IH]; intros x; cbn [app].
  - reflexivity.
  - cbn [str_text]. destruct (Ascii.eqb_spec c "\") as [->|_]; [elim Nq; cbn; auto|]. destruct (Ascii.eqb_spec c QUOTE) as [->|_]; [elim Nq; cbn; auto|].
    destruct (Ascii.eqb_spec c NUL) as [->|_]; [contradiction|]. now rewrite IH.
  - cbn [str_text]. change (Ascii.eqb "\" "\") with true. cbv iota. apply fq_ok in Ic. rewrite Ic, IH. reflexivity.
  - specialize (IH x). cbn [app] in IH.
    assert (U : str_text ("\"%char :: c :: d ++ QUOTE :: x) =
      if fq c then match str_text (d ++ QUOTE :: x) with Some (d0, y) => Some (["\"%char; c] ++ d0, y) | None => None end
      else match str_text (c :: d ++ QUOTE :: x) with Some (d0, y) => Some (["\"%char] ++ d0, y) | None => None end) by reflexivity.
    rewrite U, IH. destruct (fq c) eqn:E; [apply fq_ok in E; contradiction|reflexivity].
Qed.

(* ---- operators ---- *)
Definition pat (k : nat) : list ascii :=
  match k with 0 => str "?" | 1 => str "\|\|" | 2 => str "&&" | 3 => str "<=|<|>=|>|==|!=" | 4 => str "+|-" | _ => str "*|/|%" end%nat.
Definition opm (k : nat) (r : list ascii) : option (list ascii * list ascii) :=
  match k with 0 => first_op [str "?"] r | 1 => oror r | 2 => first_op (ops 2) r | 3 => first_op (ops 3) r | 4 => first_op (ops 4) r | _ => first_op (ops 5) r end%nat.
Ltac opchars := repeat constructor; try (intros X; cbn in X; intuition discriminate); discriminate.
Lemma opm_vw : forall ci line k r s, vw line r s -> dropbl r = r ->
  exists s', oper ci (pat k) s = Some (option_map fst (opm k r), s') /\
    vw line (match opm k r with Some (_, x) => dropcom x | None => r end) s'.
Proof.
  intros ci line k r s V B.
  assert (A : forall ws, ws <> [] -> Forall (Forall opchar) ws -> exists s', oper ci (bars ws) s = Some (option_map fst (first_op ws r), s') /\
    vw line (match first_op ws r with Some (_, x) => dropcom x | None => r end) s').
  { intros ws N F. destruct (oper_vw ci line ws r s N F V B) as (s' & E & V' & _). now exists s'. }
  destruct k as [|[|[|[|[|k]]]]]; unfold pat, opm.
  - apply (A [str "?"]); [discriminate|opchars].
  - destruct (oror_vw ci line r s V B) as (s' & E & V' & _). now exists s'.
  - apply (A (ops 2)); [discriminate|opchars].
  - apply (A (ops 3)); [discriminate|opchars].
  - apply (A (ops 4)); [discriminate|opchars].
  - apply (A (ops 5)); [discriminate|opchars].
Qed.
Lemma oror_some : forall r o x, oror r = Some (o, x) -> r = o ++ x /\ opname true 1 o.
Proof.
  intros r o x H. rewrite <- ooo_ok in H. destruct r as [|a q]; [discriminate H|]. cbn [ooo] in H.
  destruct (Ascii.eqb_spec a "|") as [->|_].
  - destruct q as [|b q]; [discriminate H|]. destruct (Ascii.eqb_spec b "|") as [->|_]; [injection H as <- <-; split; [reflexivity|left; now left]|].
    destruct (Ascii.eqb_spec b "\") as [->|_]; [injection H as <- <-; split; [reflexivity|right; repeat split; right; now left]|discriminate H].
  - destruct (Ascii.eqb_spec a "\") as [->|_]; [injection H as <- <-; split; [reflexivity|right; repeat split; now left]|discriminate H].
Qed.
Lemma ops_ne : forall k o, opname true k o -> (1 <= List.length o)%nat.
Proof.
  intros k o [H|(_ & _ & H)].
  - destruct k as [|[|[|[|[|[|k]]]]]]; cbn in H; repeat (destruct H as [<-|H]; [cbn; lia|]); destruct H.
  - cbn in H. repeat (destruct H as [<-|H]; [cbn; lia|]); destruct H.
Qed.
Lemma opm_some : forall k r o x, (1 <= k <= 5)%nat -> opm k r = Some (o, x) -> r = o ++ x /\ opname true k o.
Proof.
  intros k r o x Hk H. destruct k as [|[|[|[|[|[|k]]]]]]; try lia; unfold opm in H.
  1: now apply oror_some.
  all: apply first_op_some in H; destruct H as [A B]; split; [exact B|left; exact A].
Qed.
Lemma dropcom_gap : forall x, exists b, gap true b /\ x = b ++ dropcom x /\ dropbl (dropcom x) = dropcom x.
Proof.
  intros x. unfold dropcom, eat1b. destruct (dropbl_split x) as (b1 & B1 & E1).
  assert (D : forall z, dropbl (dropbl z) = dropbl z) by (intros; apply dropbl_idem).
  destruct (dropbl x) as [|c q] eqn:Ey; [exists b1; split; [now left|]; split; [exact E1|reflexivity]|]. cbn [eat1]. destruct (fcomma c) eqn:Ec.
  - apply in_set_In' in Ec; [|nonul]. destruct Ec as [<-|[]]. destruct (dropbl_split q) as (b2 & B2 & E2).
    exists (b1 ++ ","%char :: b2). split; [right; split; [reflexivity|]; exists b1, b2; auto|]. split; [|apply D].
    rewrite E1 at 1. rewrite E2 at 1. rewrite <- app_assoc. reflexivity.
  - exists b1. split; [now left|]. rewrite <- Ey, D. split; [|apply D]. rewrite E1 at 1. now rewrite Ey.
Qed.
Lemma skip1b_one : forall line c r s, c <> NUL -> vw line r s ->
  exists s', skip1b [c] s = Some s' /\
   ((ok s' = true /\ exists q, dropbl r = c :: q /\ vw line (dropbl q) s') \/ (ok s' = false /\ head (dropbl r) <> c /\ vw line (dropbl r) s')).
Proof.
  intros line c r s N V. destruct (skip1b_vw _ _ _ [c] V) as (s' & E & V' & _ & O). exists s'. split; [exact E|].
  destruct (in_set [c] (head (dropbl r))) eqn:I.
  - left. split; [exact O|]. apply in_set_In' in I; [|cbn; intuition congruence]. destruct I as [I|[]].
    destruct (dropbl r) as [|k q] eqn:Ed; [now elim N|]. unfold head in I. cbn in I. subst k. exists q. split; [reflexivity|].
    unfold eat1b in V'. rewrite Ed in V'. cbn [eat1] in V'. replace (in_set [c] c) with true in V'; [exact V'|]. symmetry. apply in_set_In. split; [assumption|now left].
  - right. split; [exact O|]. split.
    + intros X. rewrite X in I. assert (in_set [c] c = true) by (apply in_set_In; split; [assumption|now left]). congruence.
    + unfold eat1b in V'. rewrite eat1_id in V' by assumption. now rewrite dropbl_idem in V'.
Qed.

(* ---- the sign of a factor; the other alternatives are not tried past leading blanks ---- *)
Definition uop (r : list ascii) : option (list ascii * list ascii) :=
  if fblank (head r) then first_op [str "-"] (dropbl r) else first_op signs r.
Lemma uop_vw : forall ci line r s, vw line r s ->
  exists s', oper ci (str "-|+|!") s = Some (option_map fst (uop r), s') /\ vw line (match uop r with Some (_, x) => dropcom x | None => r end) s'.
Proof.
  intros ci line r s V. unfold uop. destruct (fblank (head r)) eqn:B.
  - apply (oper_blank ci line (str "-") [str "+"; str "!"] r s); try assumption; try discriminate; try opchars.
  - destruct (oper_vw ci line signs r s) as (s' & E & V' & _); [discriminate|opchars|exact V|now apply drop_idem|]. now exists s'.
Qed.
Lemma uop_some : forall r o x, uop r = Some (o, x) -> exists b, blanks true b /\ r = b ++ o ++ x /\ In o signs /\ (fblank (head r) = false -> b = []).
Proof.
  intros r o x H. unfold uop in H. destruct (fblank (head r)) eqn:B.
  - apply first_op_some in H. destruct H as [[<-|[]] E]. destruct (dropbl_split r) as (b & Bb & Er). exists b. split; [exact Bb|]. split; [now rewrite <- E|].
    split; [now left|discriminate].
  - apply first_op_some in H. destruct H as [I E]. exists []. split; [constructor|]. split; [exact E|]. split; [exact I|reflexivity].
Qed.

(* ---- totality and soundness ---- *)
Definition rank (x : nt) : nat :=
  match x with
  | Nternary => 9 | Nexpression => 8 | Nandarg => 7 | Nlogical => 6 | Naddexp => 5 | Nterm => 4 | Nfactor => 3 | Nleaf => 2
  | _ => 1
  end%nat.
Definition tail_ok (k k' : nat) (t : list ascii) (D : list ptok) : Prop :=
  forall t0 e0, writes true k t0 e0 -> exists e, post e0 ++ D = post e /\ writes true k' (t0 ++ t) e.
Definition oper_ok (k : nat) (t : list ascii) (D : list ptok) : Prop := exists e, D = post e /\ writes true k t e /\ (1 <= List.length t)%nat.
Definition pre (x : nt) (r : list ascii) (E : list ptok) : Prop :=
  match x with
  | Nternary | Nexpression | Nandarg | Nlogical | Naddexp | Nterm | Nfactor => True
  | Nexptail => dropbl r = r /\ E <> []
  | _ => dropbl r = r
  end.
Definition meets (x : nt) (s' : cs) (t : list ascii) (D : list ptok) : Prop :=
  match x with
  | Narglisttail => exists es, D = flat_map post es /\ forall t0 e0, writes true 0 t0 e0 -> lists true (t0 ++ t) (e0 :: es)
  | Narglist => (t = [] /\ D = []) \/ exists b2 t1 b3 es, blanks true b2 /\ blanks true b3 /\ t = "("%char :: b2 ++ t1 ++ ")"%char :: b3 /\ lists true t1 es /\
      D = KStop (str "(") :: flat_map post es ++ [KPar (str ")")]
  | Narray => (ok s' = false /\ t = [] /\ D = []) \/ (ok s' = true /\ oper_ok 7 t D)
  | Nleaf => oper_ok 7 t D
  | Nfactor => oper_ok 6 t D
  | Nternary => exists t1 b t2 e1 e2, t = t1 ++ ":"%char :: b ++ t2 /\ blanks true b /\ writes true 0 t1 e1 /\ writes true 0 t2 e2 /\ D = [KTern (post e1) (post e2)]
  | Ntermtail => tail_ok 5 5 t D
  | Nterm => oper_ok 5 t D
  | Naddexptail => tail_ok 4 4 t D
  | Naddexp => oper_ok 4 t D
  | Nlogicaltail => tail_ok 3 3 t D
  | Nlogical => oper_ok 3 t D
  | Nandtail => tail_ok 2 2 t D
  | Nandarg => oper_ok 2 t D
  | Nexptail => tail_ok 1 0 t D
  | Nexpression => oper_ok 0 t D
  end.
Definition outcome (x : nt) (line r : list ascii) (E : list ptok) (res : pr (cs * list ptok)) : Prop :=
  res = Bad \/ exists s' r' t D, res = Good (s', E ++ D) /\ vw line r' s' /\ r = t ++ r' /\ dropbl r' = r' /\ meets x s' t D.

Lemma post_ne : forall e, post e <> [].
Proof.
  intros [n|d|n a|l|o e|o a b|c t f]; cbn; try discriminate.
  - intros H. apply app_eq_nil in H. now destruct H.
  - intros H. apply app_eq_nil in H. destruct H as [_ H]. apply app_eq_nil in H. now destruct H.
  - intros H. apply app_eq_nil in H. now destruct H.
Qed.

Lemma unq_enclosed : forall bq eq, bq <> "\"%char -> eq <> "\"%char -> forall n r k, (List.length r <= n)%nat -> (1 <= k)%nat ->
  exists a, r = a ++ snd (unq bq eq (Z.of_nat k) r) /\ enclosed bq eq k a (fst (unq bq eq (Z.of_nat k) r)).
Proof.
  intros bq eq Nb Ne. induction n as [|n IH]; intros [|c q] k L Hk; try (cbn in L; lia); try (exists []; split; [reflexivity|apply e_end]).
  cbn [unq]. cbn in L. destruct (Ascii.eqb c NUL); [exists []; split; [reflexivity|apply e_end]|].
  destruct (Ascii.eqb_spec c eq) as [->|Nc].
  { destruct (Z.leb_spec (Z.of_nat k - 1) 0); [exists [eq]; split; [reflexivity|]; replace k with 1%nat by lia; apply e_close|].
    destruct k as [|k]; [lia|]. assert (Hk' : (1 <= k)%nat) by lia. destruct (IH q k ltac:(lia) Hk') as (a & Eq & H1). replace (Z.of_nat (S k) - 1) with (Z.of_nat k) by lia.
    destruct (unq bq eq (Z.of_nat k) q) as [d x]. cbn in *. exists (eq :: a). split; [cbn; now f_equal|apply e_out; [exact Hk'|exact H1]]. }
  destruct (Ascii.eqb_spec c bq) as [->|Nc2].
  { destruct (IH q (S k) ltac:(lia) ltac:(lia)) as (a & Eq & H1). replace (Z.of_nat k + 1) with (Z.of_nat (S k)) by lia.
    destruct (unq bq eq (Z.of_nat (S k)) q) as [d x]. cbn in *. exists (bq :: a). split; [cbn; now f_equal|now apply e_in]. }
  destruct (Ascii.eqb_spec c "\") as [->|Nc3].
  - destruct q as [|e q']; [exists ["\"%char]; split; [reflexivity|]; apply e_bs; [discriminate|apply e_end]|].
    destruct (Ascii.eqb_spec e eq) as [->|N4].
    + destruct (IH q' k ltac:(cbn in L; lia) Hk) as (a & Eq & H1). destruct (unq bq eq (Z.of_nat k) q') as [d x]. cbn in *.
      exists ("\"%char :: eq :: a). split; [cbn; now do 2 f_equal|now apply e_esc].
    + destruct (IH (e :: q') k ltac:(cbn in *; lia) Hk) as (a & Eq & H1). exists ("\"%char :: a). split; [cbn [app]; now f_equal|].
      apply e_bs; [|exact H1]. intros y ->. cbn [app] in Eq. now injection Eq.
  - destruct (IH q k ltac:(lia) Hk) as (a & Eq & H1). destruct (unq bq eq (Z.of_nat k) q) as [d x]. cbn in *.
    exists (c :: a). split; [cbn; now f_equal|]. apply e_char; [|exact H1]. cbn. intuition congruence.
Qed.

Section Sound.
Variable ci : bool.
Variable line : list ascii.

Ltac res H := destruct H as [->|(?s & ?r & ?t & ?D & -> & ?V & ?Er & ?Br & ?M)]; [left; reflexivity|]; cbn [pbind].

Lemma tail_step : forall k x operand, (1 <= k <= 5)%nat ->
  (forall t D, meets x (cs_string []) t D = tail_ok k k t D) ->
  (forall s' t D, meets x s' t D = tail_ok k k t D) ->
  (forall s' t D, meets operand s' t D = oper_ok (S k) t D) ->
  (forall r E, pre operand r E = True) -> (forall r E, pre x r E = (dropbl r = r)) ->
  (rank x = 1)%nat ->
  forall n, (forall y r s E, vw line r s -> pre y r E -> (16 * List.length r + rank y < n)%nat -> outcome y line r E (go ci n y s E)) ->
  (forall s E, go ci (S n) x s E = 
      do (o, s) <- lift (oper ci (pat k) s);
      match o with
      | Some name =>
          do (s, E) <- go ci n operand s E;
          go ci n x s (E ++ [KBin name])
      | None => Good (s, E)
      end) ->
  forall r s E, vw line r s -> dropbl r = r -> (16 * List.length r + 1 < S n)%nat -> outcome x line r E (go ci (S n) x s E).
Proof.
  intros k x operand Hk _ Mx Mo Po Px Rx n IH Eq r s E V B Hn. rewrite Eq.
  destruct (opm_vw ci line k r s V B) as (s1 & E1 & V1). rewrite E1. cbn [lift pbind].
  destruct (opm k r) as [[o x0]|] eqn:Eo; cbn [option_map fst].
  2:{ right. exists s1, r, [], []. rewrite app_nil_r. split; [reflexivity|]. split; [exact V1|]. split; [reflexivity|]. split; [exact B|].
      rewrite Mx. intros t0 e0 W0. exists e0. rewrite !app_nil_r. auto. }
  destruct (opm_some k r o x0 Hk Eo) as [Er No]. destruct (dropcom_gap x0) as (b & Gb & Ex & Bx).
  pose proof (ops_ne _ _ No) as Lo.
  assert (Lr : (List.length (dropcom x0) < List.length r)%nat) by (rewrite Er; rewrite Ex at 2; rewrite !app_length; lia).
  assert (Rk : (rank operand <= 9)%nat) by (destruct operand; cbn; lia).
  pose proof (IH operand (dropcom x0) s1 E V1 ltac:(now rewrite Po) ltac:(lia)) as H.
  destruct H as [->|(s2 & r2 & t2 & D2 & -> & V2 & Er2 & Br2 & M2)]; [now left|]. cbn [pbind].
  rewrite Mo in M2. destruct M2 as (e2 & -> & W2 & L2).
  assert (L2' : (List.length r2 < List.length r)%nat) by (rewrite Er2, app_length in Lr; lia).
  pose proof (IH x r2 s2 ((E ++ post e2) ++ [KBin o]) V2 ltac:(now rewrite Px) ltac:(lia)) as H.
  destruct H as [->|(s3 & r3 & t3 & D3 & -> & V3 & Er3 & Br3 & M3)]; [now left|]. rewrite Mx in M3.
  right. exists s3, r3, (o ++ b ++ t2 ++ t3), (post e2 ++ [KBin o] ++ D3). split; [now rewrite <- !app_assoc|]. split; [exact V3|].
  split; [rewrite Er, Ex, Er2, Er3; now rewrite <- !app_assoc|]. split; [exact Br3|]. rewrite Mx.
  intros t0 e0 W0. destruct (M3 (t0 ++ o ++ b ++ t2) (Bin o e0 e2)) as (e & Ee & We); [now apply w_bin|].
  exists e. split; [rewrite <- Ee; cbn [post]; now rewrite <- !app_assoc|]. rewrite <- !app_assoc in We. exact We.
Qed.

Lemma seq_step : forall x operand tail k k1 k', 
  (forall s' t D, meets x s' t D = oper_ok k' t D) -> (forall s' t D, meets operand s' t D = oper_ok k t D) -> (forall s' t D, meets tail s' t D = tail_ok k1 k' t D) ->
  (forall t e, writes true k t e -> writes true k1 t e) ->
  (forall r E, pre operand r E = True) -> (forall r E, E <> [] -> dropbl r = r -> pre tail r E) -> (S (rank operand) = rank x)%nat -> (rank tail = 1)%nat -> (2 <= rank x)%nat ->
  forall n, (forall y r s E, vw line r s -> pre y r E -> (16 * List.length r + rank y < n)%nat -> outcome y line r E (go ci n y s E)) ->
  (forall s E, go ci (S n) x s E = do (s, E) <- go ci n operand s E; go ci n tail s E) ->
  forall r s E, vw line r s -> (16 * List.length r + rank x < S n)%nat -> outcome x line r E (go ci (S n) x s E).
Proof.
  intros x operand tail k k1 k' Mx Mo Mt Up Po Pt Rx Rt R2 n IH Eq r s E V Hn. rewrite Eq.
  pose proof (IH operand r s E V ltac:(now rewrite Po) ltac:(lia)) as H.
  destruct H as [->|(s2 & r2 & t2 & D2 & -> & V2 & Er2 & Br2 & M2)]; [now left|]. cbn [pbind].
  rewrite Mo in M2. destruct M2 as (e2 & -> & W2 & L2).
  assert (L2' : (List.length r2 < List.length r)%nat) by (rewrite Er2, app_length; lia).
  assert (Ne : E ++ post e2 <> []) by (intros X; apply app_eq_nil in X; now elim (post_ne e2)).
  pose proof (IH tail r2 s2 (E ++ post e2) V2 ltac:(now apply Pt) ltac:(lia)) as H.
  destruct H as [->|(s3 & r3 & t3 & D3 & -> & V3 & Er3 & Br3 & M3)]; [now left|]. rewrite Mt in M3.
  destruct (M3 t2 e2 (Up _ _ W2)) as (e & Ee & We). right. exists s3, r3, (t2 ++ t3), (post e2 ++ D3). split; [now rewrite app_assoc|]. split; [exact V3|].
  split; [rewrite Er2, Er3; now rewrite app_assoc|]. split; [exact Br3|]. rewrite Mx. exists e. split; [exact Ee|]. split; [exact We|]. rewrite app_length. lia.
Qed.

(* between "(" and ")", or "'{" and "}": nothing, or a list *)
Lemma list_step : forall c n, c <> NUL ->
  (forall y r s E, vw line r s -> pre y r E -> (16 * List.length r + rank y < n)%nat -> outcome y line r E (go ci n y s E)) ->
  forall r s E (K : cs -> list ptok -> pr (cs * list ptok)), vw line r s -> dropbl r = r -> (16 * List.length r + 9 < n)%nat ->
  (do s <- lift (skip1b [c] s);
   if ok s then K s E
   else
     do (s, E) <- go ci n Nexpression s E;
     do (s, E) <- go ci n Narglisttail s E;
     do s <- lift (skip1b [c] s);
     if ok s then K s E else Bad) = Bad \/
  exists s' r' t b es, blanks true b /\ lists true t es /\ r = t ++ c :: b ++ r' /\ vw line r' s' /\ dropbl r' = r' /\ ok s' = true /\
  (do s <- lift (skip1b [c] s);
   if ok s then K s E
   else
     do (s, E) <- go ci n Nexpression s E;
     do (s, E) <- go ci n Narglisttail s E;
     do s <- lift (skip1b [c] s);
     if ok s then K s E else Bad) = K s' (E ++ flat_map post es).
Proof.
  intros c n Nc IH r s E K V B Hn. destruct (skip1b_one line c r s Nc V) as (s1 & E1 & H1). rewrite E1. cbn [lift pbind].
  destruct H1 as [(O1 & q & Eq & V1)|(O1 & Hh & V1)]; rewrite O1; rewrite B in *.
  - right. destruct (dropbl_split q) as (b & Bb & Eb). exists s1, (dropbl q), [], b, []. split; [exact Bb|]. split; [constructor|]. split; [rewrite Eq; cbn; now rewrite <- Eb|].
    split; [exact V1|]. split; [apply dropbl_idem|]. split; [exact O1|]. cbn. now rewrite app_nil_r.
  - pose proof (IH Nexpression r s1 E V1 I ltac:(cbn; lia)) as H.
    destruct H as [->|(s2 & r2 & t2 & D2 & -> & V2 & Er2 & Br2 & M2)]; [now left|]. cbn [pbind]. destruct M2 as (e2 & -> & W2 & L2).
    assert (L2' : (List.length r2 < List.length r)%nat) by (rewrite Er2, app_length; lia).
    pose proof (IH Narglisttail r2 s2 (E ++ post e2) V2 Br2 ltac:(cbn; lia)) as H.
    destruct H as [->|(s3 & r3 & t3 & D3 & -> & V3 & Er3 & Br3 & M3)]; [now left|]. cbn [pbind]. destruct M3 as (es & -> & M3).
    destruct (skip1b_one line c r3 s3 Nc V3) as (s4 & E4 & H4). rewrite E4. cbn [lift pbind].
    destruct H4 as [(O4 & q & Eq & V4)|(O4 & _ & V4)]; rewrite O4; rewrite ?Br3 in *; [|now left].
    right. destruct (dropbl_split q) as (b & Bb & Eb). exists s4, (dropbl q), (t2 ++ t3), b, (e2 :: es).
    split; [exact Bb|]. split; [now apply M3|]. split; [rewrite Er2, Er3, Eq; rewrite <- app_assoc; now rewrite <- Eb|].
    split; [exact V4|]. split; [apply dropbl_idem|]. split; [exact O4|]. cbn [flat_map]. now rewrite app_assoc.
Qed.

Theorem sound : forall n x r s E, vw line r s -> pre x r E -> (16 * List.length r + rank x < n)%nat -> outcome x line r E (go ci n x s E).
Proof.
  induction n as [|n IH]; intros x r s E V P Hn; [lia|]. destruct x; cbn [pre] in P.
  - (* arglisttail *)
    cbn [go]. destruct (skip1b_one line "," r s ltac:(discriminate) V) as (s1 & E1 & H1). change (str ",") with [","%char]. rewrite E1. cbn [lift pbind]. rewrite P in H1.
    destruct H1 as [(O1 & q & Eq & V1)|(O1 & Hh & V1)]; rewrite O1.
    2:{ right. exists s1, r, [], []. rewrite app_nil_r. split; [reflexivity|]. split; [exact V1|]. split; [reflexivity|]. split; [exact P|]. exists []. split; [reflexivity|].
        intros t0 e0 W. rewrite app_nil_r. now apply l_one. }
    assert (Lq : (List.length (dropbl q) < List.length r)%nat) by (rewrite Eq; pose proof (drop_len fblank q); cbn; unfold dropbl; lia).
    cbn in Hn. pose proof (IH Nexpression (dropbl q) s1 E V1 I ltac:(cbn; lia)) as H.
    destruct H as [->|(s2 & r2 & t2 & D2 & -> & V2 & Er2 & Br2 & M2)]; [now left|]. cbn [pbind]. destruct M2 as (e2 & -> & W2 & L2).
    assert (L2' : (List.length r2 < List.length r)%nat) by (rewrite Er2, app_length in Lq; lia).
    pose proof (IH Narglisttail r2 s2 (E ++ post e2) V2 Br2 ltac:(cbn; lia)) as H.
    destruct H as [->|(s3 & r3 & t3 & D3 & -> & V3 & Er3 & Br3 & M3)]; [now left|]. destruct M3 as (es & -> & M3).
    destruct (dropbl_split q) as (b & Bb & Eb).
    right. exists s3, r3, (","%char :: b ++ t2 ++ t3), (post e2 ++ flat_map post es). split; [now rewrite app_assoc|]. split; [exact V3|].
    split; [rewrite Eq, Eb, Er2, Er3; cbn; now rewrite <- !app_assoc|]. split; [exact Br3|]. exists (e2 :: es). split; [reflexivity|].
    intros t0 e0 W0. apply l_cons; [assumption|assumption|discriminate|]. now apply M3.
  - (* arglist *)
    cbn [go]. change (str "(") with ["("%char] at 1. destruct (skip1b_one line "(" r s ltac:(discriminate) V) as (s1 & E1 & H1). rewrite E1. cbn [lift pbind]. rewrite P in H1.
    destruct H1 as [(O1 & q & Eq & V1)|(O1 & Hh & V1)]; rewrite O1.
    2:{ right. exists s1, r, [], []. rewrite app_nil_r. split; [reflexivity|]. split; [exact V1|]. split; [reflexivity|]. split; [exact P|]. left. now split. }
    assert (Lq : (List.length (dropbl q) < List.length r)%nat) by (rewrite Eq; pose proof (drop_len fblank q); cbn; unfold dropbl; lia).
    cbn in Hn. destruct (list_step ")" n ltac:(discriminate) IH (dropbl q) s1 (E ++ [KStop (str "(")]) (fun s E => Good (s, E ++ [KPar (str ")")])) V1 (dropbl_idem q) ltac:(lia))
      as [H|(s2 & r2 & t2 & b & es & Bb & Lt & Er2 & V2 & Br2 & O2 & H)]; change (str ")") with [")"%char] in *; rewrite H; [now left|].
    destruct (dropbl_split q) as (b2 & Bb2 & Eb2).
    right. exists s2, r2, ("("%char :: b2 ++ t2 ++ ")"%char :: b), (KStop (str "(") :: flat_map post es ++ [KPar (str ")")]).
    split; [now rewrite <- !app_assoc|]. split; [exact V2|]. split; [rewrite Eq, Eb2, Er2; cbn; rewrite <- !app_assoc; cbn; reflexivity|].
    split; [exact Br2|]. right. exists b2, t2, b, es. auto.
  - (* array *)
    cbn [go]. change (str "'") with ["'"%char] at 1. destruct (skip1b_one line "'" r s ltac:(discriminate) V) as (s1 & E1 & H1). rewrite E1. cbn [lift pbind]. rewrite P in H1.
    assert (Fail : forall r1 sA, vw line r1 sA -> outcome Narray line r E (Good (reset_fail (cnt s) sA, E))).
    { intros r1 sA VA. right. exists (reset_fail (cnt s) sA), r, [], []. rewrite app_nil_r. split; [reflexivity|]. split; [exact (vw_reset_fail _ _ _ _ _ V VA)|].
      split; [reflexivity|]. split; [exact P|]. left. split; [reflexivity|]. now split. }
    destruct H1 as [(O1 & q & Eq & V1)|(O1 & Hh & V1)]; rewrite (peek_vw _ _ _ V1), O1; cbn [lift pbind andb]; [|now apply (Fail r)].
    destruct (Ascii.eqb_spec (head (dropbl q)) "{") as [Eh|_]; [|now apply (Fail (dropbl q))].
    destruct (dropbl q) as [|k q1] eqn:Eq1; [discriminate Eh|]. unfold head in Eh. cbn in Eh. subst k. destruct (skip_vw _ _ _ _ V1) as [V2 O2].
    destruct (skipbl_vw _ _ _ V2) as (s2 & E2 & V2' & _).
    assert (Lq : (List.length q1 + 1 < List.length r)%nat).
    { rewrite Eq. pose proof (drop_len fblank q) as X. change (drop_while fblank q) with (dropbl q) in X. rewrite Eq1 in X. cbn in *. lia. }
    (* skip1b skips the blanks that come first *)
    cbn in Hn.
    assert (Sk : skip1b ["}"%char] (skip s1) = skip1b ["}"%char] s2).
    { unfold skip1b. rewrite E2. cbn [bind]. destruct (skipbl_vw _ _ _ V2') as (s3 & E3 & _ & F3 & _). rewrite E3. cbn [bind].
      rewrite (F3 (dropbl_head q1)). reflexivity. }
    change (str "}") with ["}"%char] in *. rewrite Sk.
    destruct (list_step "}" n ltac:(discriminate) IH (dropbl q1) s2 (E ++ [KStop (str "'{")]) (fun s E => Good (s, E ++ [KArr ["}"%char]])) V2' (dropbl_idem q1))
      as [H|(s3 & r2 & t2 & b & es & Bb & Lt & Er2 & V3 & Br2 & O3 & H)]; [pose proof (drop_len fblank q1); unfold dropbl; lia| |]; rewrite H; [now left|].
    destruct (dropbl_split q) as (b1 & Bb1 & Eb1). destruct (dropbl_split q1) as (b2 & Bb2 & Eb2).
    right. exists s3, r2, ("'"%char :: b1 ++ "{"%char :: b2 ++ t2 ++ "}"%char :: b), (post (Arr es)).
    split; [cbn; now rewrite <- !app_assoc|]. split; [exact V3|]. split.
    { rewrite Eq, Eb1, Eq1, Eb2, Er2. cbn. rewrite <- !app_assoc. cbn. rewrite <- !app_assoc. cbn. reflexivity. }
    split; [exact Br2|]. right. split; [exact O3|]. exists (Arr es). split; [reflexivity|]. split; [now apply w_arr|cbn; lia].
  - (* leaf *)
    cbn [go]. rewrite (peek_vw _ _ _ V). cbn [lift pbind]. destruct (Ascii.eqb_spec (head r) QUOTE) as [Eh|Nq].
    + destruct r as [|c q]; [discriminate Eh|]. unfold head in Eh. cbn in Eh. subst c.
      destruct (string_parse_vw line q s V) as (d & s1 & r1 & E1 & V1 & H1). rewrite E1. cbn [lift pbind].
      destruct (str_text q) as [[x y]|] eqn:Es.
      * destruct H1 as [-> ->]. destruct (str_text_sound _ _ _ Es) as [Eq Qx]. destruct (dropbl_split y) as (b & Bb & Eb).
        assert (Lt : cnt s <? cnt s1 = true).
        { rewrite (vw_cnt _ _ _ V), (vw_cnt _ _ _ V1). pose proof (drop_len fblank y) as X. change (drop_while fblank y) with (dropbl y) in X.
          cbn [List.length]. rewrite Eq, app_length. cbn [List.length]. lia. }
        rewrite Lt. right. exists s1, (dropbl y), (QUOTE :: x ++ QUOTE :: b), [KStr x]. split; [reflexivity|]. split; [exact V1|].
        split; [rewrite Eq; rewrite Eb at 1; cbn; rewrite <- app_assoc; reflexivity|]. split; [apply dropbl_idem|].
        exists (Str x). split; [reflexivity|]. split; [now apply w_str|cbn; lia].
      * subst r1. assert (Lt : cnt s <? cnt s1 = false) by (rewrite (vw_cnt _ _ _ V), (vw_cnt _ _ _ V1); lia). rewrite Lt. now left.
    + destruct (Ascii.eqb_spec (head r) "<") as [Eh|Na].
      * destruct r as [|c q]; [discriminate Eh|]. unfold head in Eh. cbn in Eh. subst c.
        destruct (angle_vw line q s V) as (s1 & E1 & V1). rewrite E1. cbn [lift pbind].
        destruct (unq_enclosed "<" ">" ltac:(discriminate) ltac:(discriminate) (List.length q) q 1 ltac:(lia) ltac:(lia)) as (a & Eq & En).
        change (Z.of_nat 1) with 1 in *. destruct (unq "<" ">" 1 q) as [d x]. cbn [fst snd] in *. destruct (dropcom_gap x) as (b & Gb & Ex & Bx).
        right. exists s1, (dropcom x), ("<"%char :: a ++ b), (post (Leaf (str "<" ++ d ++ str ">"))). split; [reflexivity|]. split; [exact V1|].
        split; [cbn [app]; f_equal; rewrite Eq; rewrite Ex at 1; apply app_assoc|]. split; [exact Bx|].
        exists (Leaf (str "<" ++ d ++ str ">")). split; [reflexivity|]. split; [now apply w_angle|cbn; lia].
      * cbn in Hn. pose proof (IH Narray r s E V P ltac:(cbn; lia)) as H.
        destruct H as [->|(s2 & r2 & t2 & D2 & -> & V2 & Er2 & Br2 & M2)]; [now left|]. cbn [pbind].
        destruct M2 as [(O2 & -> & ->)|(O2 & M2)]; rewrite O2.
        2:{ right. exists s2, r2, t2, D2. auto. }
        cbn in Er2. subst r2. rewrite app_nil_r. destruct (name_parse_vw line r s2 P V2) as (s3 & E3 & V3). rewrite E3. cbn [lift pbind].
        destruct (name_text r) as [d y] eqn:Et. cbn [fst snd] in *. destruct (name_text_sound _ _ _ Et) as [Er Wd].
        destruct (dropbl_split y) as (b & Bb & Eb). destruct d as [|c d].
        { cbn in Er. subst y. rewrite P in V3. assert (Lt : cnt s <? cnt s3 = false) by (rewrite (vw_cnt _ _ _ V), (vw_cnt _ _ _ V3); lia). rewrite Lt. now left. }
        specialize (Wd ltac:(discriminate)). assert (Ly : (List.length (dropbl y) < List.length r)%nat).
        { rewrite Er, app_length. pose proof (drop_len fblank y). unfold dropbl. cbn. lia. }
        assert (Lt : cnt s <? cnt s3 = true) by (rewrite (vw_cnt _ _ _ V), (vw_cnt _ _ _ V3); pose proof (vw_le _ _ _ V); lia). rewrite Lt.
        pose proof (IH Narglist (dropbl y) s3 E V3 (dropbl_idem y) ltac:(cbn; lia)) as H.
        destruct H as [->|(s4 & r4 & t4 & D4 & -> & V4 & Er4 & Br4 & M4)]; [now left|]. cbn [pbind].
        right. exists s4, r4, ((c :: d) ++ b ++ t4), (D4 ++ [KSym (c :: d)]). split; [now rewrite app_assoc|]. split; [exact V4|].
        split; [rewrite Er; rewrite Eb at 1; rewrite Er4; now rewrite <- !app_assoc|]. split; [exact Br4|].
        destruct M4 as [[-> ->]|(b2 & t1 & b3 & es & Bb2 & Bb3 & -> & Ls & ->)].
        -- exists (Leaf (c :: d)). split; [reflexivity|]. rewrite app_nil_r. split; [now apply w_leaf|cbn; lia].
        -- exists (Call (c :: d) es). split; [cbn; now rewrite <- app_assoc|]. split; [now apply w_call|cbn; lia].
  - (* factor *)
    cbn [go]. destruct (uop_vw ci line r s V) as (s1 & E1 & V1). rewrite E1. cbn [lift pbind]. cbn in Hn.
    set (r1 := match uop r with Some (_, x) => dropcom x | None => r end) in *.
    assert (K : forall z, r1 = z -> (List.length z <= List.length r)%nat).
    { intros z <-. unfold r1. destruct (uop r) as [[o x]|] eqn:Eu; [|lia]. destruct (uop_some _ _ _ Eu) as (b & _ & -> & _).
      destruct (dropcom_gap x) as (b1 & _ & Ex & _). rewrite Ex at 2. rewrite !app_length. lia. }
    specialize (K r1 eq_refl).
    assert (Prim : (do s <- lift (skip1b (str "(") s1);
        do (s, E) <- (if ok s then do (s, E) <- go ci n Nexpression s E; do s <- lift (skip1b (str ")") s); if ok s then Good (s, E) else Bad else go ci n Nleaf s E);
        Good (s, match option_map fst (uop r) with Some name => E ++ [KUn name] | None => E end)) = Bad \/
      exists s' r' b t e, (do s <- lift (skip1b (str "(") s1);
        do (s, E) <- (if ok s then do (s, E) <- go ci n Nexpression s E; do s <- lift (skip1b (str ")") s); if ok s then Good (s, E) else Bad else go ci n Nleaf s E);
        Good (s, match option_map fst (uop r) with Some name => E ++ [KUn name] | None => E end)) = 
          Good (s', match option_map fst (uop r) with Some name => (E ++ post e) ++ [KUn name] | None => E ++ post e end) /\
        vw line r' s' /\ r1 = b ++ t ++ r' /\ blanks true b /\ dropbl r' = r' /\ writes true 7 t e /\ (1 <= List.length t)%nat /\ (dropbl r1 = r1 -> b = [])).
    { change (str "(") with ["("%char]. change (str ")") with [")"%char].
      destruct (skip1b_one line "(" r1 s1 ltac:(discriminate) V1) as (s2 & E2 & H2). rewrite E2. cbn [lift pbind].
      destruct (dropbl_split r1) as (b & Bb & Eb).
      assert (Nb : dropbl r1 = r1 -> b = []) by (intros X; rewrite X in Eb; destruct b as [|c b]; [reflexivity|]; apply (f_equal (@List.length ascii)) in Eb; rewrite app_length in Eb; cbn in Eb; lia).
      assert (Ld : (List.length (dropbl r1) <= List.length r1)%nat) by apply drop_len.
      destruct H2 as [(O2 & q & Eq & V2)|(O2 & Hh & V2)]; rewrite O2.
      - assert (Lq : (List.length (dropbl q) < List.length r1)%nat) by (pose proof (drop_len fblank q); rewrite Eq in Ld; cbn in Ld; unfold dropbl; lia).
        pose proof (IH Nexpression (dropbl q) s2 E V2 I ltac:(cbn; lia)) as H.
        destruct H as [->|(s3 & r3 & t3 & D3 & -> & V3 & Er3 & Br3 & M3)]; [now left|]. cbn [pbind]. destruct M3 as (e3 & -> & W3 & L3).
        destruct (skip1b_one line ")" r3 s3 ltac:(discriminate) V3) as (s4 & E4 & H4). rewrite E4. cbn [lift pbind].
        destruct H4 as [(O4 & q4 & Eq4 & V4)|(O4 & _ & V4)]; rewrite O4; rewrite Br3 in *; [|now left]. cbn [pbind].
        right. destruct (dropbl_split q) as (b2 & Bb2 & Eb2). destruct (dropbl_split q4) as (b4 & Bb4 & Eb4).
        exists s4, (dropbl q4), b, ("("%char :: b2 ++ t3 ++ ")"%char :: b4), e3. split; [reflexivity|]. split; [exact V4|]. split.
        { rewrite Eb at 1. rewrite Eq, Eb2, Er3, Eq4. f_equal. cbn. rewrite <- !app_assoc. cbn. now rewrite <- Eb4. }
        split; [exact Bb|]. split; [apply dropbl_idem|]. split; [now apply w_paren|]. split; [cbn; lia|exact Nb].
      - pose proof (IH Nleaf (dropbl r1) s2 E V2 (dropbl_idem r1) ltac:(cbn; lia)) as H.
        destruct H as [->|(s3 & r3 & t3 & D3 & -> & V3 & Er3 & Br3 & M3)]; [now left|]. cbn [pbind]. destruct M3 as (e3 & -> & W3 & L3).
        right. exists s3, r3, b, t3, e3. split; [reflexivity|]. split; [exact V3|]. split; [rewrite Eb at 1; now rewrite Er3|]. auto 8. }
    destruct Prim as [->|(s' & r' & b & t & e & -> & V' & Er1 & Bb & Br' & W & Lt & Nb)]; [now left|]. subst r1.
    destruct (uop r) as [[o x]|] eqn:Eu; cbn [option_map fst].
    + destruct (uop_some _ _ _ Eu) as (b0 & Bb0 & Er & Io & _). destruct (dropcom_gap x) as (b1 & Gb1 & Ex & Bx).
      rewrite (Nb Bx) in Er1. cbn in Er1.
      right. exists s', r', (b0 ++ o ++ b1 ++ t), (post (Un o e)). split; [cbn; now rewrite <- app_assoc|]. split; [exact V'|].
      split; [rewrite Er, Ex, Er1; now rewrite <- !app_assoc|]. split; [exact Br'|]. exists (Un o e). split; [reflexivity|].
      split; [apply w_lead; [reflexivity|assumption|]; now apply w_sign|]. rewrite !app_length. lia.
    + right. exists s', r', (b ++ t), (post e). split; [reflexivity|]. split; [exact V'|]. split; [rewrite Er1 at 1; now rewrite app_assoc|]. split; [exact Br'|].
      exists e. split; [reflexivity|]. split; [apply w_lead; [reflexivity|assumption|]; now apply w_up|]. rewrite app_length. lia.
  - (* ternary *)
    cbn [go]. cbn in Hn. pose proof (IH Nexpression r s [] V I ltac:(cbn; lia)) as H.
    destruct H as [->|(s2 & r2 & t2 & D2 & -> & V2 & Er2 & Br2 & M2)]; [now left|]. cbn [pbind app]. destruct M2 as (e2 & -> & W2 & L2).
    change (str ":") with [":"%char]. destruct (skip1b_one line ":" r2 s2 ltac:(discriminate) V2) as (s3 & E3 & H3). rewrite E3. cbn [lift pbind]. rewrite Br2 in H3.
    destruct H3 as [(O3 & q & Eq & V3)|(O3 & _ & V3)]; rewrite O3; [|now left].
    assert (Lq : (List.length (dropbl q) < List.length r)%nat) by (rewrite Er2, Eq, app_length; pose proof (drop_len fblank q); unfold dropbl; cbn; lia).
    pose proof (IH Nexpression (dropbl q) s3 [] V3 I ltac:(cbn; lia)) as H.
    destruct H as [->|(s4 & r4 & t4 & D4 & -> & V4 & Er4 & Br4 & M4)]; [now left|]. cbn [pbind app]. destruct M4 as (e4 & -> & W4 & L4).
    destruct (dropbl_split q) as (b & Bb & Eb).
    right. exists s4, r4, (t2 ++ ":"%char :: b ++ t4), [KTern (post e2) (post e4)]. split; [reflexivity|]. split; [exact V4|].
    split; [rewrite Er2, Eq, Eb, Er4; rewrite <- !app_assoc; cbn; now rewrite <- !app_assoc|]. split; [exact Br4|]. exists t2, b, t4, e2, e4. auto.
  - (* termtail *) apply (tail_step 5 Ntermtail Nfactor) with (n := n); try reflexivity; try assumption; cbn in Hn; lia.
  - (* term *) apply (seq_step Nterm Nfactor Ntermtail 6 5 5) with (n := n); try reflexivity; try assumption; try (cbn; lia); now (intros; try apply w_up).
  - apply (tail_step 4 Naddexptail Nterm) with (n := n); try reflexivity; try assumption; cbn in Hn; lia.
  - apply (seq_step Naddexp Nterm Naddexptail 5 4 4) with (n := n); try reflexivity; try assumption; try (cbn; lia); now (intros; try apply w_up).
  - apply (tail_step 3 Nlogicaltail Naddexp) with (n := n); try reflexivity; try assumption; cbn in Hn; lia.
  - apply (seq_step Nlogical Naddexp Nlogicaltail 4 3 3) with (n := n); try reflexivity; try assumption; try (cbn; lia); now (intros; try apply w_up).
  - apply (tail_step 2 Nandtail Nlogical) with (n := n); try reflexivity; try assumption; cbn in Hn; lia.
  - apply (seq_step Nandarg Nlogical Nandtail 3 2 2) with (n := n); try reflexivity; try assumption; try (cbn; lia); now (intros; try apply w_up).
  - (* exptail *)
    destruct P as [P Ne]. cbn [go]. cbn in Hn. change (str "\|\|") with (pat 1). destruct (opm_vw ci line 1 r s V P) as (s1 & E1 & V1). rewrite E1. cbn [lift pbind].
    destruct (opm 1 r) as [[o x0]|] eqn:Eo; cbn [option_map fst].
    + destruct (opm_some 1 r o x0 ltac:(lia) Eo) as [Er No]. destruct (dropcom_gap x0) as (b & Gb & Ex & Bx). pose proof (ops_ne _ _ No) as Lo.
      assert (Lr : (List.length (dropcom x0) < List.length r)%nat) by (rewrite Er; rewrite Ex at 2; rewrite !app_length; lia).
      pose proof (IH Nandarg (dropcom x0) s1 E V1 I ltac:(cbn; lia)) as H.
      destruct H as [->|(s2 & r2 & t2 & D2 & -> & V2 & Er2 & Br2 & M2)]; [now left|]. cbn [pbind]. destruct M2 as (e2 & -> & W2 & L2).
      assert (L2' : (List.length r2 < List.length r)%nat) by (rewrite Er2, app_length in Lr; lia).
      pose proof (IH Nexptail r2 s2 ((E ++ post e2) ++ [KBin o]) V2 ltac:(split; [assumption|destruct (E ++ post e2); discriminate]) ltac:(cbn; lia)) as H.
      destruct H as [->|(s3 & r3 & t3 & D3 & -> & V3 & Er3 & Br3 & M3)]; [now left|].
      right. exists s3, r3, (o ++ b ++ t2 ++ t3), (post e2 ++ [KBin o] ++ D3). split; [now rewrite <- !app_assoc|]. split; [exact V3|].
      split; [rewrite Er, Ex, Er2, Er3; now rewrite <- !app_assoc|]. split; [exact Br3|].
      intros t0 e0 W0. destruct (M3 (t0 ++ o ++ b ++ t2) (Bin o e0 e2)) as (e & Ee & We); [now apply w_bin|].
      exists e. split; [rewrite <- Ee; cbn [post]; now rewrite <- !app_assoc|]. rewrite <- !app_assoc in We. exact We.
    + change (str "?") with (pat 0). destruct (opm_vw ci line 0 r s1 V1 P) as (s2 & E2 & V2). rewrite E2. cbn [lift pbind].
      destruct (opm 0 r) as [[o x0]|] eqn:Eq; cbn [option_map fst].
      2:{ right. exists s2, r, [], []. rewrite app_nil_r. split; [reflexivity|]. split; [exact V2|]. split; [reflexivity|]. split; [exact P|].
          intros t0 e0 W0. exists e0. rewrite !app_nil_r. split; [reflexivity|now apply w_up]. }
      destruct E as [|k E]; [now elim Ne|]. unfold opm in Eq. apply first_op_some in Eq. destruct Eq as [[<-|[]] Er].
      destruct (dropcom_gap x0) as (b & Gb & Ex & Bx).
      assert (Lr : (List.length (dropcom x0) < List.length r)%nat) by (rewrite Er; rewrite Ex at 2; rewrite !app_length; cbn; lia).
      pose proof (IH Nternary (dropcom x0) s2 (k :: E) V2 I ltac:(cbn; lia)) as H.
      destruct H as [->|(s3 & r3 & t3 & D3 & -> & V3 & Er3 & Br3 & M3)]; [now left|].
      destruct M3 as (t1 & b1 & t2 & e1 & e2 & -> & Bb1 & W1 & W2 & ->).
      right. exists s3, r3, ("?"%char :: b ++ t1 ++ ":"%char :: b1 ++ t2), [KTern (post e1) (post e2)]. split; [reflexivity|]. split; [exact V3|].
      split; [rewrite Er, Ex, Er3; cbn; rewrite <- !app_assoc; reflexivity|]. split; [exact Br3|].
      intros t0 e0 W0. exists (Tern e0 e1 e2). split; [reflexivity|]. now apply w_tern.
  - apply (seq_step Nexpression Nandarg Nexptail 2 1 0) with (n := n); try reflexivity; try assumption; try (cbn; lia); now (intros; try apply w_up).
Qed.
End Sound.
