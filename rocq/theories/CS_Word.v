(* Lemmas about umatch on keyword patterns. *)
Require Import ZArith QArith List Ascii String Bool Lia.
Require Import ZifyBool.
Require Import Verif.Loops Verif.Wmatch_Model Verif.CS_Model Verif.CS_Proofs Verif.CS_Ops.
Import ListNotations.
Local Open Scope Z_scope.

(* ---- vocabulary shared with the theorem file ---- *)
Definition same_char (ci : bool) (c d : ascii) : Prop := c = d \/ (ci = true /\ to_lower c = to_lower d).
(* the text ends here, or a character that ends a word comes next *)
Definition word_end (r : list ascii) : Prop :=
  match r with [] => True | c :: _ => c = NUL \/ isspace c = true \/ In c (str ",=(){};") end.
(* characters without special meaning in a pattern *)
Definition plain (c : ascii) : Prop := c <> NUL /\ ~ In c (str "\{}| ").
(* a keyword: mandatory letters, then optional letters that cannot end a word *)
Definition keyword (m o : list ascii) : Prop := Forall plain m /\ Forall plain o /\ Forall (fun c => forall d ci, same_char ci d c -> ~ word_end [d]) o.
Definition pattern (m o : list ascii) : list ascii := m ++ "{"%char :: o ++ ["}"%char; " "%char].
(* r begins with the mandatory letters and some prefix of the optional ones, then the word ends *)
Definition word_at (ci : bool) (m o r rest : list ascii) : Prop :=
  exists m' o1 o2 o1', o = o1 ++ o2 /\ Forall2 (same_char ci) m' m /\ Forall2 (same_char ci) o1' o1 /\
    r = m' ++ o1' ++ rest /\ word_end rest.

(* ---- deterministic form ---- *)
Definition sameb (ci : bool) (k c : ascii) : bool := Ascii.eqb k c || (ci && Ascii.eqb (to_lower k) (to_lower c)).
Lemma sameb_ok : forall ci k c, sameb ci k c = true <-> same_char ci k c.
Proof.
  intros ci k c. unfold sameb, same_char. rewrite orb_true_iff, andb_true_iff, !Ascii.eqb_eq. reflexivity.
Qed.
Fixpoint eat_all (ci : bool) (m r : list ascii) : option (list ascii) :=
  match m with
  | [] => Some r
  | c :: m' => match r with k :: r' => if sameb ci k c then eat_all ci m' r' else None | [] => None end
  end.
Fixpoint eat_some (ci : bool) (o r : list ascii) : list ascii :=
  match o, r with
  | c :: o', k :: r' => if sameb ci k c then eat_some ci o' r' else r
  | _, _ => r
  end.
Definition wspec (ci : bool) (m o r : list ascii) : option (list ascii) :=
  match eat_all ci m r with
  | Some r1 => let r2 := eat_some ci o r1 in if fterm TERM (head r2) then Some r2 else None
  | None => None
  end.

Lemma fterm_ok : forall r, fterm TERM (head r) = true <-> word_end r.
Proof.
  intros [|c r]; cbn [head hd word_end]; [split; reflexivity|].
  unfold fterm, in_set. rewrite !orb_true_iff, Ascii.eqb_eq. unfold head. cbn [hd].
  split.
  - intros [[H|H]|H]; [now left|right; now left|]. right. right. apply andb_true_iff in H. destruct H as [_ H].
    apply existsb_exists in H. destruct H as (x & Hx & E). apply Ascii.eqb_eq in E. now subst x.
  - intros [H|[H|H]]; [left; now left|left; now right|]. right. apply andb_true_iff. split.
    + cbn in H. repeat destruct H as [<-|H]; try reflexivity. contradiction.
    + apply existsb_exists. exists c. split; [exact H|apply Ascii.eqb_refl].
Qed.

Lemma wspec_sound : forall ci m o r rest, wspec ci m o r = Some rest -> word_at ci m o r rest.
Proof.
  intros ci m o r rest H. unfold wspec in H.
  assert (A : forall m r r1, eat_all ci m r = Some r1 -> exists m', Forall2 (same_char ci) m' m /\ r = m' ++ r1).
  { clear. induction m as [|c m IH]; intros r r1 H; cbn in H; [injection H as <-; exists []; split; [constructor|reflexivity]|].
    destruct r as [|k r]; [discriminate H|]. destruct (sameb ci k c) eqn:E; [|discriminate H].
    destruct (IH r r1 H) as (m' & F & ->). exists (k :: m'). split; [constructor; [now apply sameb_ok|assumption]|reflexivity]. }
  assert (B : forall o r, exists o1 o2 o1', o = o1 ++ o2 /\ Forall2 (same_char ci) o1' o1 /\ r = o1' ++ eat_some ci o r).
  { clear. induction o as [|c o IH]; intros r; cbn; [exists [], [], []; repeat split; constructor|].
    destruct r as [|k r]; [exists [], (c :: o), []; repeat split; constructor|].
    destruct (sameb ci k c) eqn:E; [|exists [], (c :: o), []; repeat split; constructor].
    destruct (IH r) as (o1 & o2 & o1' & -> & F & Er). exists (c :: o1), o2, (k :: o1'). split; [reflexivity|].
    split; [constructor; [now apply sameb_ok|assumption]|]. cbn. now rewrite <- Er. }
  destruct (eat_all ci m r) as [r1|] eqn:E1; [|discriminate H]. cbv zeta in H.
  destruct (fterm TERM (head (eat_some ci o r1))) eqn:E2; [|discriminate H]. injection H as <-.
  destruct (A m r r1 E1) as (m' & F & ->). destruct (B o r1) as (o1 & o2 & o1' & Eo & Fo & Er).
  exists m', o1, o2, o1'. repeat split; try assumption; [now rewrite <- Er|]. now apply fterm_ok.
Qed.

Lemma wspec_complete : forall ci m o r rest, keyword m o -> word_at ci m o r rest -> wspec ci m o r = Some rest.
Proof.
  intros ci m o r rest (_ & _ & Ht) (m' & o1 & o2 & o1' & -> & Fm & Fo & -> & He).
  assert (A : forall x, eat_all ci m (m' ++ x) = Some x).
  { clear -Fm. intros x. induction Fm as [|k c m' m Hk _ IH]; [reflexivity|]. cbn. apply sameb_ok in Hk. now rewrite Hk. }
  unfold wspec. rewrite A. cbv zeta.
  assert (B : eat_some ci (o1 ++ o2) (o1' ++ rest) = rest).
  { clear -Fo Ht He. induction Fo as [|k c o1' o1 Hk _ IH]; cbn.
    - destruct o2 as [|c o2]; [reflexivity|]. cbn. destruct rest as [|k rest]; [reflexivity|].
      destruct (sameb ci k c) eqn:E; [|reflexivity]. apply sameb_ok in E. cbn in Ht. inversion_clear Ht as [|? ? H _].
      now elim (H k ci E).
    - pose proof Hk as Hk'. apply sameb_ok in Hk'. rewrite Hk'. apply IH. cbn in Ht. now inversion_clear Ht. }
  rewrite B. apply fterm_ok in He. now rewrite He.
Qed.

(* ---- the loop ---- *)
Section L.
Variables (ci : bool) (line : list ascii) (st : Z).

Lemma plain_neq : forall c d, plain c -> In d (str "\{}| ") -> Ascii.eqb c d = false.
Proof. intros c d [_ H] Hd. destruct (Ascii.eqb_spec c d) as [->|N]; [contradiction|reflexivity]. Qed.

(* one plain pattern character *)
Lemma plain_step : forall n c p b r s, plain c -> vw line r s ->
  umatch_loop ci (S n) st (c :: p) b s =
  if match r with k :: _ => sameb ci k c | [] => false end then umatch_loop ci n st p b (skip s)
  else if b then let* q := to_brace (c :: p) in umatch_loop ci n st q b s
  else match find_bar c p with
        | Some (prev, q) =>
            if Ascii.eqb prev "\" then Some (set_ok s false)
            else umatch_loop ci n st q b (reset st s)
        | None => Some (set_ok s false)
        end.
Proof.
  intros n c p b r s Hc V. cbn [umatch_loop].
  rewrite (plain_neq c "|") by (assumption || (cbn; auto 8)). inb (peek_vw _ _ _ V).
  rewrite (plain_neq c "\") by (assumption || (cbn; auto 8)). cbn [andb].
  replace (match p with [] => false | _ :: _ => false end) with false by (destruct p; reflexivity).
  rewrite (plain_neq c "{") by (assumption || (cbn; auto 8)). rewrite (plain_neq c "}") by (assumption || (cbn; auto 8)).
  rewrite !andb_false_r. inb (is_term_vw _ _ _ TERM V). rewrite (plain_neq c " ") by (assumption || (cbn; auto 8)). cbn [andb].
  assert (E : (match r with k :: _ => sameb ci k c | [] => false end) =
     Ascii.eqb (head r) c || (ci && Ascii.eqb (to_lower (head r)) (to_lower c))).
  { destruct r as [|k r]; [|reflexivity]. unfold head. cbn [hd]. symmetry.
    destruct (Ascii.eqb_spec NUL c) as [E|N]; [now elim (proj1 Hc)|]. cbn [orb]. destruct ci; [|reflexivity]. cbn [andb].
    destruct (Ascii.eqb_spec (to_lower NUL) (to_lower c)) as [E|N2]; [|reflexivity]. exfalso. apply (proj1 Hc). apply lower_nul. now rewrite <- E. }
  rewrite E. destruct (Ascii.eqb (head r) c); cbn [orb]; [reflexivity|].
  destruct (ci && Ascii.eqb (to_lower (head r)) (to_lower c)); reflexivity.
Qed.

(* the outcome of a mismatch: next alternative, or failure *)
Definition mismatch (t : list ascii) (res : option cs) : Prop :=
  exists s' r', vw line r' s' /\ (t = [] -> res = Some (set_ok s' false)) /\
   (forall q, t = "|"%char :: q -> exists n', (List.length q < n')%nat /\ res = umatch_loop ci n' st q false (reset st s')).

Lemma find_bar_plain : forall t, (t = [] \/ exists q, t = "|"%char :: q) -> forall a prev, Forall (fun c => c <> "|"%char) a ->
  find_bar prev (a ++ t) = match t with [] => None | _ :: q => Some (last a prev, q) end.
Proof.
  intros t Ht a. induction a as [|c a IH]; intros prev H.
  - destruct Ht as [->|[q ->]]; reflexivity.
  - inversion_clear H as [|? ? Hc Ha]. cbn [app find_bar]. destruct (Ascii.eqb_spec c "|"); [contradiction|].
    rewrite (IH c Ha). destruct t; [reflexivity|]. destruct a as [|d a]; [reflexivity|].
    replace (last (d :: a) c) with (last (c :: d :: a) prev); [reflexivity|].
    cbn [last]. clear. revert c prev d. induction a as [|e a IH]; intros; [reflexivity|]. apply (IH c prev e).
Qed.

(* a mismatch inside pattern text that ends in a blank *)
Lemma mism : forall n c a t r s, vw line r s -> Forall (fun x => x <> "|"%char) a ->
  (t = [] \/ exists q, t = "|"%char :: q) -> last (c :: a) c = " "%char -> (List.length (c :: a ++ t) < S n)%nat ->
  mismatch t (match find_bar c (a ++ t) with
        | Some (prev, q) =>
            if Ascii.eqb prev "\" then Some (set_ok s false)
            else umatch_loop ci n st q false (reset st s)
        | None => Some (set_ok s false)
        end).
Proof.
  intros n c a t r s V Ha Ht Hl Hn. rewrite find_bar_plain by assumption.
  exists s, r. split; [assumption|]. split.
  - intros ->. reflexivity.
  - intros q ->. assert (El : last a c = " "%char).
    { destruct a as [|d a]; [exact Hl|exact Hl]. }
    rewrite El. cbn [Ascii.eqb Bool.eqb]. exists n. split; [|reflexivity]. cbn [List.length] in Hn. rewrite app_length in Hn. cbn in Hn. lia.
Qed.

Definition tailbl (t : list ascii) := "}"%char :: " "%char :: t.

(* optional part *)
Lemma opt_loop : forall o t, Forall plain o -> forall n r s, (List.length (o ++ tailbl t) < n)%nat -> vw line r s ->
  exists n' s', (List.length (tailbl t) < n')%nat /\ vw line (eat_some ci o r) s' /\
    umatch_loop ci n st (o ++ tailbl t) true s = umatch_loop ci n' st (tailbl t) true s'.
Proof.
  intros o t. induction o as [|c o IH]; intros Ho n r s Hn V.
  - exists n, s. split; [exact Hn|]. split; [destruct r; exact V|reflexivity].
  - inversion_clear Ho as [|? ? Hc Ho']. destruct n as [|n]; [lia|]. cbn [app].
    rewrite (plain_step n c (o ++ tailbl t) true r s Hc V). cbn [eat_some].
    destruct (match r with k :: _ => sameb ci k c | [] => false end) eqn:E.
    + destruct r as [|k r]; [discriminate E|]. rewrite E. destruct (skip_vw _ _ _ _ V) as [V1 _].
      apply IH; [assumption|cbn in Hn; lia|assumption].
    + assert (Eb : to_brace (c :: o ++ tailbl t) = Some (tailbl t)).
      { assert (G : forall l, Forall plain l -> to_brace (l ++ tailbl t) = Some (tailbl t)).
        { clear. intros l H. induction H as [|x l Hx _ IH]; [reflexivity|]. cbn [app to_brace].
          rewrite (plain_neq x "}") by (assumption || (cbn; auto 8)). exact IH. }
        exact (G (c :: o) (Forall_cons c Hc Ho')). }
      rewrite Eb. cbn [bind]. exists n, s. split; [cbn in *; rewrite app_length in Hn; cbn in Hn; lia|].
      split; [|reflexivity]. destruct r as [|k r]; [exact V|]. rewrite E. exact V.
Qed.

Lemma tail_loop : forall t n r s, (t = [] \/ exists q, t = "|"%char :: q) -> (List.length (tailbl t) < n)%nat -> vw line r s ->
  (fterm TERM (head r) = true -> exists n' s', (List.length t < n')%nat /\ vw line (dropbl r) s' /\
      umatch_loop ci n st (tailbl t) true s = umatch_loop ci n' st t false s') /\
  (fterm TERM (head r) = false -> mismatch t (umatch_loop ci n st (tailbl t) true s)).
Proof.
  intros t n r s Ht Hn V. destruct n as [|[|n]]; [cbn in Hn; lia|cbn in Hn; lia|].
  unfold tailbl in *. cbn [umatch_loop]. 
  change (Ascii.eqb "}" "|") with false. cbv iota. inb (peek_vw _ _ _ V). 
  change (Ascii.eqb "}" "\") with false. cbn [andb negb]. change (Ascii.eqb "}" "}") with true. cbv iota.
  change (Ascii.eqb " " "|") with false. cbv iota. 
  replace (match t with [] => false | d :: _ => Ascii.eqb " " "\" && Ascii.eqb (head r) d end) with false by (destruct t; reflexivity).
  change (Ascii.eqb " " "{") with false. cbv iota. inb (is_term_vw _ _ _ TERM V). change (Ascii.eqb " " " ") with true. cbn [andb].
  split; intros E; rewrite E.
  - destruct (skipbl_vw _ _ _ V) as (s1 & E1 & V1 & _). inb E1. exists n, s1. split; [cbn in Hn; lia|]. split; [exact V1|reflexivity].
  - assert (N1 : Ascii.eqb (head r) " " = false).
    { destruct (Ascii.eqb_spec (head r) " ") as [X|]; [|reflexivity]. rewrite X in E. discriminate E. }
    assert (N2 : Ascii.eqb (to_lower (head r)) (to_lower " ") = false).
    { destruct (Ascii.eqb_spec (to_lower (head r)) (to_lower " ")) as [X|]; [|reflexivity]. exfalso.
      assert (head r = " "%char). { revert X. clear. destruct (head r) as [[] [] [] [] [] [] [] []]; vm_compute; intros H; try discriminate H; reflexivity. }
      rewrite H in N1. discriminate N1. }
    rewrite N1, N2, andb_false_r.
    apply (mism n " "%char [] t r s V); [constructor|assumption|reflexivity|]. cbn in *. lia.
Qed.

Lemma word_loop : forall m o t, Forall plain m -> Forall plain o -> (t = [] \/ exists q, t = "|"%char :: q) ->
  forall n r s, (List.length (m ++ "{"%char :: o ++ tailbl t) < n)%nat -> vw line r s ->
  (forall r', wspec ci m o r = Some r' -> exists n' s', (List.length t < n')%nat /\ vw line (dropbl r') s' /\
      umatch_loop ci n st (m ++ "{"%char :: o ++ tailbl t) false s = umatch_loop ci n' st t false s') /\
  (wspec ci m o r = None -> mismatch t (umatch_loop ci n st (m ++ "{"%char :: o ++ tailbl t) false s)).
Proof.
  intros m o t Hm Ho Ht. induction Hm as [|c m Hc Hm IH]; intros n r s Hn V.
  - cbn [app] in *. destruct n as [|n]; [lia|]. unfold wspec. cbn [eat_all].
    assert (E : umatch_loop ci (S n) st ("{"%char :: o ++ tailbl t) false s = umatch_loop ci n st (o ++ tailbl t) true s).
    { cbn [umatch_loop]. change (Ascii.eqb "{" "|") with false. cbv iota. inb (peek_vw _ _ _ V).
      change (Ascii.eqb "{" "\") with false. cbn [andb negb].
      replace (match o ++ tailbl t with [] => false | _ :: _ => false end) with false by (destruct (o ++ tailbl t); reflexivity).
      reflexivity. }
    rewrite E. destruct (opt_loop o t Ho n r s) as (n1 & s1 & L1 & V1 & E1); [cbn in Hn; lia|assumption|]. rewrite E1.
    destruct (tail_loop t n1 (eat_some ci o r) s1 Ht L1 V1) as [A B]. cbv zeta.
    destruct (fterm TERM (head (eat_some ci o r))).
    + split; [|discriminate]. intros r' X. injection X as <-. now apply A.
    + split; [discriminate|]. intros _. now apply B.
  - cbn [app] in *. destruct n as [|n]; [lia|]. rewrite (plain_step n c _ false r s Hc V). unfold wspec. cbn [eat_all].
    destruct (match r with k :: _ => sameb ci k c | [] => false end) eqn:E.
    + destruct r as [|k r]; [discriminate E|]. rewrite E. destruct (skip_vw _ _ _ _ V) as [V1 _].
      apply (IH n r (skip s)); [cbn in Hn; lia|assumption].
    + assert (M : mismatch t (match find_bar c (m ++ "{"%char :: o ++ tailbl t) with
        | Some (prev, q) => if Ascii.eqb prev "\" then Some (set_ok s false) else umatch_loop ci n st q false (reset st s)
        | None => Some (set_ok s false) end)).
      { replace (m ++ "{"%char :: o ++ tailbl t) with ((m ++ "{"%char :: o ++ ["}"%char; " "%char]) ++ t).
        2:{ rewrite <- app_assoc. cbn. rewrite <- app_assoc. reflexivity. }
        apply (mism n c _ t r s V); try assumption.
        - apply Forall_app. split; [eapply Forall_impl; [|exact Hm]; intros x [_ X] ->; apply X; cbn; auto 8|].
          constructor; [discriminate|]. apply Forall_app. split; [eapply Forall_impl; [|exact Ho]; intros x [_ X] ->; apply X; cbn; auto 8|].
          repeat constructor; discriminate.
        - change (c :: m ++ "{"%char :: o ++ ["}"%char; " "%char]) with ((c :: m) ++ "{"%char :: o ++ ["}"%char; " "%char]).
          replace ((c :: m) ++ "{"%char :: o ++ ["}"%char; " "%char]) with (((c :: m) ++ "{"%char :: o ++ ["}"%char]) ++ [" "%char]).
          + apply last_last.
          + rewrite <- app_assoc. cbn. rewrite <- app_assoc. reflexivity.
        - cbn [List.length] in *. rewrite !app_length in *. cbn [List.length tailbl] in *. rewrite !app_length in *. cbn [List.length tailbl] in *. lia. }
      destruct r as [|k r]; [|rewrite E]; (split; [discriminate|intros _; exact M]).
Qed.
End L.

Lemma pattern_tail : forall m o t, pattern m o ++ t = m ++ "{"%char :: o ++ tailbl t.
Proof. intros. unfold pattern, tailbl. rewrite <- app_assoc. cbn. rewrite <- app_assoc. reflexivity. Qed.

(* alternatives of the form w1|w2|... *)
Fixpoint alts (ws : list (list ascii * list ascii)) : list ascii :=
  match ws with
  | [] => []
  | [(m, o)] => pattern m o
  | (m, o) :: ws' => pattern m o ++ "|"%char :: alts ws'
  end.
(* the first alternative that matches *)
Fixpoint first_alt (ci : bool) (ws : list (list ascii * list ascii)) (r : list ascii) : option (list ascii) :=
  match ws with
  | [] => None
  | (m, o) :: ws' => match wspec ci m o r with Some x => Some x | None => first_alt ci ws' r end
  end.

Lemma alts_loop : forall ci line r0 s0, vw line r0 s0 -> forall ws, ws <> [] ->
  Forall (fun w => Forall plain (fst w) /\ Forall plain (snd w)) ws -> forall n s,
  (List.length (alts ws) < n)%nat -> vw line r0 s ->
  exists s', umatch_loop ci n (cnt s0) (alts ws) false s = Some s' /\
    match first_alt ci ws r0 with Some x => ok s' = true /\ vw line (dropbl x) s' | None => ok s' = false /\ exists r', vw line r' s' end.
Proof.
  intros ci line r0 s0 V0 ws. induction ws as [|[m o] ws IH]; intros Hne Hp n s Hn V; [contradiction|].
  inversion_clear Hp as [|wx wl [Hm Ho] Hws]. cbn [fst snd] in *.
  set (t := match ws with [] => [] | _ => "|"%char :: alts ws end).
  assert (Ea : alts ((m, o) :: ws) = m ++ "{"%char :: o ++ tailbl t).
  { unfold t. rewrite <- pattern_tail. cbn [alts]. destruct ws as [|w ws]; [now rewrite app_nil_r|reflexivity]. }
  assert (Ht : t = [] \/ exists q, t = "|"%char :: q) by (unfold t; destruct ws; [now left|right; eauto]).
  rewrite Ea in *. destruct (word_loop ci line (cnt s0) m o t Hm Ho Ht n r0 s Hn V) as [A B].
  cbn [first_alt]. destruct (wspec ci m o r0) as [x|] eqn:Ew.
  - destruct (A x eq_refl) as (n' & s' & L & V' & E). rewrite E. exists (set_ok s' true).
    destruct n' as [|n']; [lia|]. split; [|split; [reflexivity|exact V']]. destruct Ht as [->|[q ->]]; reflexivity.
  - destruct (B eq_refl) as (s' & r' & V' & C & D). unfold t in C, D. destruct ws as [|w ws].
    + exists (set_ok s' false). split; [now apply C|]. split; [reflexivity|]. exists r'. exact V'.
    + destruct (D _ eq_refl) as (n' & L & E). unfold t. rewrite E. apply IH; [discriminate|assumption|exact L|].
      eapply vw_reset; [exact V0|exact V'].
Qed.

(* umatch on alternatives, with no blank before the cursor unless there is only one alternative *)
Lemma umatch_alts : forall ci line r s ws, ws <> [] ->
  Forall (fun w => Forall plain (fst w) /\ Forall plain (snd w)) ws ->
  vw line r s -> dropbl r = r ->
  exists s', umatch ci (alts ws) s = Some s' /\
    match first_alt ci ws r with
    | Some x => ok s' = true /\ vw line (dropcom (dropbl x)) s' /\ begin_match s' = cnt s /\
        exists s1, vw line (dropbl x) s1 /\ end_match s' = cnt s1
    | None => ok s' = false /\ cnt s' = cnt s end.
Proof.
  intros ci line r s ws Hne Hp V Hb. unfold umatch.
  destruct (skipbl_vw _ _ _ V) as (s1 & E1 & V1 & _). inb E1. rewrite Hb in V1.
  destruct (alts_loop ci line r s V ws Hne Hp (umatch_rounds (alts ws)) s1) as (s2 & E2 & H2); [unfold umatch_rounds; lia|assumption|].
  inb E2. destruct (first_alt ci ws r) as [x|].
  - destruct H2 as [O2 V2]. rewrite O2.
    destruct (skipcom_vw _ _ _ (vw_m _ _ _ (cnt s1) (cnt s2) V2)) as (s4 & E4 & V4 & M4 & _). inb E4.
    exists (set_ok s4 true). split; [reflexivity|]. split; [reflexivity|]. split; [exact V4|]. destruct M4 as [M4 M5].
    cbn in M4, M5. split; [cbn; rewrite M4; now apply (vw_same_cnt _ _ _ _ _ V V1)|]. exists s2. split; [assumption|exact M5].
  - destruct H2 as [O2 (r' & V2)]. rewrite O2. eexists. split; [reflexivity|]. split; reflexivity.
Qed.

Lemma umatch_word : forall ci line r s m o, Forall plain m -> Forall plain o -> vw line r s ->
  exists s', umatch ci (pattern m o) s = Some s' /\
    match wspec ci m o (dropbl r) with
    | Some x => ok s' = true /\ vw line (dropcom (dropbl x)) s' /\ exists s0, vw line (dropbl r) s0 /\ begin_match s' = cnt s0 /\
        exists s1, vw line (dropbl x) s1 /\ end_match s' = cnt s1
    | None => ok s' = false /\ cnt s' = cnt s end.
Proof.
  intros ci line r s m o Hm Ho V. unfold umatch.
  destruct (skipbl_vw _ _ _ V) as (s1 & E1 & V1 & _). inb E1.
  destruct (word_loop ci line (cnt s) m o [] Hm Ho (or_introl eq_refl) (umatch_rounds (pattern m o)) (dropbl r) s1) as [A B].
  { rewrite <- pattern_tail, app_nil_r. unfold umatch_rounds. lia. }
  { assumption. }
  rewrite <- pattern_tail, app_nil_r in A, B.
  destruct (wspec ci m o (dropbl r)) as [x|] eqn:Ew.
  - destruct (A x eq_refl) as (n' & s2 & L & V2 & E). rewrite E. destruct n' as [|n']; [lia|]. cbn [umatch_loop bind ok set_ok].
    destruct (skipcom_vw _ _ _ (vw_m _ _ _ (cnt s1) (cnt s2) (vw_ok _ _ _ true V2))) as (s4 & E4 & V4 & M4 & _).
    cbn [cnt set_ok]. inb E4. eexists. split; [reflexivity|]. split; [reflexivity|]. split; [exact V4|]. destruct M4 as [M4 M5]. cbn in M4, M5.
    exists s1. split; [assumption|]. split; [exact M4|]. exists s2. split; [assumption|exact M5].
  - destruct (B eq_refl) as (s' & r' & V' & C & D). rewrite (C eq_refl). cbn [bind ok set_ok]. eexists. split; [reflexivity|]. split; reflexivity.
Qed.
