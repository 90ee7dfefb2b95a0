(* Lemmas about the scanner model, continued: whole operations. *)
Require Import ZArith QArith List Ascii String Bool Lia.
Require Import ZifyBool.
Require Import Verif.Loops Verif.Wmatch_Model Verif.CS_Model Verif.CS_Proofs.
Import ListNotations.
Local Open Scope Z_scope.

Definition farg (c : ascii) : bool := falpha c || in_set (str "+-.0123456789") c || in_set (str "*?$%_&@") c.
Lemma more_vw : forall line r s, vw line r s ->
  exists s', more s = Some (negb (Ascii.eqb (head (dropbl r)) NUL), s') /\ vw line (dropbl r) s' /\ same_m s s'.
Proof.
  intros line r s H. unfold more. destruct (skipbl_vw _ _ _ H) as (s1 & E1 & V1 & _ & _ & M1). inb E1.
  inb (ns_more_vw _ _ _ V1). now exists s1.
Qed.

Definition tail1 (r : list ascii) := match r with c :: r' => if Ascii.eqb c NUL then r else r' | [] => [] end.
Lemma skiparg_vw : forall line r s, vw line r s ->
  exists s' r', skiparg s = Some s' /\ vw line r' s' /\ suffix r' r /\ ok s' = negb (Nat.eqb (List.length r') (List.length r)) /\
    (head (dropbl r) <> NUL -> (List.length r' < List.length r)%nat).
Proof.
  intros line r s H. unfold skiparg.
  destruct (skipcom_vw _ _ _ H) as (s1 & E1 & V1 & M1 & O1). inb E1. rewrite O1.
  assert (Fin : forall r' s2, vw line r' s2 -> suffix r' r -> (cnt s <? cnt s2) = negb (Nat.eqb (List.length r') (List.length r))).
  { intros r' s2 V S. rewrite (vw_cnt _ _ _ H), (vw_cnt _ _ _ V). apply suffix_len in S.
    destruct (Nat.eqb_spec (List.length r') (List.length r)); lia. }
  destruct (fcomma (head (dropbl r))) eqn:Ec.
  - cbn [bind]. exists (set_ok s1 (cnt s <? cnt s1)), (dropcom r). split; [reflexivity|]. split; [exact V1|].
    split; [apply suffix_eat1b|]. split; [now apply Fin; [|apply suffix_eat1b]|]. intros _.
    unfold dropcom, eat1b. destruct (dropbl r) as [|c q] eqn:Ed; [discriminate Ec|]. change (head (c :: q)) with c in Ec.
    cbn [eat1]. rewrite Ec. pose proof (drop_len fblank q). pose proof (drop_len fblank r). unfold dropbl in *. rewrite Ed in *. cbn in *. lia.
  - inb (peek_vw _ _ _ V1).
    assert (D : dropcom r = dropbl r).
    { unfold dropcom, eat1b. destruct (dropbl r) as [|c q] eqn:Ed; [reflexivity|]. change (head (c :: q)) with c in Ec.
      cbn [eat1]. rewrite Ec. rewrite <- Ed. apply drop_idem. apply dropbl_head. }
    rewrite D in *.
    set (s2 := if Ascii.eqb (head (dropbl r)) NUL then s1 else skip s1).
    assert (V2 : vw line (tail1 (dropbl r)) s2).
    { unfold s2. destruct (dropbl r) as [|c q]; [exact V1|]. cbn [tail1]. change (head (c :: q)) with c.
      destruct (Ascii.eqb c NUL); [exact V1|]. now apply skip_vw in V1. }
    destruct (skip_while_vw line (fun s => let* a := is_alpha s in if a then Some true else
        let* b := is_float s in if b then Some true else is_argsym s) farg eq_refl) with (r := tail1 (dropbl r)) (s := s2)
      as (s3 & E3 & V3 & _); [|exact V2|].
    { intros r0 s0 V0. inb (is_alpha_vw _ _ _ V0). unfold farg. destruct (falpha (head r0)); [reflexivity|].
      unfold is_float, is_argsym. rewrite (match1_vw _ _ _ _ V0). cbn [bind orb]. destruct (in_set _ (head r0)); [reflexivity|].
      cbn [orb]. now apply match1_vw with line. }
    inb E3. destruct (skipcom_vw _ _ _ V3) as (s4 & E4 & V4 & M4 & O4). inb E4.
    eexists _, _. split; [reflexivity|]. split; [exact V4|].
    assert (S1 : suffix (tail1 (dropbl r)) (dropbl r)).
    { destruct (dropbl r) as [|c q]; [apply suffix_refl|]. cbn. destruct (Ascii.eqb c NUL); [apply suffix_refl|now exists [c]]. }
    assert (S : suffix (dropcom (drop_while farg (tail1 (dropbl r)))) (dropbl r)).
    { eapply suffix_trans; [apply suffix_eat1b|]. eapply suffix_trans; [apply suffix_drop|exact S1]. }
    split; [eapply suffix_trans; [exact S|apply suffix_drop]|].
    split; [apply Fin; [exact V4|eapply suffix_trans; [exact S|apply suffix_drop]]|].
    intros N. assert (L : (List.length (tail1 (dropbl r)) < List.length (dropbl r))%nat).
    { destruct (dropbl r) as [|c q]; [now elim N|]. cbn [tail1]. destruct (Ascii.eqb_spec c NUL); [now elim N|]. cbn. lia. }
    pose proof (suffix_len _ _ (suffix_eat1b fcomma (drop_while farg (tail1 (dropbl r))))) as L1.
    pose proof (drop_len farg (tail1 (dropbl r))). pose proof (drop_len fblank r). unfold dropcom, dropbl in *. lia.
Qed.

Lemma skipto1_vw : forall line r s t, vw line r s ->
  exists s' r', skipto1 t s = Some s' /\ vw line r' s' /\ suffix r' r /\ (in_set t (head r') = false -> r' = r) /\ ok s' = true.
Proof.
  intros line r s t H. unfold skipto1.
  destruct (skip_while_vw line (fun s => let* m := ns_more s in if m then let* b := match1 t s in Some (negb b) else Some false)
     (fun c => negb (Ascii.eqb c NUL) && negb (in_set t c)) eq_refl) with (r := r) (s := s) as (s1 & E1 & V1 & _); [|exact H|].
  { intros r0 s0 V0. inb (ns_more_vw _ _ _ V0). destruct (Ascii.eqb (head r0) NUL); cbn [negb andb]; [reflexivity|].
    now rewrite (match1_vw _ _ _ _ V0). }
  inb E1. inb (ns_more_vw _ _ _ V1).
  set (f := fun c => negb (Ascii.eqb c NUL) && negb (in_set t c)) in *. pose proof (drop_head f r eq_refl) as Hf. unfold f in Hf at 1. cbn beta in Hf.
  cbn [ok set_ok].
  destruct (Ascii.eqb_spec (head (drop_while f r)) NUL) as [En|En]; cbn [negb].
  - eexists _, r. split; [reflexivity|]. split; [eapply vw_reset; [exact H|exact V1]|]. split; [apply suffix_refl|]. split; reflexivity.
  - eexists _, _. split; [reflexivity|]. split; [exact V1|]. split; [apply suffix_drop|]. split; [|reflexivity].
    intros E. cbn [negb andb] in Hf. rewrite E in Hf. discriminate Hf.
Qed.
Lemma skipto1c_vw : forall line r s t, vw line r s ->
  exists s' r', skipto1c t s = Some s' /\ vw line r' s' /\ suffix r' r /\ (head r' <> t -> r' = r) /\ ok s' = true.
Proof.
  intros line r s t H. unfold skipto1c.
  destruct (skip_while_vw line (fun s => let* m := ns_more s in if m then let* b := match1c t s in Some (negb b) else Some false)
     (fun c => negb (Ascii.eqb c NUL) && negb (Ascii.eqb c t)) eq_refl) with (r := r) (s := s) as (s1 & E1 & V1 & _); [|exact H|].
  { intros r0 s0 V0. inb (ns_more_vw _ _ _ V0). destruct (Ascii.eqb (head r0) NUL); cbn [negb andb]; [reflexivity|].
    now rewrite (match1c_vw _ _ _ _ V0). }
  inb E1. inb (ns_more_vw _ _ _ V1).
  set (f := fun c => negb (Ascii.eqb c NUL) && negb (Ascii.eqb c t)) in *. pose proof (drop_head f r eq_refl) as Hf. unfold f in Hf at 1. cbn beta in Hf.
  cbn [ok set_ok].
  destruct (Ascii.eqb_spec (head (drop_while f r)) NUL) as [En|En]; cbn [negb].
  - eexists _, r. split; [reflexivity|]. split; [eapply vw_reset; [exact H|exact V1]|]. split; [apply suffix_refl|]. split; reflexivity.
  - eexists _, _. split; [reflexivity|]. split; [exact V1|]. split; [apply suffix_drop|]. split; [|reflexivity].
    intros E. cbn [negb andb] in Hf. destruct (Ascii.eqb_spec (head (drop_while f r)) t); [contradiction|discriminate Hf].
Qed.

(* ---- umatch ---- *)
(* patterns the loop can handle: no NUL, every '{' has its '}', with no escape in between *)
Definition closed (p : list ascii) : Prop :=
  ~ In NUL p /\ forall a b, p = a ++ "{"%char :: b -> exists c d, b = c ++ "}"%char :: d /\ ~ In "\"%char c.
Definition brace_ahead (p : list ascii) : Prop := exists c d, p = c ++ "}"%char :: d /\ ~ In "\"%char c.

Lemma closed_tl : forall c p, closed (c :: p) -> closed p.
Proof.
  intros c p [H1 H2]. split; [intros X; apply H1; now right|].
  intros a b ->. now apply (H2 (c :: a) b).
Qed.
Lemma closed_app : forall a p, closed (a ++ p) -> closed p.
Proof. induction a as [|c a IH]; intros p H; [assumption|]. apply IH. now apply closed_tl with c. Qed.
Lemma lower_nul : forall c, to_lower c = NUL -> c = NUL.
Proof. intros [[] [] [] [] [] [] [] []] H; vm_compute in H; try discriminate H; reflexivity. Qed.
Lemma to_brace_ok : forall p, brace_ahead p -> exists a q, p = a ++ "}"%char :: q /\ to_brace p = Some ("}"%char :: q).
Proof.
  intros p (c & d & -> & _). induction c as [|x c IH]; cbn [app to_brace].
  - exists [], d. now rewrite Ascii.eqb_refl.
  - destruct (Ascii.eqb_spec x "}") as [->|N].
    + exists [], (c ++ "}"%char :: d). split; reflexivity.
    + destruct IH as (a & q & E & F). exists (x :: a), q. split; [cbn; now rewrite E|assumption].
Qed.
Lemma find_bar_ok : forall p prev prev' q, find_bar prev p = Some (prev', q) -> exists a, p = a ++ q /\ (List.length q < List.length p)%nat.
Proof.
  induction p as [|c p IH]; intros prev prev' q H; [discriminate H|]. cbn in H.
  destruct (Ascii.eqb c "|").
  - injection H as _ <-. exists [c]. split; [reflexivity|cbn; lia].
  - destruct (IH _ _ _ H) as (a & -> & L). exists (c :: a). split; [reflexivity|]. cbn. lia.
Qed.
Lemma brace_ahead_tl : forall c p, c <> "}"%char -> brace_ahead (c :: p) -> brace_ahead p.
Proof.
  intros c p N (a & d & E & H). destruct a as [|x a]; cbn in E; injection E as E1 E2; [contradiction|].
  exists a, d. split; [assumption|]. intros X. apply H. now right.
Qed.

Lemma umatch_loop_safe : forall ci line r0 s0, vw line r0 s0 -> forall n p optional r s,
  (List.length p < n)%nat -> closed p -> (optional = true -> brace_ahead p) -> vw line r s -> suffix r r0 ->
  exists s' r', umatch_loop ci n (cnt s0) p optional s = Some s' /\ vw line r' s' /\ suffix r' r0.
Proof.
  intros ci line r0 s0 H0 n. induction n as [|n IH]; intros p optional r s Hn Hc Ho V S; [lia|].
  cbn [umatch_loop]. destruct p as [|c p].
  { eexists _, r. split; [reflexivity|]. split; [exact V|assumption]. }
  destruct (Ascii.eqb_spec c "|") as [->|Nb].
  { eexists _, r. split; [reflexivity|]. split; [exact V|assumption]. }
  inb (peek_vw _ _ _ V). cbv zeta.
  assert (Cn : c <> NUL) by (intros ->; apply (proj1 Hc); now left).
  assert (Hc' : closed p) by now apply closed_tl with c.
  assert (Step : forall o p', (List.length p' <= List.length p)%nat -> closed p' -> (o = true -> brace_ahead p') -> head r <> NUL ->
     exists s' r', umatch_loop ci n (cnt s0) p' o (skip s) = Some s' /\ vw line r' s' /\ suffix r' r0).
  { intros o p' L C O N. destruct (head_cons r N) as (k & r1 & -> & _). destruct (skip_vw _ _ _ _ V) as [V' _].
    apply IH with r1; try assumption; [cbn in Hn; lia|]. eapply suffix_trans; [|exact S]. now exists [k]. }
  destruct (match p with d :: _ => Ascii.eqb c "\" && Ascii.eqb (head r) d | [] => false end) eqn:Esc.
  { destruct p as [|d p]; [discriminate|]. apply andb_true_iff in Esc. destruct Esc as [Ec Ed].
    apply Ascii.eqb_eq in Ec, Ed. subst c. cbn [tl]. apply Step; [cbn; lia|now apply closed_tl with d| |].
    - intros O. exfalso. destruct (Ho O) as (a & q & E & X). destruct a as [|x a]; cbn in E; [discriminate E|].
      injection E as E1 _. apply X. now left.
    - intros E. apply (proj1 Hc'). rewrite E in Ed. left. congruence. }
  destruct (negb optional && Ascii.eqb c "{") eqn:E1.
  { apply andb_true_iff in E1. destruct E1 as [E1 E2]. apply Ascii.eqb_eq in E2. subst c.
    apply IH with r; try assumption; [cbn in Hn; lia|]. intros _. apply (proj2 Hc [] p eq_refl). }
  destruct (optional && Ascii.eqb c "}") eqn:E2.
  { apply IH with r; try assumption; [cbn in Hn; lia|]. discriminate. }
  assert (Hb : optional = true -> c <> "}"%char).
  { intros O ->. rewrite O in E2. discriminate E2. }
  assert (Ho' : optional = true -> brace_ahead p) by (intros O; apply brace_ahead_tl with c; auto).
  inb (is_term_vw _ _ _ TERM V).
  destruct (Ascii.eqb c " " && fterm TERM (head r)).
  { destruct (skipbl_vw _ _ _ V) as (s1 & Es1 & V1 & _). inb Es1.
    apply IH with (dropbl r); try assumption; [cbn in Hn; lia|]. eapply suffix_trans; [apply suffix_drop|assumption]. }
  destruct (Ascii.eqb_spec (head r) c) as [Ek|Nk].
  { apply Step; [lia|assumption|assumption|congruence]. }
  destruct (ci && Ascii.eqb (to_lower (head r)) (to_lower c)) eqn:Ei.
  { apply andb_true_iff in Ei. destruct Ei as [_ Ei]. apply Ascii.eqb_eq in Ei.
    apply Step; [lia|assumption|assumption|]. intros E. rewrite E in Ei. apply Cn. apply lower_nul. symmetry. exact Ei. }
  destruct optional.
  { destruct (to_brace_ok _ (Ho eq_refl)) as (a & q & E & Eb). inb Eb.
    assert (La : (List.length ("}"%char :: q) < Datatypes.S (List.length p))%nat).
    { destruct a as [|x a]; cbn in E; [injection E as -> _; now elim (Hb eq_refl)|].
      injection E as _ ->. rewrite app_length. cbn. lia. }
    apply IH with r; try assumption; [cbn in *; lia| |].
    - apply closed_app with a. now rewrite <- E.
    - intros _. exists [], q. split; [reflexivity|intros []]. }
  destruct (find_bar c p) as [[prev q]|] eqn:Ef.
  - destruct (Ascii.eqb prev "\").
    + eexists _, r. split; [reflexivity|]. split; [exact V|assumption].
    + destruct (find_bar_ok _ _ _ _ Ef) as (a & Ea & L).
      apply IH with r0; [cbn in Hn; lia| |discriminate| |apply suffix_refl].
      * apply closed_app with a. now rewrite <- Ea.
      * eapply vw_reset; [exact H0|exact V].
  - eexists _, r. split; [reflexivity|]. split; [exact V|assumption].
Qed.

Lemma umatch_safe : forall ci line r s p, closed p -> vw line r s ->
  exists s' r', umatch ci p s = Some s' /\ vw line r' s' /\ suffix r' r /\ (ok s' = false -> r' = r).
Proof.
  intros ci line r s p Hc V. unfold umatch.
  destruct (skipbl_vw _ _ _ V) as (s1 & E1 & V1 & _). inb E1.
  destruct (umatch_loop_safe ci line r s V (umatch_rounds p) p false (dropbl r) s1) as (s2 & r2 & E2 & V2 & S2); try assumption;
    [unfold umatch_rounds; lia|discriminate|apply suffix_drop|].
  inb E2. destruct (ok s2) eqn:O2.
  - pose proof (vw_m _ _ _ (cnt s1) (cnt s2) V2) as V3.
    destruct (skipcom_vw _ _ _ V3) as (s4 & E4 & V4 & _). inb E4.
    eexists _, _. split; [reflexivity|]. split; [exact V4|]. split; [eapply suffix_trans; [apply suffix_eat1b|assumption]|discriminate].
  - eexists _, r. split; [reflexivity|]. split; [eapply vw_reset_fail; [exact V|exact V2]|]. split; [apply suffix_refl|reflexivity].
Qed.

Lemma scan_loop_safe : forall ci p line r0 s0, closed p -> vw line r0 s0 -> forall n r s,
  (List.length r < n)%nat -> vw line r s -> suffix r r0 ->
  exists s' r', scan_loop ci n (cnt s0) p s = Some s' /\ vw line r' s' /\ suffix r' r0 /\ (ok s' = false -> r' = r0).
Proof.
  intros ci p line r0 s0 Hc V0 n. induction n as [|n IH]; intros r s Hn V S; [lia|].
  cbn [scan_loop]. destruct (umatch_safe ci line r s p Hc V) as (s1 & r1 & E1 & V1 & S1 & F1). inb E1.
  destruct (ok s1) eqn:O1.
  - eexists _, r1. split; [reflexivity|]. split; [exact V1|]. split; [eapply suffix_trans; eassumption|discriminate].
  - rewrite (F1 eq_refl) in *. destruct (more_vw _ _ _ V1) as (s2 & E2 & V2 & _). inb E2.
    destruct (Ascii.eqb_spec (head (dropbl r)) NUL) as [En|En]; cbn [negb].
    + eexists _, r0. split; [reflexivity|]. split; [eapply vw_reset_fail; [exact V0|exact V2]|]. split; [apply suffix_refl|reflexivity].
    + destruct (skiparg_vw _ _ _ V2) as (s3 & r3 & E3 & V3 & S3 & _ & L3). inb E3.
      apply IH with r3; [|assumption|].
      * change (dropbl (dropbl r)) with (drop_while fblank (dropbl r)) in L3. rewrite (drop_idem fblank (dropbl r)) in L3 by apply dropbl_head. specialize (L3 En). pose proof (drop_len fblank r). unfold dropbl in *. lia.
      * eapply suffix_trans; [exact S3|]. eapply suffix_trans; [apply suffix_drop|exact S].
Qed.
Lemma scan_safe : forall ci line r s p, closed p -> vw line r s ->
  exists s' r', scan ci p s = Some s' /\ vw line r' s' /\ suffix r' r /\ (ok s' = false -> r' = r).
Proof.
  intros ci line r s p Hc V. unfold scan. apply scan_loop_safe with r; try assumption; [|apply suffix_refl].
  rewrite (vw_rounds _ _ _ V). pose proof (vw_le _ _ _ V). lia.
Qed.

(* ---- conversions ---- *)
Lemma ctoc_vw : forall line c r s, vw line (c :: r) s -> exists s', ctoc s = Some (c, s') /\ vw line r s' /\ ok s' = ok s /\ same_m s s'.
Proof.
  intros line c r s V. unfold ctoc. pose proof (peek_vw _ _ _ V) as P. unfold peek in P. inb P.
  pose proof (vw_cnt _ _ _ V) as C. pose proof (vw_len _ _ _ V) as L. pose proof (vw_le _ _ _ V) as Q. cbn in C, Q.
  destruct (Z.leb_spec (cnt s) (len s)); [|lia].
  eexists. split; [reflexivity|]. split; [|now repeat split]. apply (skip_vw _ _ _ _ V).
Qed.

Fixpoint foldo {T} (g : T -> ascii -> option T) (v : T) (l : list ascii) : option T :=
  match l with [] => Some v | c :: l' => let* v' := g v c in foldo g v' l' end.

Lemma conv_loop_vw : forall T line cond f (g : T -> ascii -> option T), f NUL = false ->
  (forall r s, vw line r s -> cond s = Some (f (head r))) ->
  forall n v r s v', (List.length r < n)%nat -> vw line r s -> foldo g v (take_while f r) = Some v' ->
  exists s', conv_loop n cond g v s = Some (v', s') /\ vw line (drop_while f r) s' /\ ok s' = ok s /\ same_m s s'.
Proof.
  intros T line cond f g F0 Hc n. induction n as [|n IH]; intros v r s v' Hn V Hf; [lia|].
  cbn [conv_loop]. inb (Hc r s V). destruct (f (head r)) eqn:E.
  - destruct r as [|c r]; [unfold head in E; cbn in E; congruence|].
    destruct (ctoc_vw _ _ _ _ V) as (s1 & E1 & V1 & O1 & M1). inb E1.
    change (head (c :: r)) with c in E. cbn [take_while drop_while] in *. rewrite E in *. cbn [foldo] in Hf.
    destruct (g v c) as [w|]; [|discriminate Hf]. cbn [bind] in *.
    destruct (IH w r s1 v') as (s2 & E2 & V2 & O2 & M2); [cbn in Hn; lia|assumption|assumption|].
    exists s2. split; [exact E2|]. split; [exact V2|]. split; [congruence|now apply same_m_trans with s1].
  - rewrite take_stop in Hf by assumption. injection Hf as <-. rewrite drop_idem by assumption.
    exists s. split; [reflexivity|]. split; [assumption|]. split; [reflexivity|apply same_m_refl].
Qed.
Lemma conv_vw : forall T line cond f (g : T -> ascii -> option T), f NUL = false ->
  (forall r s, vw line r s -> cond s = Some (f (head r))) ->
  forall v r s v', vw line r s -> foldo g v (take_while f r) = Some v' ->
  exists s', conv cond g v s = Some (v', s') /\ vw line (drop_while f r) s' /\ ok s' = ok s /\ same_m s s'.
Proof.
  intros T line cond f g F0 Hc v r s v' V Hf. unfold conv. eapply conv_loop_vw; try eassumption.
  rewrite (vw_rounds _ _ _ V). pose proof (vw_le _ _ _ V). lia.
Qed.
Lemma foldo_total : forall T (g : T -> ascii -> T) v l, foldo (fun v c => Some (g v c)) v l = Some (fold_left g l v).
Proof. intros T g v l. revert v. induction l as [|c l IH]; intros v; [reflexivity|]. cbn. apply IH. Qed.

Definition fdigit := in_set DIGITS.
Lemma is_digit_vw : forall line r s, vw line r s -> is_digit s = Some (fdigit (head r)).
Proof. intros. now apply match1_vw with line. Qed.

(* an optional sign *)
Definition fminus := in_set (str "-"). Definition fplus := in_set (str "+").
Definition sign_neg (r : list ascii) : bool := fminus (head r).
Definition dropsign (r : list ascii) : list ascii := if sign_neg r then eat1 fminus r else eat1 fplus r.
Lemma sign_vw : forall line r s, vw line r s ->
  exists s1, skip1 (str "-") s = Some s1 /\ ok s1 = sign_neg r /\ same_m s s1 /\
  exists s2, (if sign_neg r then Some s1 else skip1 (str "+") s1) = Some s2 /\ vw line (dropsign r) s2 /\ same_m s s2.
Proof.
  intros line r s V. destruct (skip1_vw _ _ _ (str "-") V) as (s1 & E1 & V1 & O1 & M1 & F1).
  exists s1. split; [exact E1|]. split; [exact O1|]. split; [exact M1|]. unfold dropsign, sign_neg, fminus.
  destruct (in_set (str "-") (head r)) eqn:E.
  - exists s1. split; [reflexivity|]. split; [exact V1|exact M1].
  - assert (V1' : vw line r s1) by (rewrite (F1 eq_refl); exact V).
    destruct (skip1_vw _ _ _ (str "+") V1') as (s2 & E2 & V2 & O2 & M2 & F2). exists s2. split; [exact E2|]. split; [exact V2|].
    now apply same_m_trans with s1.
Qed.
Lemma suffix_sign : forall r, suffix (dropsign r) r.
Proof. intros r. unfold dropsign. destruct (sign_neg r); apply suffix_eat1. Qed.

(* the flag ctoi & co. leave *)
Definition moved (r' r : list ascii) : bool := negb (Nat.eqb (List.length r') (List.length r)).
Lemma moved_vw : forall line r s r' s', vw line r s -> vw line r' s' -> suffix r' r -> (cnt s <? cnt s') = moved r' r.
Proof.
  intros line r s r' s' V V' S. unfold moved. rewrite (vw_cnt _ _ _ V), (vw_cnt _ _ _ V'). apply suffix_len in S.
  destruct (Nat.eqb_spec (List.length r') (List.length r)); lia.
Qed.

Definition int_rest (r : list ascii) : list ascii := dropcom (drop_while fdigit (dropsign (dropbl r))).
Lemma suffix_int_rest : forall r, suffix (int_rest r) (dropbl r).
Proof. intros r. unfold int_rest. eapply suffix_trans; [apply suffix_eat1b|]. eapply suffix_trans; [apply suffix_drop|apply suffix_sign]. Qed.

Lemma ctoi_vw : forall line r s v w, vw line r s ->
  foldo (int_digit 10) 0 (take_while fdigit (dropsign (dropbl r))) = Some v ->
  int_chk (v * (if sign_neg (dropbl r) then -1 else 1)) = Some w ->
  exists s', ctoi s = Some (w, s') /\ vw line (int_rest r) s' /\ ok s' = moved (int_rest r) (dropbl r).
Proof.
  intros line r s v w V Hf Hw. unfold ctoi.
  destruct (skipbl_vw _ _ _ V) as (s1 & E1 & V1 & _). inb E1.
  destruct (sign_vw _ _ _ V1) as (s2 & E2 & O2 & M2 & s3 & E3 & V3 & M3). inb E2. rewrite O2. inb E3.
  destruct (conv_vw _ line is_digit fdigit (int_digit 10) eq_refl (is_digit_vw line) 0 _ s3 v V3 Hf) as (s4 & E4 & V4 & _).
  inb E4. destruct (skipcom_vw _ _ _ V4) as (s5 & E5 & V5 & _). inb E5. inb Hw.
  eexists. split; [reflexivity|]. split; [exact V5|]. cbn [ok set_ok]. apply moved_vw with line; try assumption. apply suffix_int_rest.
Qed.

Definition uns_rest (f : ascii -> bool) (r : list ascii) : list ascii := dropcom (drop_while f (dropbl r)).
Lemma suffix_uns_rest : forall f r, suffix (uns_rest f r) (dropbl r).
Proof. intros f r. unfold uns_rest. eapply suffix_trans; [apply suffix_eat1b|]. apply suffix_drop. Qed.
Lemma ctou_vw : forall line r s, vw line r s ->
  exists s', ctou s = Some (fold_left (fun v c => (10 * v + dig c) mod 4294967296) (take_while fdigit (dropbl r)) 0, s') /\
    vw line (uns_rest fdigit r) s' /\ ok s' = moved (uns_rest fdigit r) (dropbl r).
Proof.
  intros line r s V. unfold ctou.
  destruct (skipbl_vw _ _ _ V) as (s1 & E1 & V1 & _). inb E1.
  destruct (conv_vw _ line is_digit fdigit (fun v c => Some ((10 * v + dig c) mod 4294967296)) eq_refl (is_digit_vw line) 0 _ s1 _ V1 (foldo_total _ _ _ _)) as (s4 & E4 & V4 & _).
  inb E4. destruct (skipcom_vw _ _ _ V4) as (s5 & E5 & V5 & _). inb E5.
  eexists. split; [reflexivity|]. split; [exact V5|]. cbn [ok set_ok]. apply moved_vw with line; try assumption. apply suffix_uns_rest.
Qed.
Lemma ctoo_vw : forall line r s v, vw line r s -> foldo (int_digit 8) 0 (take_while fdigit (dropbl r)) = Some v ->
  exists s', ctoo s = Some (v, s') /\
    vw line (uns_rest fdigit r) s' /\ ok s' = moved (uns_rest fdigit r) (dropbl r).
Proof.
  intros line r s v V Hf. unfold ctoo.
  destruct (skipbl_vw _ _ _ V) as (s1 & E1 & V1 & _). inb E1.
  destruct (conv_vw _ line is_digit fdigit (int_digit 8) eq_refl (is_digit_vw line) 0 _ s1 _ V1 Hf) as (s4 & E4 & V4 & _).
  inb E4. destruct (skipcom_vw _ _ _ V4) as (s5 & E5 & V5 & _). inb E5.
  eexists. split; [reflexivity|]. split; [exact V5|]. cbn [ok set_ok]. apply moved_vw with line; try assumption. apply suffix_uns_rest.
Qed.
Definition fxdigit := in_set (str "0123456789abcdefABCDEF").
Lemma ctox_vw : forall line r s v, vw line r s -> foldo hex_digit 0 (take_while fxdigit (dropbl r)) = Some v ->
  exists s', ctox s = Some (v, s') /\
    vw line (uns_rest fxdigit r) s' /\ ok s' = moved (uns_rest fxdigit r) (dropbl r).
Proof.
  intros line r s v V Hf. unfold ctox.
  destruct (skipbl_vw _ _ _ V) as (s1 & E1 & V1 & _). inb E1.
  destruct (conv_vw _ line is_xdigit fxdigit hex_digit eq_refl (fun r s => match1_vw line r s _) 0 _ s1 _ V1 Hf) as (s4 & E4 & V4 & _).
  inb E4. destruct (skipcom_vw _ _ _ V4) as (s5 & E5 & V5 & _). inb E5.
  eexists. split; [reflexivity|]. split; [exact V5|]. cbn [ok set_ok]. apply moved_vw with line; try assumption. apply suffix_uns_rest.
Qed.

Lemma get_to_vw : forall line r s t, vw line r s ->
  exists s', get_to t s = Some (take_while (fun c => negb (Ascii.eqb c NUL) && negb (in_set t c)) r, s') /\
    vw line (drop_while (fun c => negb (Ascii.eqb c NUL) && negb (in_set t c)) r) s'.
Proof.
  intros line r s t V. unfold get_to. set (f := fun c => negb (Ascii.eqb c NUL) && negb (in_set t c)).
  assert (A : forall l v, foldo (fun v c => Some (v ++ [c])) v l = Some (v ++ l)).
  { induction l as [|c l IH]; intros v; cbn; [now rewrite app_nil_r|]. rewrite IH. now rewrite <- app_assoc. }
  destruct (conv_vw _ line (fun s => let* m := ns_more s in if m then let* b := match1 t s in Some (negb b) else Some false) f
    (fun v c => Some (v ++ [c])) eq_refl) with (v := @nil ascii) (r := r) (s := s) (v' := take_while f r) as (s1 & E1 & V1 & _);
    [|exact V|apply A|exists s1; split; assumption].
  intros r0 s0 V0. inb (ns_more_vw _ _ _ V0). unfold f. destruct (Ascii.eqb (head r0) NUL); cbn [negb andb]; [reflexivity|].
  now rewrite (match1_vw _ _ _ _ V0).
Qed.

Lemma ctostr_loop_vw : forall line t l acc r s, vw line r s ->
  exists acc' s' r', ctostr_loop l t acc s = Some (acc', s') /\ vw line r' s' /\ suffix r' r /\
   exists a, r = a ++ r' /\ acc' = acc ++ a /\ (List.length a <= l)%nat.
Proof.
  intros line t l. induction l as [|l IH]; intros acc r s V; cbn [ctostr_loop].
  - exists acc, s, r. split; [reflexivity|]. split; [assumption|]. split; [apply suffix_refl|]. exists []. now rewrite app_nil_r.
  - inb (is_term_vw _ _ _ t V). destruct (fterm t (head r)) eqn:E.
    + exists acc, s, r. split; [reflexivity|]. split; [assumption|]. split; [apply suffix_refl|]. exists []. rewrite app_nil_r. repeat split. cbn. lia.
    + destruct r as [|c r]; [discriminate E|]. destruct (ctoc_vw _ _ _ _ V) as (s1 & E1 & V1 & _). inb E1.
      destruct (IH (acc ++ [c]) r s1 V1) as (acc' & s' & r' & E2 & V2 & S2 & a & -> & -> & L).
      exists ((acc ++ [c]) ++ a), s', r'. split; [exact E2|]. split; [exact V2|]. split; [now apply suffix_cons|].
      exists (c :: a). split; [reflexivity|]. rewrite <- app_assoc. split; [reflexivity|]. cbn. lia.
Qed.
Lemma ctostr_vw : forall line t l r s, vw line r s ->
  exists d s' r', ctostr l t s = Some (d, s') /\ vw line r' s' /\ suffix r' r /\ (List.length d <= l)%nat.
Proof.
  intros line t l r s V. unfold ctostr.
  destruct (skipbl_vw _ _ _ V) as (s1 & E1 & V1 & _). inb E1.
  destruct (ctostr_loop_vw line t l [] _ _ V1) as (d & s2 & r2 & E2 & V2 & S2 & a & Ea & Ed & L). inb E2.
  destruct (skip_while_vw line (fun s => let* e := is_term t s in Some (negb e)) (fun c => negb (fterm t c)) eq_refl) with (r := r2) (s := s2)
    as (s3 & E3 & V3 & _); [|exact V2|].
  { intros r0 s0 V0. now inb (is_term_vw _ _ _ t V0). }
  inb E3. destruct (skipcom_vw _ _ _ V3) as (s4 & E4 & V4 & _). inb E4.
  exists d, s4, (dropcom (drop_while (fun c => negb (fterm t c)) r2)). split; [reflexivity|]. split; [exact V4|].
  split; [|cbn in Ed; now subst d].
  eapply suffix_trans; [apply suffix_eat1b|]. eapply suffix_trans; [apply suffix_drop|]. eapply suffix_trans; [exact S2|apply suffix_drop].
Qed.

(* strings *)
Lemma substr_vw : forall (line : list ascii) a b c, line = a ++ b ++ c ->
  substr line (Z.of_nat (List.length a)) (Z.of_nat (List.length b)) = Some b.
Proof.
  intros line a b c ->. unfold substr. rewrite !app_length.
  destruct ((0 <=? Z.of_nat (List.length a)) && (Z.of_nat (List.length a) <=? Z.of_nat (List.length a + (List.length b + List.length c)))
     && (0 <=? Z.of_nat (List.length b))) eqn:E; [|lia].
  rewrite !Nat2Z.id. rewrite skipn_app, skipn_all, Nat.sub_diag. cbn.
  rewrite firstn_app, firstn_all, Nat.sub_diag. cbn. now rewrite app_nil_r.
Qed.
Lemma substr_some : forall line b e, 0 <= b -> b <= e -> e <= Z.of_nat (List.length line) -> exists x, substr line b (e - b) = Some x.
Proof.
  intros line b e H1 H2 H3. unfold substr.
  destruct ((0 <=? b) && (b <=? Z.of_nat (List.length line)) && (0 <=? e - b)) eqn:E; [|lia]. eauto.
Qed.

Lemma eat1_len : forall f r, f (head r) = true -> f NUL = false -> S (List.length (eat1 f r)) = List.length r.
Proof. intros f [|c r] H N; [unfold head in H; cbn in H; congruence|]. unfold head in H. cbn in *. now rewrite H. Qed.
Lemma eat1_id : forall f r, f (head r) = false -> eat1 f r = r.
Proof. intros f [|c r] H; [reflexivity|]. unfold head in H. cbn in *. now rewrite H. Qed.

Lemma quoted_safe : forall line bq eq, bq <> NUL -> eq <> NUL -> forall n quotes b acc r s,
  (List.length r < n)%nat -> vw line r s -> 0 <= b <= cnt s ->
  exists acc' b' e' s' r', quoted n bq eq quotes b acc s = Some (acc', b', e', s') /\ vw line r' s' /\ suffix r' r /\
    0 <= b' /\ b' <= e' /\ e' <= Z.of_nat (List.length line).
Proof.
  intros line bq eq Nb Ne n. induction n as [|n IH]; intros quotes b acc r s Hn V Hb; [lia|].
  cbn [quoted]. inb (ns_more_vw _ _ _ V). pose proof (vw_cnt _ _ _ V) as C.
  destruct (Ascii.eqb_spec (head r) NUL) as [En|En]; cbn [negb].
  { exists acc, b, (cnt s), s, r. split; [reflexivity|]. split; [assumption|]. split; [apply suffix_refl|]. lia. }
  destruct (head_cons r En) as (c & r1 & Er & Ec).
  destruct (skip1c_vw _ _ _ eq Ne V) as (s1 & E1 & V1 & O1 & _ & F1). inb E1. rewrite O1.
  destruct (Ascii.eqb (head r) eq) eqn:Q1.
  { pose proof (eat1_len (fun c => Ascii.eqb c eq) r Q1) as L. 
    assert (Ascii.eqb NUL eq = false) by (destruct (Ascii.eqb_spec NUL eq); [now elim Ne|reflexivity]). specialize (L H).
    pose proof (vw_cnt _ _ _ V1) as C1. pose proof (vw_le _ _ _ V) as LL.
    destruct (Z.leb_spec (quotes - 1) 0).
    - exists acc, b, (cnt s1 - 1), s1, (eat1 (fun c => Ascii.eqb c eq) r). split; [reflexivity|]. split; [assumption|]. split; [apply suffix_eat1|]. lia.
    - edestruct (fun A B => IH (quotes - 1) b acc _ s1 A V1 B) as (acc' & b' & e' & s' & r' & E & V' & S' & B'); [lia|lia|].
      exists acc', b', e', s', r'. split; [exact E|]. split; [exact V'|]. split; [eapply suffix_trans; [exact S'|apply suffix_eat1]|exact B']. }
  assert (V1' : vw line r s1) by (rewrite (F1 eq_refl); exact V).
  destruct (skip1c_vw _ _ _ bq Nb V1') as (s2 & E2 & V2 & O2 & _ & F2). inb E2. rewrite O2.
  destruct (Ascii.eqb (head r) bq) eqn:Q2.
  { pose proof (eat1_len (fun c => Ascii.eqb c bq) r Q2) as L. 
    assert (Ascii.eqb NUL bq = false) by (destruct (Ascii.eqb_spec NUL bq); [now elim Nb|reflexivity]). specialize (L H).
    pose proof (vw_cnt _ _ _ V2) as C1. pose proof (vw_le _ _ _ V) as LL.
    edestruct (fun A B => IH (quotes + 1) b acc _ s2 A V2 B) as (acc' & b' & e' & s' & r' & E & V' & S' & B'); [lia|lia|].
    exists acc', b', e', s', r'. split; [exact E|]. split; [exact V'|]. split; [eapply suffix_trans; [exact S'|apply suffix_eat1]|exact B']. }
  assert (V2' : vw line r s2) by (rewrite (F2 eq_refl); exact V1').
  destruct (skip1c_vw _ _ _ "\"%char ltac:(discriminate) V2') as (s3 & E3 & V3 & O3 & _ & F3). inb E3. rewrite O3.
  destruct (Ascii.eqb (head r) "\") eqn:Q3.
  { pose proof (eat1_len (fun c => Ascii.eqb c "\") r Q3 eq_refl) as L.
    pose proof (vw_cnt _ _ _ V3) as C1. pose proof (vw_le _ _ _ V) as LL.
    assert (Cl : cmd s3 = line) by apply V3.
    replace (cnt s3 - 1 - b) with ((cnt s3 - 1) - b) by lia. rewrite Cl.
    destruct (substr_some line b (cnt s3 - 1)) as (piece & Ep); [lia|lia|lia|]. inb Ep.
    destruct (skip1c_vw _ _ _ eq Ne V3) as (s4 & E4 & V4 & O4 & _ & F4). inb E4.
    pose proof (suffix_len _ _ (suffix_eat1 (fun c => Ascii.eqb c eq) (eat1 (fun c => Ascii.eqb c "\") r))) as L4.
    pose proof (vw_cnt _ _ _ V4) as C4.
    edestruct (fun A B => IH quotes (cnt s3) (acc ++ piece) _ s4 A V4 B) as (acc' & b' & e' & s' & r' & E & V' & S' & B'); [lia|lia|].
    exists acc', b', e', s', r'. split; [exact E|]. split; [exact V'|]. split; [|exact B'].
    eapply suffix_trans; [exact S'|]. eapply suffix_trans; apply suffix_eat1. }
  assert (V3' : vw line r s3) by (rewrite (F3 eq_refl); exact V2').
  subst r. destruct (skip_vw _ _ _ _ V3') as [V4 _]. pose proof (vw_cnt _ _ _ V4) as C4. pose proof (vw_le _ _ _ V) as LL. cbn in *.
  edestruct (fun A B => IH quotes b acc _ (skip s3) A V4 B) as (acc' & b' & e' & s' & r' & E & V' & S' & B'); [lia|change (cnt (skip s3)) with (cnt s3 + 1); lia|].
  exists acc', b', e', s', r'. split; [exact E|]. split; [exact V'|]. split; [now apply suffix_cons|exact B'].
Qed.

Lemma find_pos_nth : forall c l k, find_pos c l = Some k -> nth k l NUL = c /\ (k < List.length l)%nat.
Proof.
  intros c l. induction l as [|d l IH]; intros k H; [discriminate H|]. cbn in H.
  destruct (Ascii.eqb_spec c d) as [->|N]; [injection H as <-; cbn; split; [reflexivity|lia]|].
  destruct (find_pos c l) as [j|] eqn:E; [|discriminate H]. injection H as <-. destruct (IH j eq_refl) as [A B]. cbn. split; [assumption|lia].
Qed.

Lemma ctos_safe : forall line r s t bqs eqs, List.length bqs = List.length eqs -> ~ In NUL eqs -> vw line r s ->
  exists x s' r', ctos t bqs eqs s = Some (x, s') /\ vw line r' s' /\ suffix r' r.
Proof.
  intros line r s t bqs eqs Hl Hn V. unfold ctos. rewrite Hl, Nat.eqb_refl. cbn [negb].
  destruct (skipbl_vw _ _ _ V) as (s1 & E1 & V1 & _). inb E1. inb (peek_vw _ _ _ V1).
  assert (Main : exists x b e s2 r2,
    match (if Ascii.eqb (head (dropbl r)) NUL then None else find_pos (head (dropbl r)) bqs) with
    | Some k =>
        let s := skip s1 in
        let* (acc, b, e, s) := quoted (rounds s) (nth k bqs NUL) (nth k eqs NUL) 1 (cnt s) [] s in
        let* piece := substr (cmd s) b (e - b) in
        Some (acc ++ piece, b, e, s)
    | None =>
        let b := cnt s1 in
        let* s := skip_while (fun s => let* m := ns_more s in if m then let* x := is_term t s in Some (negb x) else Some false) s1 in
        let* r := substr (cmd s) b (cnt s - b) in
        Some (r, b, cnt s, s)
    end = Some (x, b, e, s2) /\ vw line r2 s2 /\ suffix r2 (dropbl r)).
  { destruct (Ascii.eqb_spec (head (dropbl r)) NUL) as [En|En].
    2: destruct (find_pos (head (dropbl r)) bqs) as [k|] eqn:Ek.
    2:{ destruct (head_cons _ En) as (c & q & Eq & Ec). rewrite Ec in *. rewrite Eq in *.
        destruct (find_pos_nth _ _ _ Ek) as [A B]. destruct (skip_vw _ _ _ _ V1) as [V2 _]. cbv zeta.
        destruct (quoted_safe line (nth k bqs NUL) (nth k eqs NUL)) with (n := rounds (skip s1)) (quotes := 1) (b := cnt (skip s1)) (acc := @nil ascii)
          (r := q) (s := skip s1) as (acc' & b' & e' & s3 & r3 & E3 & V3 & S3 & B1 & B2 & B3).
        - now rewrite A.
        - intros X. apply Hn. rewrite <- X. apply nth_In. lia.
        - rewrite (vw_rounds _ _ _ V2). pose proof (vw_le _ _ _ V2). lia.
        - assumption.
        - pose proof (vw_cnt _ _ _ V2). pose proof (vw_le _ _ _ V2). lia.
        - inb E3. replace (cmd s3) with line by (symmetry; apply V3).
          destruct (substr_some line b' e') as (piece & Ep); [lia|lia|lia|]. inb Ep.
          eexists _, _, _, _, r3. split; [reflexivity|]. split; [assumption|]. now apply suffix_cons. }
    all: cbv zeta; destruct (skip_while_vw line (fun s => let* m := ns_more s in if m then let* x := is_term t s in Some (negb x) else Some false)
       (fun c => negb (Ascii.eqb c NUL) && negb (fterm t c)) eq_refl) with (r := dropbl r) (s := s1) as (s2 & E2 & V2 & _);
      [intros r0 s0 V0; inb (ns_more_vw _ _ _ V0); destruct (Ascii.eqb (head r0) NUL); cbn [negb andb]; [reflexivity|];
       now rewrite (is_term_vw _ _ _ _ V0) | exact V1 | ];
      inb E2; replace (cmd s2) with line by (symmetry; apply V2);
      pose proof (vw_cnt _ _ _ V1); pose proof (vw_le _ _ _ V1); pose proof (vw_cnt _ _ _ V2);
      pose proof (drop_len (fun c => negb (Ascii.eqb c NUL) && negb (fterm t c)) (dropbl r));
      destruct (substr_some line (cnt s1) (cnt s2)) as (piece & Ep); [lia|lia|lia| ]; inb Ep;
      eexists _, _, _, _, _; split; [reflexivity|]; split; [exact V2|]; apply suffix_drop. }
  destruct Main as (x & b & e & s2 & r2 & E2 & V2 & S2). cbv zeta in E2. cbv zeta. inb E2.
  destruct (skipcom_vw _ _ _ V2) as (s3 & E3 & V3 & _). inb E3.
  eexists _, _, _. split; [reflexivity|]. split; [exact V3|]. eapply suffix_trans; [apply suffix_eat1b|]. eapply suffix_trans; [exact S2|apply suffix_drop].
Qed.
