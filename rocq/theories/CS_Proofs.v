(* Lemmas about the scanner model: every operation seen as a function of the text after the cursor. *)
Require Import ZArith QArith List Ascii String Bool Lia.
Require Import ZifyBool.
Require Import Verif.Loops Verif.Wmatch_Model Verif.CS_Model.
Import ListNotations.
Local Open Scope Z_scope.

(* the scanner s is on the given line, with r the text after the cursor *)
Definition vw (line r : list ascii) (s : cs) : Prop :=
  cmd s = line /\ len s = Z.of_nat (List.length line) /\
  exists pre, line = pre ++ r /\ cnt s = Z.of_nat (List.length pre).

Definition head (r : list ascii) : ascii := hd NUL r.

Fixpoint drop_while (f : ascii -> bool) (r : list ascii) : list ascii :=
  match r with [] => [] | c :: r' => if f c then drop_while f r' else r end.
Fixpoint take_while (f : ascii -> bool) (r : list ascii) : list ascii :=
  match r with [] => [] | c :: r' => if f c then c :: take_while f r' else [] end.

Lemma take_drop : forall f r, take_while f r ++ drop_while f r = r.
Proof. induction r as [|c r IH]; cbn; [reflexivity|]. destruct (f c); cbn; [now rewrite IH|reflexivity]. Qed.
Lemma take_all : forall f r, Forall (fun c => f c = true) (take_while f r).
Proof. induction r as [|c r IH]; cbn; [constructor|]. destruct (f c) eqn:E; constructor; assumption. Qed.
Lemma drop_head : forall f r, f NUL = false -> f (head (drop_while f r)) = false.
Proof. intros f r H. induction r as [|c r IH]; cbn; [assumption|]. destruct (f c) eqn:E; [assumption|exact E]. Qed.
Lemma drop_idem : forall f r, f (head r) = false -> drop_while f r = r.
Proof. intros f [|c r] H; [reflexivity|]. cbn in *. now rewrite H. Qed.
Lemma drop_app : forall f a r, Forall (fun c => f c = true) a -> drop_while f (a ++ r) = drop_while f r.
Proof. intros f a r H. induction H as [|c a Hc _ IH]; cbn; [reflexivity|]. now rewrite Hc. Qed.
Lemma take_app : forall f a r, Forall (fun c => f c = true) a -> take_while f (a ++ r) = a ++ take_while f r.
Proof. intros f a r H. induction H as [|c a Hc _ IH]; cbn; [reflexivity|]. now rewrite Hc, IH. Qed.
Lemma take_stop : forall f r, f (head r) = false -> take_while f r = [].
Proof. intros f [|c r] H; [reflexivity|]. cbn in *. now rewrite H. Qed.
Lemma drop_len : forall f r, (List.length (drop_while f r) <= List.length r)%nat.
Proof. induction r as [|c r IH]; cbn; [lia|]. destruct (f c); cbn; lia. Qed.

Lemma vw_cnt : forall line r s, vw line r s -> cnt s = Z.of_nat (List.length line) - Z.of_nat (List.length r).
Proof. intros line r s (_ & _ & pre & -> & ->). rewrite app_length. lia. Qed.
Lemma vw_le : forall line r s, vw line r s -> (List.length r <= List.length line)%nat.
Proof. intros line r s (_ & _ & pre & -> & _). rewrite app_length. lia. Qed.
Lemma vw_len : forall line r s, vw line r s -> len s = Z.of_nat (List.length line).
Proof. now intros line r s (_ & H & _). Qed.
Lemma vw_fun : forall line r r' s, vw line r s -> vw line r' s -> r = r'.
Proof.
  intros line r r' s (_ & _ & pre & E & C) (_ & _ & pre' & E' & C').
  assert (L : List.length pre = List.length pre') by lia.
  rewrite E in E'. clear -E' L. revert pre' E' L. induction pre as [|x pre IH]; intros [|y pre'] E L; cbn in *; try lia; [assumption|].
  injection E as _ E. apply (IH pre' E). lia.
Qed.
Lemma vw_rounds : forall line r s, vw line r s -> rounds s = S (List.length line).
Proof. intros line r s (H & _). unfold rounds. now rewrite H. Qed.
Lemma vw_start : forall line, vw line line (cs_string line).
Proof. intros line. split; [reflexivity|]. split; [reflexivity|]. exists []. split; reflexivity. Qed.
Lemma vw_ok : forall line r s b, vw line r s -> vw line r (set_ok s b).
Proof. intros line r s b H. exact H. Qed.
Lemma vw_m : forall line r s b e, vw line r s -> vw line r (set_match s b e).
Proof. intros line r s b e H. exact H. Qed.
Lemma vw_back : forall line r s r' s', vw line r s -> vw line r' s' -> vw line r (set_cnt s' (cnt s)).
Proof. intros line r s r' s' (H1 & H2 & pre & H3 & H4) (G1 & G2 & _). repeat split; try assumption. now exists pre. Qed.
Lemma vw_reset : forall line r s r' s', vw line r s -> vw line r' s' -> vw line r (reset (cnt s) s').
Proof. intros. unfold reset. apply vw_ok. eapply vw_back; eassumption. Qed.
Lemma vw_reset_fail : forall line r s r' s', vw line r s -> vw line r' s' -> vw line r (reset_fail (cnt s) s').
Proof. intros. unfold reset_fail. apply vw_ok. eapply vw_back; eassumption. Qed.

Lemma nth_app_hd : forall (pre r : list ascii) c, nth_error (pre ++ c :: r) (List.length pre) = Some c.
Proof. intros. rewrite nth_error_app2 by lia. now rewrite Nat.sub_diag. Qed.

Lemma peek_vw : forall line r s, vw line r s -> peek s = Some (head r).
Proof.
  intros line r s (E & _ & pre & Ep & Ec). unfold peek, at_index. rewrite E, Ec, Ep, app_length.
  destruct (Z.ltb_spec (Z.of_nat (List.length pre)) 0); [lia|].
  destruct r as [|c r]; cbn [List.length].
  - destruct (Z.eqb_spec (Z.of_nat (List.length pre)) (Z.of_nat (List.length pre + 0))); [reflexivity|lia].
  - destruct (Z.eqb_spec (Z.of_nat (List.length pre)) (Z.of_nat (List.length pre + S (List.length r)))); [lia|].
    rewrite Nat2Z.id. apply nth_app_hd.
Qed.
Lemma skip_vw : forall line c r s, vw line (c :: r) s -> vw line r (skip s) /\ ok (skip s) = true.
Proof.
  intros line c r s H. pose proof (vw_cnt _ _ _ H) as C. pose proof (vw_len _ _ _ H) as L. pose proof (vw_le _ _ _ H) as Q.
  destruct H as (E & _ & pre & Ep & Ec). split.
  - split; [exact E|]. split; [exact L|]. exists (pre ++ [c]). split; [now rewrite <- app_assoc|].
    cbn [skip set_cnt set_ok cnt]. rewrite app_length. cbn [List.length]. lia.
  - cbn [skip set_cnt set_ok cnt ok len]. cbn [List.length] in *. lia.
Qed.
Lemma head_cons : forall r, head r <> NUL -> exists c r', r = c :: r' /\ head r = c.
Proof. intros [|c r] H; [now elim H|]. now exists c, r. Qed.

Ltac inb H := cbn [bind]; rewrite ?H; cbn [bind].

Lemma ns_more_vw : forall line r s, vw line r s -> ns_more s = Some (negb (Ascii.eqb (head r) NUL)).
Proof. intros line r s H. unfold ns_more. now inb (peek_vw _ _ _ H). Qed.
Lemma match1c_vw : forall line r s c, vw line r s -> match1c c s = Some (Ascii.eqb (head r) c).
Proof. intros line r s c H. unfold match1c. now inb (peek_vw _ _ _ H). Qed.
Definition in_set (t : list ascii) (c : ascii) : bool := negb (Ascii.eqb c NUL) && mem c t.
Lemma match1_vw : forall line r s t, vw line r s -> match1 t s = Some (in_set t (head r)).
Proof. intros line r s t H. unfold match1. now inb (peek_vw _ _ _ H). Qed.
Definition fterm (t : list ascii) (c : ascii) : bool := Ascii.eqb c NUL || isspace c || in_set t c.
Lemma is_term_vw : forall line r s t, vw line r s -> is_term t s = Some (fterm t (head r)).
Proof.
  intros line r s t H. unfold is_term, fterm. inb (peek_vw _ _ _ H).
  destruct (Ascii.eqb (head r) NUL || isspace (head r)) eqn:E; cbn; [reflexivity|]. now apply match1_vw with line.
Qed.
Definition falpha (c : ascii) : bool := isalpha (toascii c).
Lemma is_alpha_vw : forall line r s, vw line r s -> is_alpha s = Some (falpha (head r)).
Proof. intros line r s H. unfold is_alpha. now inb (peek_vw _ _ _ H). Qed.

Definition same_m (s s' : cs) : Prop := begin_match s' = begin_match s /\ end_match s' = end_match s.
Lemma same_m_refl : forall s, same_m s s. Proof. now split. Qed.
Lemma same_m_trans : forall a b c, same_m a b -> same_m b c -> same_m a c.
Proof. unfold same_m. intuition congruence. Qed.

Lemma while_vw : forall line cond f, f NUL = false ->
  (forall r s, vw line r s -> cond s = Some (f (head r))) ->
  forall n r s, (List.length r < n)%nat -> vw line r s ->
  exists s', while n cond (fun s => Some (skip s)) s = Some s' /\ vw line (drop_while f r) s' /\
    (f (head r) = false -> s' = s) /\ (f (head r) = true -> ok s' = true) /\ same_m s s'.
Proof.
  intros line cond f F0 Hc n. induction n as [|n IH]; intros r s Hn Hv; [lia|].
  cbn [while]. inb (Hc r s Hv). destruct (f (head r)) eqn:E.
  - destruct r as [|c r]; [unfold head in E; cbn in E; congruence|].
    destruct (skip_vw _ _ _ _ Hv) as [Hv' Ho].
    destruct (IH r (skip s)) as (s' & Es & V & A & B & M); [cbn in Hn; lia|assumption|].
    exists s'. split; [exact Es|]. change (head (c :: r)) with c in E. cbn [drop_while]. rewrite E. split; [exact V|].
    split; [discriminate|]. split; [|exact M]. intros _. destruct (f (head r)) eqn:E2; [now apply B|].
    rewrite (A eq_refl). exact Ho.
  - exists s. split; [reflexivity|]. rewrite drop_idem by assumption. split; [assumption|]. split; [reflexivity|].
    split; [discriminate|apply same_m_refl].
Qed.
Lemma skip_while_vw : forall line cond f, f NUL = false ->
  (forall r s, vw line r s -> cond s = Some (f (head r))) ->
  forall r s, vw line r s ->
  exists s', skip_while cond s = Some s' /\ vw line (drop_while f r) s' /\
    (f (head r) = false -> s' = s) /\ (f (head r) = true -> ok s' = true) /\ same_m s s'.
Proof.
  intros line cond f F0 Hc r s Hv. unfold skip_while. rewrite (vw_rounds _ _ _ Hv).
  apply while_vw; try assumption. pose proof (vw_le _ _ _ Hv). lia.
Qed.

Definition fblank (c : ascii) : bool := negb (Ascii.eqb c NUL) && negb (isgraph c).
Definition dropbl := drop_while fblank.
Lemma skipbl_vw : forall line r s, vw line r s ->
  exists s', skipbl s = Some s' /\ vw line (dropbl r) s' /\ (fblank (head r) = false -> s' = s) /\
    (fblank (head r) = true -> ok s' = true) /\ same_m s s'.
Proof.
  intros line r s H. apply skip_while_vw; [reflexivity| |assumption].
  intros r' s' H'. now inb (peek_vw _ _ _ H').
Qed.
Lemma dropbl_head : forall r, fblank (head (dropbl r)) = false.
Proof. intros r. now apply drop_head. Qed.

(* one character of the set, if it is there *)
Definition eat1 (f : ascii -> bool) (r : list ascii) : list ascii :=
  match r with c :: r' => if f c then r' else r | [] => [] end.
Lemma skip1_vw : forall line r s t, vw line r s ->
  exists s', skip1 t s = Some s' /\ vw line (eat1 (in_set t) r) s' /\ ok s' = in_set t (head r) /\ same_m s s' /\
   (in_set t (head r) = false -> s' = set_ok s false).
Proof.
  intros line r s t H. unfold skip1. inb (match1_vw _ _ _ t H).
  destruct (in_set t (head r)) eqn:E.
  - destruct r as [|c r]; [discriminate E|]. destruct (skip_vw _ _ _ _ H) as [V O]. rewrite O.
    exists (skip s). split; [reflexivity|]. change (head (c :: r)) with c in E. cbn [eat1]. rewrite E.
    split; [exact V|]. split; [exact O|]. split; [now split|discriminate].
  - exists (set_ok s false). split; [reflexivity|]. split; [|now repeat split].
    destruct r as [|c r]; [exact H|]. change (head (c :: r)) with c in E. cbn [eat1]. rewrite E. exact H.
Qed.
(* match1(char) also "matches" NUL against NUL at the end, where skip would leave the text *)
Lemma skip1c_vw : forall line r s t, t <> NUL -> vw line r s ->
  exists s', skip1c t s = Some s' /\ vw line (eat1 (fun c => Ascii.eqb c t) r) s' /\ ok s' = Ascii.eqb (head r) t /\ same_m s s' /\
   (Ascii.eqb (head r) t = false -> s' = set_ok s false).
Proof.
  intros line r s t N H. unfold skip1c. inb (match1c_vw _ _ _ t H).
  destruct (Ascii.eqb (head r) t) eqn:E.
  - destruct r as [|c r]; [apply Ascii.eqb_eq in E; now elim N|]. destruct (skip_vw _ _ _ _ H) as [V O]. rewrite O.
    exists (skip s). split; [reflexivity|]. change (head (c :: r)) with c in E. cbn [eat1]. rewrite E.
    split; [exact V|]. split; [exact O|]. split; [now split|discriminate].
  - exists (set_ok s false). split; [reflexivity|]. split; [|now repeat split].
    destruct r as [|c r]; [exact H|]. change (head (c :: r)) with c in E. cbn [eat1]. rewrite E. exact H.
Qed.
Definition eat1b (f : ascii -> bool) (r : list ascii) := dropbl (eat1 f (dropbl r)).
Lemma skip1b_vw : forall line r s t, vw line r s ->
  exists s', skip1b t s = Some s' /\ vw line (eat1b (in_set t) r) s' /\ same_m s s' /\ ok s' = in_set t (head (dropbl r)).
Proof.
  intros line r s t H. unfold skip1b.
  destruct (skipbl_vw _ _ _ H) as (s1 & E1 & V1 & _ & _ & M1). inb E1.
  destruct (skip1_vw _ _ _ t V1) as (s2 & E2 & V2 & O2 & M2 & F2). inb E2.
  destruct (skipbl_vw _ _ _ V2) as (s3 & E3 & V3 & A3 & B3 & M3). rewrite E3.
  exists s3. split; [reflexivity|]. split; [exact V3|]. split; [eapply same_m_trans; [|exact M3]; eapply same_m_trans; eassumption|].
  destruct (fblank (head (eat1 (in_set t) (dropbl r)))) eqn:E4.
  - rewrite (B3 eq_refl). destruct (in_set t (head (dropbl r))) eqn:E5; [reflexivity|].
    exfalso. revert E4. destruct (dropbl r) as [|c q] eqn:E6; [discriminate|].
    change (head (c :: q)) with c in E5. cbn [eat1]. rewrite E5. rewrite <- E6. rewrite dropbl_head. discriminate.
  - now rewrite (A3 eq_refl).
Qed.
Lemma skip1bc_vw : forall line r s t, t <> NUL -> vw line r s ->
  exists s', skip1bc t s = Some s' /\ vw line (eat1b (fun c => Ascii.eqb c t) r) s' /\ same_m s s' /\ ok s' = Ascii.eqb (head (dropbl r)) t.
Proof.
  intros line r s t N H. unfold skip1bc.
  destruct (skipbl_vw _ _ _ H) as (s1 & E1 & V1 & _ & _ & M1). inb E1.
  destruct (skip1c_vw _ _ _ t N V1) as (s2 & E2 & V2 & O2 & M2 & F2). inb E2.
  destruct (skipbl_vw _ _ _ V2) as (s3 & E3 & V3 & A3 & B3 & M3). rewrite E3.
  exists s3. split; [reflexivity|]. split; [exact V3|]. split; [eapply same_m_trans; [|exact M3]; eapply same_m_trans; eassumption|].
  destruct (fblank (head (eat1 (fun c => Ascii.eqb c t) (dropbl r)))) eqn:E4.
  - rewrite (B3 eq_refl). destruct (Ascii.eqb (head (dropbl r)) t) eqn:E5; [reflexivity|].
    exfalso. revert E4. destruct (dropbl r) as [|c q] eqn:E6; [discriminate|].
    change (head (c :: q)) with c in E5. cbn [eat1]. rewrite E5. rewrite <- E6. rewrite dropbl_head. discriminate.
  - now rewrite (A3 eq_refl).
Qed.
Definition fcomma := in_set (str ",").
Definition dropcom := eat1b fcomma.
Lemma skipcom_vw : forall line r s, vw line r s ->
  exists s', skipcom s = Some s' /\ vw line (dropcom r) s' /\ same_m s s' /\ ok s' = fcomma (head (dropbl r)).
Proof. intros. now apply skip1b_vw. Qed.

(* r' is r after moving forward *)
Definition suffix (r' r : list ascii) : Prop := exists a, r = a ++ r'.
Lemma suffix_refl : forall r, suffix r r. Proof. intros r. now exists []. Qed.
Lemma suffix_trans : forall a b c, suffix a b -> suffix b c -> suffix a c.
Proof. intros a b c [x ->] [y ->]. exists (y ++ x). now rewrite app_assoc. Qed.
Lemma suffix_drop : forall f r, suffix (drop_while f r) r.
Proof. intros f r. exists (take_while f r). now rewrite take_drop. Qed.
Lemma suffix_eat1 : forall f r, suffix (eat1 f r) r.
Proof. intros f [|c r]; [apply suffix_refl|]. cbn. destruct (f c); [now exists [c]|apply suffix_refl]. Qed.
Lemma suffix_eat1b : forall f r, suffix (eat1b f r) r.
Proof. intros f r. unfold eat1b. eapply suffix_trans; [apply suffix_drop|]. eapply suffix_trans; [apply suffix_eat1|apply suffix_drop]. Qed.
Lemma suffix_cons : forall c r r', suffix r' r -> suffix r' (c :: r).
Proof. intros c r r' [a ->]. now exists (c :: a). Qed.
Lemma suffix_len : forall r' r, suffix r' r -> (List.length r' <= List.length r)%nat.
Proof. intros r' r [a ->]. rewrite app_length. lia. Qed.
Lemma suffix_same : forall r' r, suffix r' r -> List.length r' = List.length r -> r' = r.
Proof. intros r' r [a ->] H. rewrite app_length in H. destruct a; [reflexivity|cbn in H; lia]. Qed.
Lemma vw_same_cnt : forall line r s r' s', vw line r s -> vw line r' s' -> (cnt s' = cnt s <-> r' = r).
Proof.
  intros line r s r' s' H H'. split.
  - intros E. apply vw_fun with line s'; [assumption|].
    destruct H as (H1 & H2 & pre & H3 & H4). destruct H' as (G1 & G2 & _). repeat split; try assumption. exists pre. split; [assumption|congruence].
  - intros ->. rewrite (vw_cnt _ _ _ H), (vw_cnt _ _ _ H'). reflexivity.
Qed.
