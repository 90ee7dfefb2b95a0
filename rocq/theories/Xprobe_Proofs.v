(* Proofs about Xprobe_Model. *)
Require Import String.
Require Import Reals List Ascii Bool Lia Lra.
Require Import Verif.Loops Verif.Wmatch_Model Verif.CS_Model Verif.CS_Proofs Verif.CS_Ops Verif.CS_Word Verif.Params_Model Verif.P_Params Verif.Xprobe_Model.
Import ListNotations.
Local Open Scope string_scope.
Local Open Scope list_scope.

(* ---- vocabulary shared with the theorem file ---- *)
(* the letter that asks for a part of a complex number *)
Definition letter (m : mod_t) : list ascii :=
  match m with mtNONE => [] | mtMAG => str "m" | mtPHASE => str "p" | mtREAL => str "r" | mtIMAG => str "i" end.
(* w is the name n, the letter for m, and db if decibels are wanted; letters of either case when ci *)
Definition reads (ci : bool) (w n : list ascii) (m : mod_t) (db : bool) : Prop :=
  same_name ci w (n ++ letter m ++ (if db then str "db" else [])).

(* ---- names ---- *)
Lemma same_lower : forall ci a b, same_name ci a b -> map to_lower a = map to_lower b.
Proof. intros ci a b H. induction H as [|x y a b S H IH]; [reflexivity|]. cbn [map]. rewrite IH. destruct S as [->|[_ ->]]; reflexivity. Qed.
Lemma same_length : forall ci a b, same_name ci a b -> length a = length b.
Proof. intros ci a b H. induction H; cbn [length]; congruence. Qed.
Lemma ident_app : forall a b, ident (a ++ b) -> a <> [] -> ident a.
Proof. intros a b [_ F] N. split; [assumption|]. now apply Forall_app in F. Qed.
Lemma ident_app_r : forall a b, ident (a ++ b) -> b <> [] -> ident b.
Proof. intros a b [_ F] N. split; [assumption|]. now apply Forall_app in F. Qed.

Lemma Umatch_db : forall ci x, ident x -> exists r, Umatch ci x (str "db ") = Some r /\ (r = true <-> same_name ci x (str "db")).
Proof.
  intros ci x H. change (str "db ") with (str "db" ++ [" "%char]). apply Umatch_name; [assumption|].
  split; [discriminate|]. repeat constructor; try discriminate; cbn; intuition discriminate.
Qed.

(* ---- the general statement about ac_probe_num ---- *)
(* a name that cannot be mistaken for a name with something after it *)
Definition good_name (n : list ascii) : Prop :=
  n <> [] /\ to_lower (last n NUL) <> "b"%char /\ ((1 < length n)%nat -> ~ In (to_lower (last n NUL)) (str "mpri")).

Lemma last_map : forall (l : list ascii), l <> [] -> last (map to_lower l) NUL = to_lower (last l NUL).
Proof. intros l. induction l as [|a l IH]; intros H; [contradiction|]. destruct l as [|b l]; [reflexivity|]. cbn [map last] in *. apply IH. discriminate. Qed.
Lemma last_nth : forall (l : list ascii) r d, l <> [] -> nth (length l - 1) (l ++ r) d = last l NUL.
Proof.
  intros l r d. induction l as [|a l IH]; intros H; [contradiction|]. destruct l as [|b l]; [reflexivity|].
  replace (length (a :: b :: l) - 1)%nat with (S (length (b :: l) - 1)) by (cbn [length]; lia). cbn [app nth last] in *. apply IH. discriminate.
Qed.
Lemma same_last : forall ci a b, same_name ci a b -> a <> [] -> to_lower (last a NUL) = to_lower (last b NUL).
Proof.
  intros ci a b H N. assert (b <> []) by (intros ->; inversion H; subst; contradiction).
  rewrite <- !last_map by assumption. now rewrite (same_lower _ _ _ H).
Qed.

Lemma modifier_none : forall ci c, ~ In (to_lower c) (str "mpri") -> modifier_of ci c = mtNONE.
Proof.
  intros ci c H. unfold modifier_of.
  assert (A : forall d, In d (str "mpri") -> Ascii.eqb (fix_case ci c) d = false).
  { intros d Hd. destruct (Ascii.eqb_spec (fix_case ci c) d) as [E|]; [|reflexivity]. exfalso. apply H. destruct ci; cbn [fix_case] in E.
    - now rewrite E.
    - subst d. cbn in Hd. repeat destruct Hd as [<-|Hd]; cbn; auto. }
  rewrite !A by (cbn; auto). reflexivity.
Qed.
Lemma modifier_letter : forall ci c m, m <> mtNONE -> same_name ci [c] (letter m) -> modifier_of ci c = m.
Proof.
  intros ci c m N H. unfold modifier_of.
  assert (E : forall d, letter m = [d] -> fix_case ci c = fix_case ci d).
  { intros d Ed. rewrite Ed in H. inversion H as [|x y l l' S H' E1 E2]; subst. destruct S as [->|[-> S]]; [reflexivity|exact S]. }
  destruct m; [contradiction| | | |]; rewrite (E _ eq_refl); destruct ci; reflexivity.
Qed.
Lemma letter_modifier : forall ci c, same_name ci [c] (letter (modifier_of ci c)) \/ modifier_of ci c = mtNONE.
Proof.
  intros ci c. unfold modifier_of.
  assert (A : forall d, In d (str "mpri") -> Ascii.eqb (fix_case ci c) d = true -> same_name ci [c] [d]).
  { intros d Hd E. apply Ascii.eqb_eq in E. constructor; [|constructor]. destruct ci; cbn [fix_case] in E; [right|left; assumption].
    split; [reflexivity|]. rewrite E. cbn in Hd. repeat destruct Hd as [<-|Hd]; try reflexivity; contradiction. }
  destruct (Ascii.eqb (fix_case ci c) "m") eqn:E1; [left; apply A; [cbn; auto|assumption]|].
  destruct (Ascii.eqb (fix_case ci c) "p") eqn:E2; [left; apply A; [cbn; auto|assumption]|].
  destruct (Ascii.eqb (fix_case ci c) "r") eqn:E3; [left; apply A; [cbn; auto|assumption]|].
  destruct (Ascii.eqb (fix_case ci c) "i") eqn:E4; [left; apply A; [cbn; auto 6|assumption]|]. now right.
Qed.

(* what the code takes off *)
Definition cut_db (ci : bool) (w : list ascii) (d : bool) : Prop :=
  (d = true <-> (2 < length w)%nat /\ same_name ci (skipn (length w - 2) w) (str "db")).
Definition after_db (w : list ascii) (d : bool) : nat := if d then (length w - 2)%nat else length w.
Definition mod_at (ci : bool) (w : list ascii) (k : nat) : mod_t := if (1 <? k)%nat then modifier_of ci (nth (k - 1) w NUL) else mtNONE.
Definition after_mod (k : nat) (m : mod_t) : nat := match m with mtNONE => k | _ => (k - 1)%nat end.

Lemma cut_exists : forall ci w, ident w -> exists d, cut_db ci w d /\
  (if (2 <? length w)%nat then Umatch ci (skipn (length w - 2) w) (str "db ") else Some false) = Some d.
Proof.
  intros ci w H. destruct (Nat.ltb_spec 2 (length w)) as [L|L].
  - assert (I : ident (skipn (length w - 2) w)).
    { apply (ident_app_r (firstn (length w - 2) w)); [now rewrite firstn_skipn|]. intros X. apply (f_equal (@length ascii)) in X. rewrite skipn_length in X. cbn in X. lia. }
    destruct (Umatch_db ci _ I) as (r & E & R). exists r. split; [|assumption]. unfold cut_db. rewrite R. tauto.
  - exists false. split; [|reflexivity]. unfold cut_db. split; [discriminate|lia].
Qed.

(* a text that reads as a good name with something after it is taken apart in just that way *)
Lemma cut_reads : forall ci w n m db d, good_name n -> reads ci w n m db -> cut_db ci w d ->
  d = db /\ mod_at ci w (after_db w d) = m /\ same_name ci (firstn (after_mod (after_db w d) m) w) n.
Proof.
  intros ci w n m db d (Nn & Lb & Lm) R C.
  unfold reads in R. apply Forall2_app_inv_r in R. destruct R as (b & rest & Hb & Hr & Ew). apply Forall2_app_inv_r in Hr. destruct Hr as (m1 & d1 & Hm & Hd & Er). subst rest.
  assert (Nb : b <> []) by (intros ->; inversion Hb; subst; contradiction).
  assert (Lbn : to_lower (last b NUL) = to_lower (last n NUL)) by (eapply same_last; eassumption).
  assert (Ln : length b = length n) by (eapply same_length; eassumption).
  assert (L1 : (1 <= length b)%nat) by (destruct b; [contradiction|cbn; lia]).
  assert (Lm1 : length m1 = length (letter m)) by (eapply same_length; eassumption).
  assert (Ld1 : length d1 = (if db then 2 else 0)%nat) by (rewrite (same_length _ _ _ Hd); destruct db; reflexivity).
  assert (D : d = db).
  { destruct db.
    - apply C. rewrite Ew, !app_length, Ld1. split; [lia|].
      replace (length b + (length m1 + 2) - 2)%nat with (length (b ++ m1)) by (rewrite app_length; lia).
      rewrite app_assoc, skipn_app, skipn_all, Nat.sub_diag. exact Hd.
    - destruct d; [|reflexivity]. exfalso. destruct C as [C _]. specialize (C eq_refl). destruct C as [L S].
      apply length_zero_iff_nil in Ld1. subst d1. rewrite app_nil_r in Ew.
      assert (X : to_lower (last w NUL) = "b"%char).
      { pose proof (same_last _ _ _ S) as Y. rewrite <- (firstn_skipn (length w - 2) w).
        assert (NS : skipn (length w - 2) w <> []) by (intros Z; apply (f_equal (@length ascii)) in Z; rewrite skipn_length in Z; cbn in Z; lia).
        specialize (Y NS). destruct (exists_last NS) as (u & c & Eu). rewrite Eu in *. rewrite app_assoc, last_last. rewrite last_last in Y. exact Y. }
      destruct m; cbn [letter] in Hm; try (inversion Hm as [|x y l l' S1 S2 E1 E2]; subst m1; inversion S2; subst; rewrite last_last in X; destruct S1 as [->|[_ S1]]; [discriminate X|rewrite S1 in X; discriminate X]).
      inversion Hm; subst m1. rewrite app_nil_r in Ew. subst w. rewrite Lbn in X. contradiction. }
  subst d. split; [reflexivity|].
  assert (Ea : after_db w db = (length b + length m1)%nat) by (unfold after_db; rewrite Ew, !app_length, Ld1; destruct db; lia).
  rewrite Ea.
  assert (M : mod_at ci w (length b + length m1) = m).
  { unfold mod_at. destruct m; cbn [letter length] in Lm1, Hm.
    - rewrite Lm1, Nat.add_0_r. destruct (Nat.ltb_spec 1 (length b)) as [L|L]; [|reflexivity].
      rewrite Ew, (last_nth b (m1 ++ d1) NUL Nb). apply modifier_none. rewrite Lbn. apply Lm. lia.
    - destruct m1 as [|c [|? ?]]; try discriminate Lm1. cbn [length]. rewrite Nat.add_sub. replace (1 <? length b + 1)%nat with true by (symmetry; apply Nat.ltb_lt; lia).
      rewrite Ew, app_nth2, Nat.sub_diag by lia. cbn [app nth]. now apply modifier_letter.
    - destruct m1 as [|c [|? ?]]; try discriminate Lm1. cbn [length]. rewrite Nat.add_sub. replace (1 <? length b + 1)%nat with true by (symmetry; apply Nat.ltb_lt; lia).
      rewrite Ew, app_nth2, Nat.sub_diag by lia. cbn [app nth]. now apply modifier_letter.
    - destruct m1 as [|c [|? ?]]; try discriminate Lm1. cbn [length]. rewrite Nat.add_sub. replace (1 <? length b + 1)%nat with true by (symmetry; apply Nat.ltb_lt; lia).
      rewrite Ew, app_nth2, Nat.sub_diag by lia. cbn [app nth]. now apply modifier_letter.
    - destruct m1 as [|c [|? ?]]; try discriminate Lm1. cbn [length]. rewrite Nat.add_sub. replace (1 <? length b + 1)%nat with true by (symmetry; apply Nat.ltb_lt; lia).
      rewrite Ew, app_nth2, Nat.sub_diag by lia. cbn [app nth]. now apply modifier_letter. }
  split; [exact M|].
  replace (after_mod (length b + length m1) m) with (length b) by (assert (Z : length (letter m) = match m with mtNONE => 0%nat | _ => 1%nat end) by (destruct m; reflexivity); rewrite Lm1, Z; unfold after_mod; destruct m; lia).
  rewrite Ew, firstn_app, Nat.sub_diag, firstn_all. cbn [firstn]. now rewrite app_nil_r.
Qed.

Lemma one_at : forall j (w : list ascii), (j < length w)%nat -> firstn 1 (skipn j w) = [nth j w NUL].
Proof. intros j. induction j as [|j IH]; intros [|a w] X; cbn [length] in X; try lia; [reflexivity|]. cbn [skipn nth]. apply IH. lia. Qed.
(* what is left over names the text it came from *)
Lemma reads_cut : forall ci w n d, ident w -> cut_db ci w d ->
  same_name ci (firstn (after_mod (after_db w d) (mod_at ci w (after_db w d))) w) n -> reads ci w n (mod_at ci w (after_db w d)) d.
Proof.
  intros ci w n d I C S. unfold reads. set (k := after_db w d) in *. set (m := mod_at ci w k) in *.
  assert (Hd : same_name ci (skipn k w) (if d then str "db" else [])).
  { unfold k, after_db. destruct d; [apply C; reflexivity|]. rewrite skipn_all. constructor. }
  assert (Lk : (k <= length w)%nat) by (unfold k, after_db; destruct d; lia).
  assert (Hm : firstn k w = firstn (after_mod k m) w ++ skipn (after_mod k m) (firstn k w)).
  { rewrite <- (firstn_skipn (after_mod k m) (firstn k w)) at 1. f_equal. rewrite firstn_firstn. f_equal. unfold after_mod. destruct m; lia. }
  assert (Hl : same_name ci (skipn (after_mod k m) (firstn k w)) (letter m)).
  { unfold after_mod, m, mod_at. destruct (Nat.ltb_spec 1 k) as [L|L].
    - destruct (letter_modifier ci (nth (k - 1) w NUL)) as [H|H].
      + assert (E : skipn (k - 1) (firstn k w) = [nth (k - 1) w NUL]).
        { rewrite <- (firstn_skipn (k - 1) w) at 1. rewrite firstn_app, firstn_firstn, firstn_length. replace (Nat.min k (k - 1)) with (k - 1)%nat by lia.
          replace (k - Nat.min (k - 1) (length w))%nat with 1%nat by lia.
          rewrite skipn_app, skipn_all2 by (rewrite firstn_length; lia). rewrite firstn_length. replace (k - 1 - Nat.min (k - 1) (length w))%nat with 0%nat by lia.
          cbn [app skipn]. apply one_at. lia. }
        destruct (modifier_of ci (nth (k - 1) w NUL)) eqn:Em; [cbn [letter] in H; inversion H|..]; rewrite E; exact H.
      + rewrite H. cbn [letter]. rewrite skipn_all2 by (rewrite firstn_length; lia). constructor.
    - cbn [letter]. rewrite skipn_all2 by (rewrite firstn_length; lia). constructor. }
  rewrite <- (firstn_skipn k w) at 1. rewrite Hm, <- app_assoc. apply Forall2_app; [exact S|]. apply Forall2_app; assumption.
Qed.

(* the names an object knows, each with its value *)
Definition table : Type := list (list ascii * xprobe).
Definition table_ok (t : table) : Prop := forall n xp, In (n, xp) t -> good_name n /\ xp_exists xp = true.
(* the virtual function finds what the table says *)
Definition finds (ci : bool) (ext : list ascii -> option xprobe) (t : table) : Prop :=
  forall x, ident x -> exists xp, ext x = Some xp /\ (forall n xp', In (n, xp') t -> same_name ci x n -> xp = xp') /\
    ((exists n, In (n, xp) t /\ same_name ci x n) \/ xp = xp_none).

Lemma ac_reads : forall ci opt ext t, table_ok t -> finds ci ext t -> forall w, ident w -> (length w <= BUFLEN)%nat ->
  exists s, ac_probe_num ci opt ext w = Some s /\
    (forall n xp m db, In (n, xp) t -> reads ci w n m db -> s = xp_show opt xp m db) /\
    ((forall n xp m db, In (n, xp) t -> ~ reads ci w n m db) -> s = Not_valid).
Proof.
  intros ci opt ext t T F w I L. unfold ac_probe_num. replace (BUFLEN <? length w)%nat with false by (symmetry; now apply Nat.ltb_ge).
  destruct (cut_exists ci w I) as (d & C & E). cbv zeta. rewrite E. cbn [bind].
  change (if d then (length w - 2)%nat else length w) with (after_db w d).
  change (if (1 <? after_db w d)%nat then modifier_of ci (nth (after_db w d - 1) w NUL) else mtNONE) with (mod_at ci w (after_db w d)).
  change (match mod_at ci w (after_db w d) with mtNONE => after_db w d | _ => (after_db w d - 1)%nat end) with (after_mod (after_db w d) (mod_at ci w (after_db w d))).
  set (m := mod_at ci w (after_db w d)). set (p := firstn (after_mod (after_db w d) m) w).
  assert (Ip : ident p).
  { apply (ident_app p (skipn (after_mod (after_db w d) m) w)); [unfold p; now rewrite firstn_skipn|].
    intros X. apply (f_equal (@length ascii)) in X. unfold p in X. rewrite firstn_length in X. cbn [length] in X.
    destruct I as [N _]. assert (1 <= length w)%nat by (destruct w; [contradiction|cbn; lia]).
    assert (1 <= after_db w d)%nat by (unfold after_db; destruct d; [destruct (proj1 C eq_refl); lia|lia]).
    assert (1 <= after_mod (after_db w d) m)%nat by (unfold after_mod, m, mod_at; destruct (Nat.ltb_spec 1 (after_db w d)); [destruct (modifier_of ci (nth (after_db w d - 1) w NUL)); lia|lia]). lia. }
  destruct (F p Ip) as (xp & E1 & A1 & B1). rewrite E1. cbn [bind].
  assert (K : forall n xp' m' db, In (n, xp') t -> reads ci w n m' db -> d = db /\ m = m' /\ same_name ci p n).
  { intros n xp' m' db Hn R. destruct (cut_reads ci w n m' db d (proj1 (T _ _ Hn)) R C) as (K1 & K2 & K3). split; [assumption|]. fold m in K2. split; [assumption|]. unfold p. now rewrite K2. }
  destruct (xp_exists xp) eqn:Ex; cbn [bind].
  - exists (xp_show opt xp m d). split; [reflexivity|]. split.
    + intros n xp' m' db Hn R. destruct (K _ _ _ _ Hn R) as (-> & <- & S). now rewrite (A1 _ _ Hn S).
    + intros N. destruct B1 as [(n & Hn & S)| ->]; [|discriminate Ex]. exfalso. apply (N n xp m d Hn). exact (reads_cut ci w n d I C S).
  - destruct B1 as [(n & Hn & S)| ->]; [rewrite (proj2 (T _ _ Hn)) in Ex; discriminate Ex|].
    destruct (F w I) as (xq & E2 & A2 & B2). rewrite E2. cbn [bind]. exists (xp_show opt xq m d). split; [reflexivity|]. split.
    + intros n xp' m' db Hn R. destruct (K _ _ _ _ Hn R) as (_ & _ & S). specialize (A1 _ _ Hn S). destruct (T _ _ Hn) as [_ X]. rewrite <- A1 in X. discriminate X.
    + intros N. destruct B2 as [(n & Hn & S)| ->]; [|reflexivity]. exfalso. apply (N n xq mtNONE false Hn). unfold reads. cbn [letter app]. now rewrite app_nil_r.
Qed.
