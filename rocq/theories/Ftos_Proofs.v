(* The buffer of ftos: what has been written, and the blanks and terminators after it. *)
Require Import ZArith QArith Qround Qpower Qabs List Ascii String Bool Lia Lqa Arith.
Require Import ZifyBool.
Require Import Verif.Loops Verif.Wmatch_Model Verif.CS_Model Verif.Decimal_Text Verif.Qnum Verif.Lines_Model Verif.Measure_Model Verif.Ftos_Model Verif.P_Number Verif.P_Lines Verif.Ftos_Num.
Import ListNotations.
Local Open Scope nat_scope.

Definition filler (c : ascii) : Prop := c = " "%char \/ c = NUL.
(* the rest of the row from position n, in variable and in fixed width *)
Definition tail_ok (fw n : nat) (tl : list ascii) : Prop :=
  if fw =? 0 then Forall filler tl /\ n + List.length tl = 40 /\ nth_error tl (39 - n) = Some NUL
  else tl = repeat " "%char (fw - n) ++ repeat NUL (40 - fw) /\ n <= fw <= 39.
Definition cap (fw : nat) : nat := if fw =? 0 then 39 else fw.

Lemma tail_length : forall fw n tl, tail_ok fw n tl -> n <= cap fw /\ cap fw <= 39 /\ n + List.length tl = 40 /\ Forall filler tl.
Proof.
  intros fw n tl. unfold tail_ok, cap. destruct (Nat.eqb_spec fw 0) as [E|E].
  - intros (A & B & C). repeat split; try assumption; try lia. assert (39 - n < List.length tl) by (apply nth_error_Some; congruence). lia.
  - intros (-> & B). rewrite app_length, !repeat_length. repeat split; try lia. apply Forall_app. split; apply Forall_forall; intros c Hc; apply repeat_spec in Hc; subst c; [now left|now right].
Qed.
Lemma skipn_repeat : forall k n (c : ascii), skipn k (repeat c n) = repeat c (n - k).
Proof. induction k as [|k IH]; intros [|n] c; cbn; try reflexivity. apply IH. Qed.
Lemma tail_skip : forall fw n tl k, tail_ok fw n tl -> n + k <= cap fw -> tail_ok fw (n + k) (skipn k tl).
Proof.
  intros fw n tl k. unfold tail_ok, cap. destruct (Nat.eqb_spec fw 0) as [E|E].
  - intros (A & B & C) H. repeat split.
    + rewrite <- (firstn_skipn k tl) in A. apply Forall_app in A. apply A.
    + rewrite skipn_length. lia.
    + rewrite <- (firstn_skipn k tl), nth_error_app2 in C by (rewrite firstn_length; lia). rewrite firstn_length_le in C by lia.
      rewrite <- C. f_equal. lia.
  - intros (-> & B) H. split; [|lia]. rewrite skipn_app, skipn_repeat, repeat_length. replace (k - (fw - n)) with 0 by lia. cbn [skipn].
    f_equal. f_equal. lia.
Qed.
Lemma tail_cons : forall fw n tl, tail_ok fw n tl -> exists c tl', tl = c :: tl' /\ filler c /\ skipn 1 tl = tl'.
Proof.
  intros fw n tl H. destruct (tail_length _ _ _ H) as (A & B & C & D). destruct tl as [|c tl']; [cbn in C; lia|].
  inversion_clear D. exists c, tl'. auto.
Qed.
Lemma put_app : forall pre c tl d, put (pre ++ c :: tl) (List.length pre) d = Some (pre ++ d :: tl).
Proof.
  intros. unfold put. rewrite app_length. cbn [List.length]. destruct (Nat.ltb_spec (List.length pre) (List.length pre + S (List.length tl))); [|lia].
  now rewrite store_app.
Qed.
Lemma put_tail : forall pre tl d, tl <> [] -> put (pre ++ tl) (List.length pre) d = Some (pre ++ d :: skipn 1 tl).
Proof. intros pre [|c tl] d H; [contradiction|]. apply put_app. Qed.
Lemma put_end : forall pre tl d, tl <> [] -> put (pre ++ tl) (List.length pre) d = Some ((pre ++ [d]) ++ skipn 1 tl).
Proof. intros. rewrite put_tail by assumption. now rewrite <- app_assoc. Qed.
Lemma puts_tail : forall t pre tl, List.length t <= List.length tl -> puts (pre ++ tl) (List.length pre) t = Some (pre ++ t ++ skipn (List.length t) tl).
Proof.
  induction t as [|c t IH]; intros pre tl H; cbn [puts List.length skipn app]; [reflexivity|].
  destruct tl as [|d tl]; [cbn in H; lia|]. rewrite put_app. cbn [bind]. 
  specialize (IH (pre ++ [c]) tl). rewrite app_length in IH. cbn [List.length] in IH. rewrite Nat.add_1_r, <- !app_assoc in IH. cbn [app] in IH.
  cbn [List.length] in H. apply IH. lia.
Qed.

(* digits written after pre *)
Lemma fixed_tail : forall len fuel a flg pre tl, frac a -> (0 < flg)%Z -> len <= fuel -> len <= List.length tl ->
  fixed_loop fuel len a flg (List.length pre) (pre ++ tl) = Some (List.length (pre ++ digs len a), (pre ++ digs len a) ++ skipn len tl).
Proof.
  induction len as [|len IH]; intros fuel a flg pre tl Fa Hf Hu Ht.
  - cbn [digs skipn]. rewrite app_nil_r. destruct fuel; reflexivity.
  - destruct fuel as [|fuel]; [lia|]. cbn [fixed_loop digs]. destruct tl as [|c tl]; [cbn in Ht; lia|].
    destruct (frac_step a Fa) as [B C]. rewrite put_tail by discriminate. cbn [bind skipn].
    destruct (Z.eqb_spec (flg + Qfloor (a * 10)) 0) as [X|_]; [lia|].
    specialize (IH fuel _ (flg + Qfloor (a * 10))%Z (pre ++ [digit_char (Qfloor (a * 10))]) tl C). rewrite app_length in IH. cbn [List.length] in IH, Ht.
    rewrite Nat.add_1_r, <- !app_assoc in IH. cbn [app] in IH. rewrite IH by lia. now rewrite <- ?app_assoc.
Qed.
Lemma fixed_lead : forall z len fuel a pre tl, lead z a -> 1 <= len -> z + len <= fuel -> z + len <= List.length tl ->
  fixed_loop fuel len a 0 (List.length pre) (pre ++ tl) = Some (List.length (pre ++ digs (z + len) a), (pre ++ digs (z + len) a) ++ skipn (z + len) tl).
Proof.
  induction z as [|z IH]; intros len fuel a pre tl Ha Hl Hu Ht.
  - cbn [lead] in Ha. destruct len as [|len]; [lia|]. destruct fuel as [|fuel]; [lia|]. cbn [fixed_loop Nat.add digs]. destruct tl as [|c tl]; [cbn in Ht; lia|].
    destruct (frac_step a) as [B C]; [split; lra|]. rewrite put_tail by discriminate. cbn [bind skipn].
    assert (X : (1 <= Qfloor (a * 10) < 10)%Z) by (apply floor_range; [change (inject_Z 1) with 1%Q|change (inject_Z 10) with 10%Q]; lra).
    destruct (Z.eqb_spec (0 + Qfloor (a * 10)) 0) as [Y|_]; [lia|].
    pose proof (fixed_tail len fuel _ (0 + Qfloor (a * 10))%Z (pre ++ [digit_char (Qfloor (a * 10))]) tl C) as F. rewrite app_length in F. cbn [List.length] in F, Ht.
    rewrite Nat.add_1_r, <- !app_assoc in F. cbn [app] in F. rewrite F by lia. now rewrite <- ?app_assoc.
  - assert (Fa : (0 <= a * 10 < 1)%Q).
    { cbn [lead] in Ha. apply lead_decade in Ha. split; [pose proof (T_pos (- Z.of_nat z - 1)); lra|]. eapply Qlt_le_trans; [apply Ha|]. apply (T_le _ 0). lia. }
    destruct fuel as [|fuel]; [lia|]. destruct len as [|len]; [lia|]. cbn [fixed_loop Nat.add digs]. destruct tl as [|c tl]; [cbn in Ht; lia|].
    rewrite put_tail by discriminate. cbn [bind skipn].
    assert (X : Qfloor (a * 10) = 0%Z) by (apply floor_unique; [change (inject_Z 0) with 0%Q|change (inject_Z (0 + 1)) with 1%Q]; lra).
    rewrite X. cbn [Z.add Z.eqb].
    specialize (IH (S len) fuel (a * 10 - inject_Z 0)%Q (pre ++ [digit_char 0]) tl). rewrite app_length in IH. cbn [List.length] in IH, Ht.
    rewrite Nat.add_1_r, <- !app_assoc in IH. cbn [app] in IH. rewrite IH; [now rewrite <- ?app_assoc| |lia|lia|lia].
    eapply lead_comp; [|exact Ha]. change (inject_Z 0) with 0%Q. ring.
Qed.
Lemma point_tail : forall len fuel iii a flg pre tl, frac a -> (0 < flg)%Z -> (iii < 0)%Z -> len <= fuel -> len <= List.length tl ->
  point_loop fuel iii len a flg (List.length pre) (pre ++ tl) = Some (List.length (pre ++ digs len a), (pre ++ digs len a) ++ skipn len tl).
Proof.
  induction len as [|len IH]; intros fuel iii a flg pre tl Fa Hf Hi Hu Ht.
  - cbn [digs skipn]. rewrite app_nil_r. destruct fuel; reflexivity.
  - destruct fuel as [|fuel]; [lia|]. cbn [point_loop digs]. destruct tl as [|c tl]; [cbn in Ht; lia|].
    destruct (frac_step a Fa) as [B C]. destruct (Z.eqb_spec (flg + Qfloor (a * 10)) 0) as [X|_]; [lia|].
    rewrite put_tail by discriminate. cbn [bind skipn]. destruct (Z.eqb_spec iii 0) as [X|_]; [lia|]. cbn [bind].
    specialize (IH fuel (iii - 1)%Z _ (flg + Qfloor (a * 10))%Z (pre ++ [digit_char (Qfloor (a * 10))]) tl C). rewrite app_length in IH. cbn [List.length] in IH, Ht.
    rewrite Nat.add_1_r, <- !app_assoc in IH. cbn [app] in IH. rewrite IH by lia. now rewrite <- ?app_assoc.
Qed.
(* the digits with the point after the first i *)
Definition pointed (i : nat) (ds : list ascii) : list ascii := firstn i ds ++ "."%char :: skipn i ds.
Lemma pointed_length : forall i ds, List.length (pointed i ds) = S (List.length ds).
Proof. intros i ds. unfold pointed. rewrite app_length. cbn [List.length]. rewrite <- (firstn_skipn i ds) at 3. rewrite app_length. lia. Qed.
Lemma point_mid : forall i len fuel a flg pre tl, frac a -> (0 <= flg)%Z -> (flg = 0%Z -> lead 0 a) -> i < len -> len <= fuel -> S len <= List.length tl ->
  point_loop fuel (Z.of_nat i) len a flg (List.length pre) (pre ++ tl) =
    Some (List.length (pre ++ pointed (S i) (digs len a)), (pre ++ pointed (S i) (digs len a)) ++ skipn (S len) tl).
Proof.
  induction i as [|i IH]; intros len fuel a flg pre tl Fa Hf Hz Hi Hu Ht; (destruct len as [|len]; [lia|]; destruct fuel as [|fuel]; [lia|]; cbn [point_loop digs];
    destruct tl as [|c tl]; [cbn in Ht; lia|]; destruct tl as [|c2 tl]; [cbn in Ht; lia|]; cbn [List.length] in Ht;
    destruct (frac_step a Fa) as [B C]; 
    assert (G : (0 < flg + Qfloor (a * 10))%Z) by
      (destruct (Z.eq_dec flg 0) as [Y|Y]; [|lia]; specialize (Hz Y); cbn [lead] in Hz;
       assert (X : (1 <= Qfloor (a * 10) < 10)%Z) by (apply floor_range; [change (inject_Z 1) with 1%Q|change (inject_Z 10) with 10%Q]; lra); lia);
    destruct (Z.eqb_spec (flg + Qfloor (a * 10)) 0) as [X|_]; [lia|]; rewrite put_tail by discriminate; cbn [bind skipn]).
  - cbn [Z.of_nat Z.eqb]. set (d := digit_char (Qfloor (a * 10))).
    pose proof (put_tail (pre ++ [d]) (c2 :: tl) "."%char ltac:(discriminate)) as E. rewrite app_length in E. cbn [List.length skipn] in E.
    rewrite Nat.add_1_r, <- !app_assoc in E. cbn [app] in E. rewrite E. cbn [bind].
    pose proof (point_tail len fuel (0 - 1)%Z _ (flg + Qfloor (a * 10))%Z (pre ++ [d; "."%char]) tl C) as F. rewrite app_length in F. cbn [List.length] in F.
    rewrite <- !app_assoc in F. cbn [app] in F. replace (List.length pre + 2) with (S (S (List.length pre))) in F by lia. rewrite F by lia. now rewrite <- ?app_assoc.
  - rewrite Nat2Z.inj_succ. destruct (Z.eqb_spec (Z.succ (Z.of_nat i)) 0) as [X|_]; [lia|]. cbn [bind]. set (d := digit_char (Qfloor (a * 10))).
    specialize (IH len fuel _ (flg + Qfloor (a * 10))%Z (pre ++ [d]) (c2 :: tl) C). rewrite app_length in IH. cbn [List.length] in IH.
    rewrite Nat.add_1_r, <- !app_assoc in IH. cbn [app] in IH. replace (Z.succ (Z.of_nat i) - 1)%Z with (Z.of_nat i) by lia. rewrite IH by lia. now rewrite <- ?app_assoc.
Qed.
Lemma point_lead : forall z i len fuel a pre tl, lead z a -> z <= i -> i - z < len -> z + len <= fuel -> S len <= List.length tl ->
  point_loop fuel (Z.of_nat i) len a 0 (List.length pre) (pre ++ tl) =
    Some (List.length (pre ++ pointed (S (i - z)) (digs len (shl z a))), (pre ++ pointed (S (i - z)) (digs len (shl z a))) ++ skipn (S len) tl).
Proof.
  induction z as [|z IH]; intros i len fuel a pre tl Ha Hz Hi Hu Ht.
  - rewrite Nat.sub_0_r in *. rewrite (digs_comp len (shl 0 a) a) by (unfold shl; change (Qpower 10 (Z.of_nat 0)) with 1%Q; ring).
    apply point_mid; try lia; try assumption; [cbn [lead] in Ha; split; lra|auto].
  - assert (Fa : (0 <= a * 10 < 1)%Q).
    { cbn [lead] in Ha. apply lead_decade in Ha. split; [pose proof (T_pos (- Z.of_nat z - 1)); lra|]. eapply Qlt_le_trans; [apply Ha|]. apply (T_le _ 0). lia. }
    destruct fuel as [|fuel]; [lia|]. destruct len as [|len]; [lia|]. destruct i as [|i]; [lia|]. cbn [point_loop].
    assert (X : Qfloor (a * 10) = 0%Z) by (apply floor_unique; [change (inject_Z 0) with 0%Q|change (inject_Z (0 + 1)) with 1%Q]; lra).
    rewrite X. cbn [Z.add Z.eqb bind]. rewrite Nat2Z.inj_succ. destruct (Z.eqb_spec (Z.succ (Z.of_nat i)) 0) as [Y|_]; [lia|]. cbn [bind].
    replace (Z.succ (Z.of_nat i) - 1)%Z with (Z.of_nat i) by lia. cbn [Nat.sub] in Hi.
    rewrite (IH i (S len) fuel); [|eapply lead_comp; [|exact Ha]; change (inject_Z 0) with 0%Q; ring|lia..]. cbn [Nat.sub].
    rewrite (digs_comp (S len) (shl z (a * 10 - inject_Z 0)) (shl (S z) a)); [reflexivity|].
    unfold shl. rewrite Nat2Z.inj_succ. unfold Z.succ. rewrite T_succ. change (inject_Z 0) with 0%Q. ring.
Qed.

(* trailing zeros *)
Fixpoint stripr (l : list ascii) : list ascii :=
  match l with [] => [] | c :: r => match stripr r with [] => if Ascii.eqb c "0" then [] else [c] | r' => c :: r' end end.
Lemma stripr_snoc : forall l c, stripr (l ++ [c]) = if Ascii.eqb c "0" then stripr l else l ++ [c].
Proof.
  induction l as [|d l IH]; intros c; cbn [app stripr]; [destruct (Ascii.eqb c "0"); reflexivity|].
  rewrite IH. destruct (Ascii.eqb c "0"); [reflexivity|]. destruct l; reflexivity.
Qed.
Lemma stripr_split : forall l, l = stripr l ++ repeat "0"%char (List.length l - List.length (stripr l)) /\ List.length (stripr l) <= List.length l.
Proof.
  intros l. induction l as [|c l [IH1 IH2]] using rev_ind; [split; reflexivity|]. rewrite stripr_snoc. destruct (Ascii.eqb_spec c "0") as [->|N].
  - rewrite app_length. cbn [List.length]. split; [|lia]. replace (List.length l + 1 - List.length (stripr l)) with ((List.length l - List.length (stripr l)) + 1) by lia.
    rewrite repeat_app. cbn [repeat]. rewrite app_assoc. now rewrite <- IH1.
  - rewrite Nat.sub_diag. cbn [repeat]. now rewrite app_nil_r.
Qed.
Lemma drop_ok : forall fw t tl, stripr t <> [] -> tail_ok fw (List.length t) tl ->
  exists tl', drop_zeros fw (List.length t) (t ++ tl) = Some (List.length (stripr t), stripr t ++ tl') /\ tail_ok fw (List.length (stripr t)) tl'.
Proof.
  intros fw t. induction t as [|c t IH] using rev_ind; intros tl N Ht; [now elim N|].
  rewrite stripr_snoc in *. destruct (Ascii.eqb_spec c "0") as [->|Nc].
  - rewrite app_length in *. cbn [List.length] in *. rewrite Nat.add_1_r in *. cbn [drop_zeros].
    rewrite <- app_assoc. cbn [app]. rewrite nth_mid. cbn [bind]. rewrite Ascii.eqb_refl, store_app. apply IH; [exact N|].
    destruct (tail_length _ _ _ Ht) as (A & B & C & D). revert Ht. unfold tail_ok, cap in *. destruct (Nat.eqb_spec fw 0) as [->|E].
    + intros (X & Y & Z). cbn [Nat.ltb Nat.leb]. repeat split.
      * constructor; [now right|exact X].
      * cbn [List.length]. lia.
      * replace (39 - List.length t) with (S (39 - S (List.length t))) by lia. exact Z.
    + intros (X & Y). destruct (Nat.ltb_spec (List.length t) fw); [|lia]. split; [|lia]. rewrite X.
      replace (fw - List.length t) with (S (fw - S (List.length t))) by lia. reflexivity.
  - rewrite app_length in *. cbn [List.length] in *. rewrite Nat.add_1_r in *. cbn [drop_zeros]. exists tl.
    rewrite <- app_assoc. cbn [app]. rewrite nth_mid. cbn [bind]. destruct (Ascii.eqb_spec c "0") as [X|_]; [now elim Nc|]. now split.
Qed.

(* ---- the exponent ---- *)
Lemma exponent_length : forall e, (-99 <= e <= 999)%Z -> List.length (exponent_text e) = 4.
Proof.
  assert (C : forallb (fun k => List.length (exponent_text (Z.of_nat k - 99)) =? 4) (seq 0 1099) = true) by (vm_compute; reflexivity).
  intros e H. rewrite forallb_forall in C. specialize (C (Z.to_nat (e + 99))). rewrite Z2Nat.id in C by lia.
  replace (e + 99 - 99)%Z with e in C by lia. apply Nat.eqb_eq, C. apply in_seq. lia.
Qed.
Lemma append_exponent_ok : forall fw pre tl e, tail_ok fw (List.length pre) tl -> List.length pre + 4 <= cap fw -> List.length (exponent_text e) = 4 ->
  exists c, filler c /\ nth_error (pre ++ exponent_text e ++ skipn 4 tl) (List.length pre + 4) = Some c /\
  append_exponent e (List.length pre) (pre ++ tl) = Some (List.length pre + 4 + 1, pre ++ exponent_text e ++ skipn 4 tl).
Proof.
  intros fw pre tl e Ht Hc He. destruct (tail_length _ _ _ Ht) as (A & B & C & D).
  pose proof (tail_skip _ _ _ 4 Ht Hc) as Hs. destruct (tail_cons _ _ _ Hs) as (c & tl' & Ec & Fc & _). exists c.
  assert (Len : List.length (pre ++ exponent_text e) = List.length pre + 4) by (rewrite app_length; lia).
  split; [exact Fc|]. split; [rewrite Ec, app_assoc, <- Len; apply nth_mid|].
  unfold append_exponent. rewrite <- (firstn_skipn 4 tl) at 1. rewrite Ec. rewrite app_assoc.
  assert (L4 : List.length (pre ++ firstn 4 tl) = List.length pre + 4) by (rewrite app_length, firstn_length_le by lia; reflexivity).
  rewrite <- L4 at 1. rewrite nth_mid. cbn [bind].
  rewrite puts_tail by (rewrite app_length; cbn [List.length]; lia). cbn [bind].
  rewrite app_length, He. cbn [List.length Nat.add]. 
  assert (E5 : skipn 5 tl = tl') by (destruct tl as [|? [|? [|? [|? [|? tl]]]]]; cbn in Ec |- *; congruence). rewrite E5.
  rewrite <- app_assoc. cbn [app]. rewrite app_assoc, <- Len, put_app. cbn [bind]. rewrite Len, <- app_assoc. reflexivity.
Qed.
Definition sci (f : format) (e : Z) : bool := fEXP f || (10 <? e)%Z || (e <? -16)%Z.
Definition letter_text (e : Z) : list ascii :=
  match nth_error scale_letters (Z.to_nat (Z.quot (e + 15) 3)) with Some c => if Ascii.eqb c "M" then str "Meg" else [c] | None => [] end.
Definition scale_text (f : format) (e : Z) : list ascii :=
  if (e =? 0)%Z then [] else if sci f e then exponent_text e else letter_text e.
Lemma scale_length : forall f e, (-99 <= e <= 999)%Z -> List.length (scale_text f e) <= 4.
Proof.
  intros f e H. unfold scale_text. destruct (e =? 0)%Z; [cbn; lia|]. destruct (sci f e); [now rewrite exponent_length|].
  unfold letter_text. destruct (nth_error _ _) as [c|]; [|cbn; lia]. destruct (Ascii.eqb c "M"); cbn; lia.
Qed.
Lemma append_scale_ok : forall f fw pre pre' c tl e, c <> "M"%char -> pre = pre' ++ [c] -> tail_ok fw (List.length pre) tl -> List.length pre + 4 <= cap fw ->
  (-99 <= e <= 999)%Z -> (exists j, e = 3 * j)%Z ->
  exists n, append_scale f e (List.length pre) (pre ++ tl) = Some (n, (pre ++ scale_text f e) ++ skipn (List.length (scale_text f e)) tl).
Proof.
  intros f fw pre pre' c tl e Nc Hp Ht Hc He [j Hj]. unfold append_scale, scale_text. fold (sci f e). destruct (Z.eqb_spec e 0) as [E0|E0].
  - cbn [bind List.length skipn]. rewrite app_nil_r. 
    assert (Nn : nth_error (pre ++ tl) (List.length pre - 1) = Some c).
    { subst pre. rewrite app_length. cbn [List.length]. rewrite Nat.add_sub, <- app_assoc. apply nth_mid. }
    rewrite Nn. cbn [bind]. destruct (Ascii.eqb_spec c "M") as [X|_]; [contradiction|]. eauto.
  - destruct (sci f e) eqn:Es.
    + destruct (append_exponent_ok fw pre tl e Ht Hc (exponent_length e He)) as (d & Fd & Nd & ->). cbn [bind].
      rewrite Nat.add_sub, Nd. cbn [bind]. rewrite exponent_length by assumption. destruct (Ascii.eqb_spec d "M") as [X|_]; [destruct Fd; subst d; discriminate|].
      rewrite app_assoc. eauto.
    + assert (R : (j = -5 \/ j = -4 \/ j = -3 \/ j = -2 \/ j = -1 \/ j = 1 \/ j = 2 \/ j = 3)%Z).
      { unfold sci in Es. apply orb_false_iff in Es. destruct Es as [Es E2]. apply orb_false_iff in Es. destruct Es as [_ E1]. lia. }
      destruct (tail_length _ _ _ Ht) as (A & B & C & _).
      assert (G : exists d, nth_error scale_letters (Z.to_nat (Z.quot (e + 15) 3)) = Some d).
      { subst e. repeat destruct R as [->|R]; try (eexists; reflexivity). subst j. eexists; reflexivity. }
      destruct G as [d Ed]. unfold letter_text. rewrite Ed. cbn [bind].
      destruct tl as [|t1 tl]; [cbn in C; lia|]. destruct tl as [|t2 tl]; [cbn in C; lia|]. destruct tl as [|t3 tl]; [cbn in C; lia|].
      rewrite put_app. cbn [bind]. cbn [Nat.sub]. rewrite Nat.sub_0_r, nth_mid. cbn [bind].
      destruct (Ascii.eqb_spec d "M") as [->|Nd].
      * pose proof (puts_tail (str "eg") (pre ++ ["M"%char]) (t2 :: t3 :: tl)) as P. rewrite app_length in P. cbn [List.length] in P.
        rewrite Nat.add_1_r, <- !app_assoc in P. cbn [app] in P. rewrite P by (cbn; lia). cbn [bind]. exists (S (List.length pre) + 2).
        rewrite <- app_assoc. reflexivity.
      * exists (S (List.length pre)). rewrite <- app_assoc. reflexivity.
Qed.

(* ---- the whole row ---- *)
Definition mag (x : Q) : Q := if qltb x 0 then (- x)%Q else x.
Definition sign_char (f : format) (x : Q) : ascii := if qltb x 0 then "-"%char else if fSIGN f then "+"%char else " "%char.
Definition body (z len : nat) (e : Z) (n : Q) : list ascii :=
  if (e =? -3)%Z then str "0." ++ digs (z + len) n else pointed (3 - z) (digs len (shl z n)).
Definition printed (f : format) (b : list ascii) : list ascii := if fFILL f then b else stripr b.
Definition left_expo (e : Z) : Z := if (e =? -3)%Z then 0%Z else e.

Lemma start_tail : forall fw len, len <= 33 -> fw = 0 \/ len + 6 <= fw <= 39 ->
  tail_ok fw 0 (blank_string fw len) /\ exists b, blank_string fw len = " "%char :: b.
Proof.
  intros fw len Hl H. unfold blank_string, tail_ok, MAXLENGTH. split; [|exists (repeat " "%char (Nat.max fw (len + 6) - 1) ++ repeat NUL (40 - Nat.max fw (len + 6)))].
  - destruct (Nat.eqb_spec fw 0) as [->|E].
    + rewrite Nat.max_r by lia. repeat split.
      * apply Forall_app. split; apply Forall_forall; intros c Hc; apply repeat_spec in Hc; subst c; [now left|now right].
      * rewrite app_length, !repeat_length. lia.
      * rewrite nth_error_app2 by (rewrite repeat_length; lia). rewrite repeat_length. apply nth_error_repeat. lia.
    + rewrite Nat.max_l by lia. split; [|lia]. now rewrite Nat.sub_0_r.
  - rewrite app_comm_cons. f_equal. change (" "%char :: ?l) with (repeat " "%char 1 ++ l). 
    replace (Nat.max fw (len + 6)) with (S (Nat.max fw (len + 6) - 1)) at 1 by lia. reflexivity.
Qed.
Lemma body_length : forall z len e n, z <= 2 -> List.length (body z len e n) <= len + 4.
Proof.
  intros z len e n Hz. unfold body. destruct (e =? -3)%Z.
  - rewrite app_length, digs_length. cbn. lia.
  - rewrite pointed_length, digs_length. lia.
Qed.
Lemma adjust_range : forall f e len, 3 <= len -> 3 <= adjust_len f e len <= len.
Proof.
  intros f e len H. unfold adjust_len. destruct ((fEXP f && (e <? -9)%Z) || (10 <? e)%Z || (e <? -16)%Z).
  - destruct (Nat.ltb_spec (len - 1) 3); lia.
  - destruct (Nat.ltb_spec len 3); lia.
Qed.
Lemma mantissa_ok : forall f fw len x m1 e0 n e n1 e1 z, 3 <= len <= 33 -> fw = 0 \/ len + 6 <= fw <= 39 ->
  let L := adjust_len f e len in
  scale_up (up_rounds (mag x)) (mag x) (-3) = Some (m1, e0) -> scale_down (down_rounds m1) m1 e0 = Some (n, e) ->
  round_num L n e = (n1, e1) -> lead z n1 -> z <= 2 ->
  let t := sign_char f x :: body z L e1 n1 in
  exists tl, mantissa_of f len x (blank_string fw len) = Some (left_expo e1, List.length t, t ++ tl) /\ tail_ok fw (List.length t) tl.
Proof.
  intros f fw len x m1 e0 n e n1 e1 z Hl Hf L Su Sd Ro Ld Hz t.
  destruct (start_tail fw len ltac:(lia) Hf) as [St (b & Eb)]. pose proof (adjust_range f e len ltac:(lia)) as Ha. fold L in Ha.
  assert (Cp : len + 6 <= cap fw) by (unfold cap; destruct (Nat.eqb_spec fw 0); lia).
  pose proof (body_length z L e1 n1 Hz) as Bl.
  pose proof (tail_skip _ _ _ 1 St ltac:(lia)) as S1. rewrite Eb in S1. cbn [skipn Nat.add] in S1.
  destruct (tail_length _ _ _ S1) as (_ & Cb & Lb & _).
  unfold mantissa_of.
  assert (Sg : (let* (num, b) := if qltb x 0 then let* b := put (blank_string fw len) 0 "-"%char in Some ((- x)%Q, b)
                   else if fSIGN f then let* b := put (blank_string fw len) 0 "+"%char in Some (x, b) else Some (x, blank_string fw len) in Some (num, b)) =
    Some (mag x, [sign_char f x] ++ b)).
  { unfold mag, sign_char. rewrite Eb. destruct (qltb x 0); [reflexivity|]. destruct (fSIGN f); reflexivity. }
  destruct (if qltb x 0 then _ else _) as [[num bb]|]; [|discriminate Sg]. cbn [bind] in Sg. injection Sg as -> ->. cbn [bind].
  rewrite Su. cbn [bind]. rewrite Sd. cbn [bind]. fold L. rewrite Ro. unfold t, body, left_expo in *.
  assert (Fr : frac n1).
  { apply lead_decade in Ld. split; [pose proof (T_pos (- Z.of_nat z - 1)); lra|]. eapply Qlt_le_trans; [apply Ld|]. apply (T_le _ 0). lia. }
  destruct (Z.eqb_spec e1 (-3)) as [E3|E3].
  - destruct b as [|b1 b]; [cbn in Lb; lia|]. destruct b as [|b2 b]; [cbn in Lb; lia|]. cbn [List.length] in Lb.
    cbn [app put List.length Nat.ltb Nat.leb store bind].
    change (sign_char f x :: "0"%char :: "."%char :: b) with ([sign_char f x; "0"%char; "."%char] ++ b).
    pose proof (fixed_lead z L (L + 3) n1 [sign_char f x; "0"%char; "."%char] b Ld ltac:(lia) ltac:(lia) ltac:(lia)) as F.
    cbn [List.length] in F. unfold put. cbn [app List.length Nat.ltb Nat.leb store bind]. 
    change (sign_char f x :: "0"%char :: "."%char :: b) with ([sign_char f x; "0"%char; "."%char] ++ b). rewrite F. cbn [bind].
    exists (skipn (z + L) b). split; [reflexivity|].
    replace (skipn (z + L) b) with (skipn (2 + (z + L)) (b1 :: b2 :: b)) by reflexivity.
    match goal with |- tail_ok _ ?k _ => replace k with (1 + (2 + (z + L))) by (cbn; now rewrite digs_length) end.
    apply tail_skip; [exact S1|lia].
  - pose proof (point_lead z 2 L (L + 3) n1 [sign_char f x] b Ld ltac:(lia) ltac:(lia) ltac:(lia) ltac:(lia)) as F.
    cbn [List.length Z.of_nat Pos.of_succ_nat Pos.succ] in F. replace (S (2 - z)) with (3 - z) in F by lia. cbn [app] in F |- *. rewrite F. cbn [bind]. exists (skipn (S L) b). split; [reflexivity|].
    cbn [List.length]. rewrite pointed_length, digs_length in *. change (S (S L)) with (1 + S L). apply tail_skip; [exact S1|lia].
Qed.

(* ---- what is in the text ---- *)
Definition numeral (l : list ascii) : Prop := Forall (fun c => In c (str ".0123456789")) l.
Lemma digits_numeral : forall l, digits l -> numeral l.
Proof. intros l H. eapply Forall_impl; [|exact H]. intros c Hc. right. exact Hc. Qed.
Lemma pointed_numeral : forall i l, digits l -> numeral (pointed i l).
Proof.
  intros i l H. apply digits_numeral in H. unfold pointed. rewrite <- (firstn_skipn i l) in H. apply Forall_app in H. destruct H as [A B].
  apply Forall_app. split; [exact A|]. constructor; [now left|exact B].
Qed.
Lemma lead_frac : forall z n, lead z n -> frac n /\ frac (shl z n).
Proof.
  intros z n L. split.
  - apply lead_decade in L. split; [pose proof (T_pos (- Z.of_nat z - 1)); lra|]. eapply Qlt_le_trans; [apply L|]. apply (T_le _ 0). lia.
  - apply lead_iff in L. split; lra.
Qed.
Lemma body_numeral : forall z len e n, lead z n -> numeral (body z len e n) /\ In "."%char (body z len e n).
Proof.
  intros z len e n L. destruct (lead_frac z n L) as [F1 F2]. unfold body. destruct (e =? -3)%Z.
  - split; [|right; now left]. apply Forall_app. split; [repeat constructor; cbn; tauto|]. apply digits_numeral. now apply digs_digits.
  - split; [apply pointed_numeral; now apply digs_digits|]. unfold pointed. apply in_or_app. right. now left.
Qed.
Lemma stripr_nonempty : forall l c, In c l -> c <> "0"%char -> stripr l <> [].
Proof.
  induction l as [|d l IH]; intros c H N; [destruct H|]. destruct H as [->|H]; cbn [stripr].
  - destruct (stripr l); [|discriminate]. destruct (Ascii.eqb_spec c "0"); [contradiction|discriminate].
  - specialize (IH c H N). destruct (stripr l); [contradiction|discriminate].
Qed.
Lemma stripr_keeps : forall l c, In c l -> c <> "0"%char -> In c (stripr l).
Proof.
  intros l c H N. destruct (stripr_split l) as [E _]. rewrite E in H. apply in_app_or in H. destruct H as [H|H]; [exact H|].
  apply repeat_spec in H. contradiction.
Qed.
Lemma printed_numeral : forall f l, numeral l -> In "."%char l -> numeral (printed f l) /\ In "."%char (printed f l) /\ List.length (printed f l) <= List.length l.
Proof.
  intros f l H I. unfold printed. destruct (fFILL f); [repeat split; auto|]. split; [|split; [apply stripr_keeps; [assumption|discriminate]|apply stripr_split]].
  destruct (stripr_split l) as [E _]. rewrite E in H. now apply Forall_app in H.
Qed.
Lemma numeral_visible : forall c, In c (str ".0123456789") -> isgraph c = true /\ c <> NUL /\ c <> "M"%char.
Proof. intros c H. cbn in H. repeat destruct H as [<-|H]; try contradiction; repeat split; discriminate. Qed.

(* ---- the scale part as input ---- *)
Definition ends_number (rest : list ascii) : Prop := match rest with [] => True | c :: _ => c = " "%char \/ c = "009"%char \/ c = ","%char end.
Lemma ends_plain : forall rest, ends_number rest -> ~ begins_letter rest /\ ~ begins_digit rest /\ match rest with c :: _ => c <> "%"%char /\ c <> "."%char | [] => True end.
Proof.
  intros [|c r] H; [repeat split; intros []|]. destruct H as [->|[->| ->]]; repeat split; try discriminate; cbn; intuition discriminate.
Qed.
Lemma scale_reads : forall f e, (-99 <= e <= 999)%Z -> (exists j, e = 3 * j)%Z -> e <> (-3)%Z ->
  exists st p, scale_text f e = st ++ repeat " "%char p /\ Forall (fun c => isgraph c = true /\ c <> NUL) st /\
    forall u rest, ends_number rest -> exists q, (q == Qpower 10 e)%Q /\ tail_of u (st ++ rest) q rest.
Proof.
  intros f e He [j Hj] N3. unfold scale_text. destruct (Z.eqb_spec e 0) as [->|E0].
  - exists [], 0. repeat split; [constructor|]. intros u rest Hr. destruct (ends_plain rest Hr) as (A & B & C). exists 1%Q. split; [reflexivity|].
    apply (t_letters u [] rest); [constructor|exact A|intros _; now split|exact I].
  - destruct (sci f e) eqn:Es.
    + assert (G : exists sg neg ds p, exponent_text e = ("E"%char :: sg ++ ds) ++ repeat " "%char p /\ sign_text sg neg /\ digits ds /\ ds <> [] /\ value ds = Z.abs e /\ signed neg (Z.abs e) = e).
      { unfold exponent_text. destruct (Z.ltb_spec e 100) as [L|L]; [destruct (Z.ltb_spec e 0) as [L0|L0]|].
        - unfold show, pad3. destruct (Z.ltb_spec e 0); [|lia]. destruct (show_nat_ok (- e)) as (A & B & C); [lia|].
          exists ["-"%char], true, (show_nat (- e)). eexists. split; [cbn [app]; reflexivity|]. repeat split; try assumption; try lia; [right; right; now split|unfold signed; lia].
        - unfold show, pad3. destruct (Z.ltb_spec e 0); [lia|]. destruct (show_nat_ok e) as (A & B & C); [lia|].
          exists ["+"%char], false, (show_nat e). eexists. split; [cbn [app]; reflexivity|]. repeat split; try assumption; try lia; [right; left; now split|unfold signed; lia].
        - unfold show. destruct (Z.ltb_spec e 0); [lia|]. destruct (show_nat_ok e) as (A & B & C); [lia|].
          exists [], false, (show_nat e), 0. split; [cbn [app repeat]; now rewrite app_nil_r|]. repeat split; try assumption; try lia; [left; now split|unfold signed; lia]. }
      destruct G as (sg & neg & ds & p & Et & Sg & Dg & Nd & Vd & Sn). exists ("E"%char :: sg ++ ds), p. split; [exact Et|]. split.
      * constructor; [now split|]. apply Forall_app. split; [destruct Sg as [[-> _]|[[-> _]|[-> _]]]; repeat constructor; discriminate|].
        eapply Forall_impl; [|exact Dg]. intros c Hc. destruct (numeral_visible c) as (A & B & _); [now right|]. now split.
      * intros u rest Hr. destruct (ends_plain rest Hr) as (A & B & C). exists (Qpower 10 e). split; [reflexivity|].
        assert (T : tail_of u ("E"%char :: sg ++ ds ++ [] ++ rest) (Qpower 10 (signed neg (value ds))) rest).
        { apply t_exp; try assumption; [now right|lia|constructor|intros _; exact B]. }
        rewrite Vd, Sn in T. cbn [app] in T. cbn [app]. rewrite <- app_assoc. exact T.
    + assert (R : (j = -5 \/ j = -4 \/ j = -3 \/ j = -2 \/ j = 1 \/ j = 2 \/ j = 3)%Z).
      { unfold sci in Es. apply orb_false_iff in Es. destruct Es as [Es E2]. apply orb_false_iff in Es. destruct Es as [_ E1]. lia. }
      exists (letter_text e), 0. split; [now rewrite app_nil_r|].
      assert (G : Forall letter (letter_text e) /\ Forall (fun c => isgraph c = true /\ c <> NUL) (letter_text e) /\
        match letter_text e with c :: _ => c <> "e"%char /\ c <> "E"%char | [] => False end /\ forall u, (letters_factor u (letter_text e) == Qpower 10 e)%Q).
      { subst e. clear -R. repeat destruct R as [->|R]; try subst j; (split; [repeat constructor|]; split; [repeat (constructor; [split; [reflexivity|discriminate]|]); constructor|];
          split; [split; discriminate|]; intros []; reflexivity). }
      destruct G as (G1 & G2 & G3 & G4). split; [exact G2|]. intros u rest Hr. destruct (ends_plain rest Hr) as (A & B & C).
      exists (letters_factor u (letter_text e)). split; [apply G4|]. apply t_letters; try assumption; destruct (letter_text e); try contradiction; try assumption. discriminate.
Qed.

(* ---- the end of ftos ---- *)
Definition finish (fw : nat) (b : list ascii) : option (list ascii) := let* b := if fw =? 0 then trim b else Some b in c_str b.
Lemma fill_split : forall tl n, n + List.length tl = 40 -> n <= 39 -> Forall filler tl -> nth_error tl (39 - n) = Some NUL ->
  exists i q, tl = repeat " "%char i ++ NUL :: q.
Proof.
  induction tl as [|c tl IH]; intros n L Hn F N; [cbn in L; lia|]. inversion_clear F as [|? ? Fc Ft]. destruct Fc as [->| ->]; [|now exists 0, tl].
  cbn [List.length] in L. destruct (Nat.eq_dec n 39) as [->|Nn]; [discriminate N|].
  replace (39 - n) with (S (39 - S n)) in N by lia. cbn [nth_error] in N. destruct (IH (S n)) as (i & q & ->); try assumption; try lia. now exists (S i), q.
Qed.
Lemma finish_ok : forall fw txt k p tl, txt = k ++ repeat " "%char p -> no_nul k -> ends_visible k -> tail_ok fw (List.length txt) tl ->
  finish fw (txt ++ tl) = Some (k ++ repeat " "%char (fw - List.length k)).
Proof.
  intros fw txt k p tl -> Nk Vk Ht. assert (Nn : forall i, no_nul (k ++ repeat " "%char i)).
  { intros i X. apply in_app_or in X. destruct X as [X|X]; [contradiction|]. apply repeat_spec in X. discriminate X. }
  unfold finish. unfold tail_ok in Ht. destruct (Nat.eqb_spec fw 0) as [->|E].
  - destruct Ht as (A & B & C). cbn [Nat.sub repeat]. rewrite app_nil_r.
    destruct (fill_split tl (List.length (k ++ repeat " "%char p))) as (i & q & ->); try assumption.
    { assert (List.length tl <> 0) by (destruct tl; [destruct (39 - _); discriminate C|discriminate]). lia. }
    replace ((k ++ repeat " "%char p) ++ repeat " "%char i ++ NUL :: q) with ((k ++ repeat " "%char (p + i)) ++ NUL :: q) by (rewrite repeat_app, <- !app_assoc; reflexivity).
    destruct (C18_trim (k ++ repeat " "%char (p + i)) q (Nn _)) as (k' & p' & E' & Ip & Vk' & _ & R). rewrite R. f_equal.
    symmetry in E'. apply ends_unique in E'; try assumption; [now destruct E'|]. apply Forall_forall. intros c Hc. apply repeat_spec in Hc. now subst c.
  - destruct Ht as (-> & B). cbn [bind]. rewrite app_length, repeat_length in *.
    replace ((k ++ repeat " "%char p) ++ repeat " "%char (fw - (List.length k + p)) ++ repeat NUL (40 - fw))
      with ((k ++ repeat " "%char (fw - List.length k)) ++ NUL :: repeat NUL (39 - fw)).
    + now apply c_str_app.
    + replace (40 - fw) with (S (39 - fw)) by lia. cbn [repeat]. replace (fw - List.length k) with (p + (fw - (List.length k + p))) by lia.
      now rewrite repeat_app, <- !app_assoc.
Qed.

Lemma number_ok : forall f fw len x m1 e0 n e n1 e1 z, 3 <= len <= 33 -> fw = 0 \/ len + 6 <= fw <= 39 ->
  (ftos_floor <= Qabs x)%Q -> ~ (x == 0)%Q ->
  let L := adjust_len f e len in
  scale_up (up_rounds (mag x)) (mag x) (-3) = Some (m1, e0) -> scale_down (down_rounds m1) m1 e0 = Some (n, e) ->
  round_num L n e = (n1, e1) -> lead z n1 -> z <= 2 ->
  (-99 <= e1 <= 999)%Z -> (exists j, e1 = 3 * j)%Z ->
  let txt := (sign_char f x :: printed f (body z L e1 n1)) ++ scale_text f (left_expo e1) in
  exists tl, number_of f fw len x (blank_string fw len) = Some (txt ++ tl) /\ tail_ok fw (List.length txt) tl.
Proof.
  intros f fw len x m1 e0 n e n1 e1 z Hl Hf Fl Nx L Su Sd Ro Ld Hz He1 [j Hj] txt.
  destruct (mantissa_ok f fw len x m1 e0 n e n1 e1 z Hl Hf Su Sd Ro Ld Hz) as (tl & M & Ht). fold L in M, Ht.
  pose proof (adjust_range f e len ltac:(lia)) as Ha. fold L in Ha.
  unfold number_of. destruct (qltb_spec (Qabs x) ftos_floor) as [X|_]; [exfalso; lra|]. destruct (qeqb_spec x 0) as [X|_]; [contradiction|].
  rewrite M. cbn [bind]. set (t := sign_char f x :: body z L e1 n1) in *.
  destruct (tail_cons _ _ _ Ht) as (c & tl' & Ec & Fc & _).
  assert (Nt : nth_error (t ++ tl) (List.length t) = Some c) by (rewrite Ec; apply nth_mid). rewrite Nt. cbn [bind].
  assert (A : (if Ascii.eqb c " " || Ascii.eqb c NUL then Some tt else None) = Some tt) by (destruct Fc; subst c; reflexivity). rewrite A. cbn [bind]. clear A.
  destruct (body_numeral z L e1 n1 Ld) as [Bn Bd]. destruct (printed_numeral f _ Bn Bd) as (Pn & Pd & Pl).
  set (pr := printed f (body z L e1 n1)) in *.
  assert (G : exists tl2, (if fFILL f then Some (List.length t, t ++ tl) else drop_zeros fw (List.length t) (t ++ tl)) =
     Some (List.length (sign_char f x :: pr), (sign_char f x :: pr) ++ tl2) /\ tail_ok fw (List.length (sign_char f x :: pr)) tl2).
  { unfold pr, printed in *. destruct (fFILL f); [now exists tl|].
    assert (Es : stripr t = sign_char f x :: stripr (body z L e1 n1)).
    { unfold t. cbn [stripr]. destruct (stripr (body z L e1 n1)) eqn:E; [|reflexivity]. destruct Pd. }
    destruct (drop_ok fw t tl) as (tl2 & E & H2); [rewrite Es; discriminate|exact Ht|]. rewrite Es in *. now exists tl2. }
  destruct G as (tl2 & -> & H2). cbn [bind].
  assert (Cp : len + 6 <= cap fw) by (unfold cap; destruct (Nat.eqb_spec fw 0); lia).
  assert (Le : List.length (sign_char f x :: pr) + List.length (scale_text f (left_expo e1)) <= cap fw /\ (left_expo e1 <> 0%Z -> List.length (sign_char f x :: pr) + 4 <= cap fw)).
  { cbn [List.length]. unfold left_expo, body in *. destruct (e1 =? -3)%Z eqn:E3.
    - split; [|congruence]. unfold scale_text. cbn [Z.eqb List.length]. rewrite app_length, digs_length in Pl. cbn [List.length str list_ascii_of_string] in Pl. lia.
    - rewrite pointed_length, digs_length in Pl. pose proof (scale_length f e1 He1). lia. }
  destruct Le as [Le1 Le2].
  assert (Hlast : exists pre' d, pr = pre' ++ [d] /\ d <> "M"%char).
  { destruct (exists_last (l := pr)) as (pre' & d & E); [intros E; rewrite E in Pd; destruct Pd|]. exists pre', d. split; [exact E|].
    rewrite E in Pn. apply Forall_app in Pn. destruct Pn as [_ Pn]. inversion_clear Pn as [|? ? Pd' _]. now apply numeral_visible. }
  destruct Hlast as (pre' & d & Ed & Nd).
  exists (skipn (List.length (scale_text f (left_expo e1))) tl2). split.
  - destruct (Z.eq_dec (left_expo e1) 0) as [Z0|Z0].
    + unfold txt, append_scale, scale_text. rewrite Z0. cbn [Z.eqb bind List.length skipn]. rewrite app_nil_r.
      assert (Nn : nth_error ((sign_char f x :: pr) ++ tl2) (S (List.length pr) - 1) = Some d).
      { rewrite Ed. cbn [Nat.sub]. rewrite Nat.sub_0_r, app_length. cbn [List.length]. rewrite Nat.add_1_r. cbn [app nth_error]. rewrite <- app_assoc. apply nth_mid. }
      rewrite Nn. cbn [bind]. destruct (Ascii.eqb_spec d "M"); [contradiction|]. reflexivity.
    + destruct (append_scale_ok f fw (sign_char f x :: pr) (sign_char f x :: pre') d tl2 (left_expo e1) Nd) as (nn & E); try assumption.
      * rewrite Ed. reflexivity.
      * now apply Le2.
      * unfold left_expo. destruct (e1 =? -3)%Z; lia.
      * unfold left_expo. destruct (e1 =? -3)%Z; [exists 0%Z; reflexivity|now exists j].
      * rewrite E. reflexivity.
  - unfold txt. rewrite app_length. apply tail_skip; assumption.
Qed.

(* ---- the value of the text ---- *)
Local Open Scope Q_scope.
Lemma e_unique : forall a e e', T e <= a < T (e + 3) -> T e' <= a < T (e' + 3) -> (exists j, e = 3 * j)%Z -> (exists j, e' = 3 * j)%Z -> e = e'.
Proof.
  intros a e e' [A B] [C D] [j Hj] [j' Hj']. assert (e < e' + 3)%Z by (apply T_lt_inv; lra). assert (e' < e + 3)%Z by (apply T_lt_inv; lra). lia.
Qed.
Lemma scaled_range : forall n a e, 1 # 1000 <= n < 1 -> a == n * T (e + 3) -> T e <= a < T (e + 3).
Proof.
  intros n a e [A B] E. rewrite E. pose proof (T_pos (e + 3)) as P. split.
  - assert (T e == (1 # 1000) * T (e + 3)) as -> by (rewrite T_add; change (T 3) with 1000; ring). apply Qmult_le_r; assumption.
  - rewrite <- (Qmult_1_l (T (e + 3))) at 2. now apply Qmult_lt_r.
Qed.
Lemma P10_T : forall len, inject_Z (P10 len) == T (Z.of_nat len).
Proof. intros len. unfold P10. rewrite T_int by lia. reflexivity. Qed.
Lemma core : forall f len a kl kh, kl = (-99)%Z -> kh = 309%Z -> (3 <= len)%nat -> T kl <= a < T kh ->
  exists m1 e0 n e z0 n1 e1 z, let L := adjust_len f e len in
    let D := Qfloor (shl z n1 * inject_Z (P10 L)) in let v := inject_Z D * T (e1 + 3 - Z.of_nat L - Z.of_nat z) in
    let k := (e + 2 - Z.of_nat z0)%Z in
    scale_up (up_rounds a) a (-3) = Some (m1, e0) /\ scale_down (down_rounds m1) m1 e0 = Some (n, e) /\
    round_num L n e = (n1, e1) /\ lead z n1 /\ (z <= 2)%nat /\ (-99 <= e1 <= 999)%Z /\ (exists j, e1 = 3 * j)%Z /\
    T e <= a < T (e + 3) /\ (exists j, e = 3 * j)%Z /\ (P10 (L - 1) <= D < P10 L)%Z /\
    T k <= a < T (k + 1) /\ Qabs (v - a) <= (1 # 2) * T (k + 1 - Z.of_nat L) /\ (exists m, v == inject_Z m * T (k + 1 - Z.of_nat L)) /\
    T k <= v <= T (k + 1) /\ (e1 = e \/ e1 = (e + 3)%Z /\ z = 2%nat /\ D = P10 (L - 1)).
Proof.
  intros f len a kl kh Ekl Ekh Hl [Ha1 Ha2]. assert (Pa : 0 < a) by (pose proof (T_pos kl); lra).
  destruct (scale_ok a Pa) as (m1 & e0 & n & e & Su & Sd & Hn & Ea & Hj).
  pose proof (adjust_range f e len Hl) as HL. set (L := adjust_len f e len) in *.
  destruct (round_ok L n e ltac:(lia) Hn) as (z0 & z & n1 & e1 & Hz0 & L0 & Ro & Hz & L1 & HR). cbv zeta in HR. destruct HR as [HD HC].
  exists m1, e0, n, e, z0, n1, e1, z. cbv zeta. fold L. set (D := Qfloor (shl z n1 * inject_Z (P10 L))) in *.
  set (D0 := Qfloor (shl z0 n * inject_Z (P10 L) + (1 # 2))) in *.
  pose proof (scaled_range n a e Hn Ea) as Re.
  assert (Be : (-99 <= e < 309)%Z).
  { assert (kl < e + 3)%Z by (apply T_lt_inv; lra). assert (e < kh)%Z by (apply T_lt_inv; lra). destruct Hj as [j Hj]. lia. }
  split; [exact Su|]. split; [exact Sd|]. split; [exact Ro|]. split; [exact L1|]. split; [exact Hz|].
  split; [destruct HC as [(_ & _ & -> & _)|(_ & _ & [(_ & ->)|(_ & _ & ->)])]; lia|].
  split; [destruct Hj as [j ->]; destruct HC as [(_ & _ & -> & _)|(_ & _ & [(_ & ->)|(_ & _ & ->)])]; [now exists j|now exists j|exists (j + 1)%Z; lia]|].
  split; [exact Re|]. split; [exact Hj|]. split; [exact HD|].
  set (k := (e + 2 - Z.of_nat z0)%Z). set (u := T (k + 1 - Z.of_nat L)). set (y := shl z0 n * inject_Z (P10 L)) in *.
  assert (Ey : a == y * u).
  { rewrite Ea. unfold y, u, shl. rewrite P10_T, <- !Qmult_assoc, <- !T_add. unfold k.
    replace (Z.of_nat z0 + (Z.of_nat L + (e + 2 - Z.of_nat z0 + 1 - Z.of_nat L)))%Z with (e + 3)%Z by lia. reflexivity. }
  assert (Ev : inject_Z D * T (e1 + 3 - Z.of_nat L - Z.of_nat z) == inject_Z D0 * u).
  { unfold u, k. destruct HC as [(_ & -> & -> & ->)|(E0 & E1 & HC)].
    - replace (e + 2 - Z.of_nat z0 + 1 - Z.of_nat L)%Z with (e + 3 - Z.of_nat L - Z.of_nat z0)%Z by lia. reflexivity.
    - rewrite E0, E1, !P10_T, <- !T_add.
      assert (Z.of_nat (L - 1) + (e1 + 3 - Z.of_nat L - Z.of_nat z) = Z.of_nat L + (e + 2 - Z.of_nat z0 + 1 - Z.of_nat L))%Z as -> by lia.
      reflexivity. }
  pose proof (T_pos (k + 1 - Z.of_nat L)) as Pu. fold u in Pu.
  assert (Hd : T k <= a < T (k + 1)).
  { apply lead_decade in L0. rewrite Ea. pose proof (T_pos (e + 3)) as P. split.
    - assert (T k == T (- Z.of_nat z0 - 1) * T (e + 3)) as -> by (rewrite <- T_add; unfold k; now replace (- Z.of_nat z0 - 1 + (e + 3))%Z with (e + 2 - Z.of_nat z0)%Z by lia).
      apply Qmult_le_r; [exact P|apply L0].
    - assert (T (k + 1) == T (- Z.of_nat z0) * T (e + 3)) as -> by (rewrite <- T_add; unfold k; now replace (- Z.of_nat z0 + (e + 3))%Z with (e + 2 - Z.of_nat z0 + 1)%Z by lia).
      apply Qmult_lt_r; [exact P|apply L0]. }
  split; [exact Hd|].
  split; [|split; [now exists D0|split]].
  - rewrite Ev, Ey. setoid_replace (inject_Z D0 * u - y * u) with ((inject_Z D0 - y) * u) by ring. rewrite Qabs_Qmult, (Qabs_pos u) by lra.
    apply Qmult_le_r; [exact Pu|]. pose proof (Qfloor_le (y + (1 # 2))) as A. pose proof (Qlt_floor (y + (1 # 2))) as B. fold D0 in A, B.
    rewrite inject_Z_plus in B. change (inject_Z 1) with 1 in B. apply Qabs_le. split; lra.
  - assert (BD : (P10 (L - 1) <= D0 <= P10 L)%Z).
    { assert (P10 L = 10 * P10 (L - 1))%Z by (unfold P10; rewrite <- pow10_S; do 2 f_equal; lia).
      destruct HC as [(A & _ & _ & B)|(A & _)]; lia. }
    rewrite Ev. split.
    + assert (T k == inject_Z (P10 (L - 1)) * u) as ->.
      { rewrite P10_T. unfold u. rewrite <- T_add. now replace (Z.of_nat (L - 1) + (k + 1 - Z.of_nat L))%Z with k by lia. }
      apply Qmult_le_r; [exact Pu|]. rewrite <- Zle_Qle. lia.
    + assert (T (k + 1) == inject_Z (P10 L) * u) as ->.
      { rewrite P10_T. unfold u. rewrite <- T_add. now replace (Z.of_nat L + (k + 1 - Z.of_nat L))%Z with (k + 1)%Z by lia. }
      apply Qmult_le_r; [exact Pu|]. rewrite <- Zle_Qle. lia.
  - destruct HC as [(_ & _ & E & _)|(_ & E' & [(_ & E)|(_ & Ez & E)])]; [now left|now left|now right].
Qed.

(* ---- the text as mantissa and scale ---- *)
Lemma stripr_dot : forall a b, stripr (a ++ "."%char :: b) = a ++ "."%char :: stripr b.
Proof.
  induction a as [|c a IH]; intros b; cbn [app stripr].
  - destruct (stripr b); reflexivity.
  - rewrite IH. destruct a; reflexivity.
Qed.
Lemma value_zeros : forall l p, value (l ++ repeat "0"%char p) = (value l * 10 ^ Z.of_nat p)%Z.
Proof.
  intros l p. rewrite value_app, repeat_length. assert (E : value (repeat "0"%char p) = 0%Z).
  { induction p as [|p IH]; [reflexivity|]. cbn [repeat]. rewrite value_cons, IH. replace (code "0" - 48)%Z with 0%Z by reflexivity. lia. }
  rewrite E. lia.
Qed.
Lemma strip_value : forall f a b, digits b -> digits (printed f b) /\
  inject_Z (value (a ++ printed f b)) * T (- Z.of_nat (List.length (printed f b))) == inject_Z (value (a ++ b)) * T (- Z.of_nat (List.length b)).
Proof.
  intros f a b H. unfold printed. destruct (fFILL f); [split; [exact H|reflexivity]|]. destruct (stripr_split b) as [E L].
  set (p := (List.length b - List.length (stripr b))%nat) in *. split.
  - rewrite E in H. now apply Forall_app in H.
  - rewrite E at 3. rewrite app_assoc, value_zeros. rewrite inject_Z_mult, <- T_int by lia. rewrite <- Qmult_assoc, <- T_add.
    now replace (Z.of_nat p + - Z.of_nat (List.length b))%Z with (- Z.of_nat (List.length (stripr b)))%Z by lia.
Qed.
Lemma body_parts : forall f z L e1 n1, lead z n1 -> (z <= 2)%nat -> (3 <= L)%nat -> let D := Qfloor (shl z n1 * inject_Z (P10 L)) in
  exists ip fp, printed f (body z L e1 n1) = mantissa ip true fp /\ digits ip /\ digits fp /\
    inject_Z (value (ip ++ fp)) * T (- Z.of_nat (List.length fp)) * T (left_expo e1) == inject_Z D * T (e1 + 3 - Z.of_nat L - Z.of_nat z).
Proof.
  intros f z L e1 n1 Ld Hz HL D. destruct (lead_frac z n1 Ld) as [F1 F2]. unfold body, left_expo. destruct (Z.eqb_spec e1 (-3)) as [->|N].
  - pose proof (digs_digits (z + L) n1 F1) as Dg. destruct (strip_value f (str "0") _ Dg) as [S1 S2].
    exists (str "0"), (printed f (digs (z + L) n1)). split.
    + unfold printed, mantissa. destruct (fFILL f); [reflexivity|]. change (str "0." ++ digs (z + L) n1) with (str "0" ++ "."%char :: digs (z + L) n1). now rewrite stripr_dot.
    + split; [repeat constructor; cbn; tauto|]. split; [exact S1|]. rewrite S2, digs_length. change (T 0) with 1. rewrite Qmult_1_r.
      rewrite value_app. change (value (str "0")) with 0%Z. rewrite Z.mul_0_l, Z.add_0_l, digs_value by assumption.
      replace (-3 + 3 - Z.of_nat L - Z.of_nat z)%Z with (- Z.of_nat (z + L))%Z by lia. unfold D.
      rewrite (Qfloor_comp (n1 * inject_Z (10 ^ Z.of_nat (z + L))) (shl z n1 * inject_Z (P10 L))); [reflexivity|].
      unfold shl. rewrite P10_T, <- T_int by lia. rewrite <- Qmult_assoc, <- T_add. now rewrite Nat2Z.inj_add.
  - pose proof (digs_digits L (shl z n1) F2) as Dg. set (ds := digs L (shl z n1)) in *.
    assert (Dg' := Dg). rewrite <- (firstn_skipn (3 - z) ds) in Dg'. apply Forall_app in Dg'. destruct Dg' as [D1 D2].
    destruct (strip_value f (firstn (3 - z) ds) _ D2) as [S1 S2]. exists (firstn (3 - z) ds), (printed f (skipn (3 - z) ds)). split.
    + unfold printed, mantissa, pointed. destruct (fFILL f); [reflexivity|]. now rewrite stripr_dot.
    + split; [exact D1|]. split; [exact S1|]. rewrite S2, firstn_skipn, skipn_length. unfold ds at 1 2. rewrite digs_value, digs_length by assumption.
      fold (P10 L). fold D. rewrite <- Qmult_assoc, <- T_add.
      now replace (- Z.of_nat (L - (3 - z)) + e1)%Z with (e1 + 3 - Z.of_nat L - Z.of_nat z)%Z by lia.
Qed.
(* the body depends on the number printed only through its digits *)
Lemma body_eq : forall z L e a b, lead z a -> lead z b -> Qfloor (shl z a * inject_Z (P10 L)) = Qfloor (shl z b * inject_Z (P10 L)) -> body z L e a = body z L e b.
Proof.
  intros z L e a b La Lb E. destruct (lead_frac z a La) as [A1 A2]. destruct (lead_frac z b Lb) as [B1 B2].
  assert (X : forall c, shl z c * inject_Z (P10 L) == c * inject_Z (10 ^ Z.of_nat (z + L))).
  { intros c. unfold shl. rewrite P10_T, <- T_int by lia. rewrite <- Qmult_assoc, <- T_add. now rewrite Nat2Z.inj_add. }
  unfold body. destruct (e =? -3)%Z; f_equal.
  - apply value_inj; try (now apply digs_digits); [now rewrite !digs_length|]. rewrite !digs_value by assumption.
    now rewrite <- (Qfloor_comp _ _ (X a)), <- (Qfloor_comp _ _ (X b)).
  - apply value_inj; try (now apply digs_digits); [now rewrite !digs_length|]. rewrite !digs_value by assumption. exact E.
Qed.
(* a power of ten looks the same for every number of digits *)
Lemma digits_repeat : forall p, digits (repeat "0"%char p).
Proof. intros p. apply Forall_forall. intros c Hc. apply repeat_spec in Hc. subst c. cbn. tauto. Qed.
Lemma stripr_zeros : forall l p, stripr (l ++ repeat "0"%char p) = stripr l.
Proof.
  intros l p. induction p as [|p IH]; [cbn [repeat]; now rewrite app_nil_r|].
  replace (S p) with (p + 1)%nat by lia. rewrite repeat_app, app_assoc. cbn [repeat]. now rewrite stripr_snoc, Ascii.eqb_refl.
Qed.
Lemma body_ten : forall L e a, (3 <= L)%nat -> lead 2 a -> Qfloor (shl 2 a * inject_Z (P10 L)) = P10 (L - 1) ->
  stripr (body 2 L e a) = if (e =? -3)%Z then str "0.001" else str "1.".
Proof.
  intros L e a HL La E. destruct (lead_frac 2 a La) as [A1 A2].
  assert (D1 : digits ("1"%char :: repeat "0"%char (L - 1))) by (constructor; [cbn; tauto|apply digits_repeat]).
  assert (V1 : value ("1"%char :: repeat "0"%char (L - 1)) = P10 (L - 1)).
  { change ("1"%char :: repeat "0"%char (L - 1)) with (str "1" ++ repeat "0"%char (L - 1)). rewrite value_zeros. change (value (str "1")) with 1%Z. unfold P10. lia. }
  unfold body. destruct (e =? -3)%Z.
  - assert (X : digs (2 + L) a = str "00" ++ "1"%char :: repeat "0"%char (L - 1)).
    { apply value_inj.
      - now apply digs_digits.
      - apply Forall_app. split; [repeat constructor; cbn; tauto|exact D1].
      - rewrite digs_length. cbn [app str list_ascii_of_string List.length]. rewrite repeat_length. lia.
      - rewrite digs_value, value_app, V1 by assumption. change (value (str "00")) with 0%Z. rewrite Z.mul_0_l, Z.add_0_l, <- E. apply Qfloor_comp.
        unfold shl. rewrite P10_T, <- T_int by lia. rewrite <- Qmult_assoc, <- T_add. now rewrite Nat2Z.inj_add. }
    rewrite X. change (str "0." ++ str "00" ++ "1"%char :: repeat "0"%char (L - 1)) with (str "0" ++ "."%char :: (str "001" ++ repeat "0"%char (L - 1))).
    rewrite stripr_dot, stripr_zeros. reflexivity.
  - assert (X : digs L (shl 2 a) = "1"%char :: repeat "0"%char (L - 1)).
    { apply value_inj; [now apply digs_digits|exact D1| |].
      - rewrite digs_length. cbn [List.length]. rewrite repeat_length. lia.
      - rewrite digs_value, V1 by assumption. exact E. }
    rewrite X. unfold pointed. cbn [Nat.sub firstn skipn]. rewrite stripr_dot.
    rewrite <- (app_nil_l (repeat "0"%char (L - 1))), stripr_zeros. reflexivity.
Qed.

(* ---- all of ftos for an ordinary number ---- *)
Definition ordinary (x : Q) : Prop := ftos_floor <= Qabs x /\ Qabs x < BIGBIG.
Lemma BIGBIG_309 : BIGBIG < T 309.
Proof. unfold BIGBIG, DBL_MAX. vm_compute. reflexivity. Qed.
Lemma special_bounds : NOT_VALID <= - BIGBIG /\ NOT_INPUT <= - BIGBIG.
Proof. split; vm_compute; discriminate. Qed.
Lemma mag_abs : forall x, mag x == Qabs x.
Proof. intros x. unfold mag. destruct (qltb_spec x 0); [now rewrite Qabs_neg by lra|now rewrite Qabs_pos by lra]. Qed.
Lemma ftos_ordinary : forall f fw len x, (3 <= len <= 33)%nat -> fw = 0%nat \/ (len + 6 <= fw <= 39)%nat -> ordinary x ->
  ftos x fw len f = let* b := number_of f fw len x (blank_string fw len) in finish fw b.
Proof.
  intros f fw len x Hl Hf [H1 H2]. unfold ftos, MAXLENGTH. destruct special_bounds as [SV SI]. apply Qabs_lt in H2.
  replace (len <? 3)%nat with false by (symmetry; apply Nat.ltb_ge; lia). cbn [Nat.sub].
  replace (34 <? len)%nat with false by (symmetry; apply Nat.ltb_ge; lia). replace (39 <? fw)%nat with false by (symmetry; apply Nat.ltb_ge; lia).
  generalize dependent NOT_VALID. intros nv SV. generalize dependent NOT_INPUT. intros ni SI. generalize dependent BIGBIG. intros bb H2 SV SI.
  destruct (qeqb_spec x nv); [exfalso; lra|]. destruct (qeqb_spec x ni); [exfalso; lra|].
  destruct (qleb_spec bb x); [exfalso; lra|]. destruct (qleb_spec x (- bb)); [exfalso; lra|]. reflexivity.
Qed.
