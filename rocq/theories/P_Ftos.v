(* C60: printing numbers (ftos) and reading them back (ctof) *)
Require Import ZArith QArith Qround Qpower Qabs List Ascii String Bool Lia Lqa Arith.
Require Import ZifyBool.
Require Import Verif.Loops Verif.Wmatch_Model Verif.CS_Model Verif.Decimal_Text Verif.Qnum Verif.Lines_Model Verif.Measure_Model Verif.Ftos_Model.
Require Import Verif.P_Scanner Verif.P_Keyword Verif.P_Number Verif.P_Lines Verif.Ftos_Num Verif.Ftos_Proofs.
Import ListNotations.
Local Open Scope Q_scope.

(* ---- vocabulary ---- *)
(* the number of significant digits of the text: len, or one less (but at least three) where an exponent
   of two digits or more is printed *)
Definition kept (f : format) (len : nat) (x : Q) : nat :=
  if qleb (Qpower 10 12) (Qabs x) || qltb (Qabs x) (Qpower 10 (-15)) || (fEXP f && qltb (Qabs x) (Qpower 10 (-9))) then Nat.max 3 (len - 1) else len.
(* every scanner standing in front of text t, followed by the end of the line, a blank or a comma, reads
   the number v from it, in both units modes *)
Definition reads_as (t : list ascii) (v : Q) : Prop := forall u line s bl rest, on_line line s ->
  after s = bl ++ t ++ rest -> Forall blank bl -> ends_number rest ->
  exists q s', ctof u s = Some (q, s') /\ q == v /\ ok s' = true /\ on_line line s' /\ past_separators rest (after s').

(* ---- proofs ---- *)
Lemma T_cmp : forall K a e, T e <= a < T (e + 3) -> (exists i, K = 3 * i)%Z -> (exists j, e = 3 * j)%Z -> (T K <= a <-> (K <= e)%Z).
Proof.
  intros K a e [A B] [i Hi] [j Hj]. split; intros H.
  - assert (K < e + 3)%Z by (apply T_lt_inv; lra). lia.
  - apply T_le in H. lra.
Qed.
Lemma kept_adjust : forall f len x e, (3 <= len)%nat -> T e <= Qabs x < T (e + 3) -> (exists j, e = 3 * j)%Z -> adjust_len f e len = kept f len x.
Proof.
  intros f len x e Hl H Hj. unfold adjust_len, kept.
  assert (C1 : qleb (Qpower 10 12) (Qabs x) = (10 <? e)%Z).
  { pose proof (T_cmp 12 _ _ H ltac:(now exists 4%Z) Hj) as C. destruct Hj as [j Hj]. destruct (qleb_spec (Qpower 10 12) (Qabs x)) as [A|A]; rewrite C in A; lia. }
  assert (C2 : qltb (Qabs x) (Qpower 10 (-15)) = (e <? -16)%Z).
  { pose proof (T_cmp (-15) _ _ H ltac:(now exists (-5)%Z) Hj) as C. destruct Hj as [j Hj]. destruct (qltb_spec (Qabs x) (Qpower 10 (-15))) as [A|A].
    - apply Qlt_not_le in A. rewrite C in A. lia.
    - apply Qnot_lt_le in A. rewrite C in A. lia. }
  assert (C3 : qltb (Qabs x) (Qpower 10 (-9)) = (e <? -9)%Z).
  { pose proof (T_cmp (-9) _ _ H ltac:(now exists (-3)%Z) Hj) as C. destruct Hj as [j Hj]. destruct (qltb_spec (Qabs x) (Qpower 10 (-9))) as [A|A].
    - apply Qlt_not_le in A. rewrite C in A. lia.
    - apply Qnot_lt_le in A. rewrite C in A. lia. }
  rewrite C1, C2, C3. destruct (fEXP f && (e <? -9)%Z), (10 <? e)%Z, (e <? -16)%Z; cbn [orb];
    repeat match goal with |- context [(?a <? ?b)%nat] => destruct (Nat.ltb_spec a b) end; lia.
Qed.
Lemma left_ok : forall e1, (-99 <= e1 <= 999)%Z -> (exists j, e1 = 3 * j)%Z ->
  (-99 <= left_expo e1 <= 999)%Z /\ (exists j, left_expo e1 = 3 * j)%Z /\ left_expo e1 <> (-3)%Z.
Proof. intros e1 H [j Hj]. unfold left_expo. destruct (Z.eqb_spec e1 (-3)); repeat split; try lia; [exists 0%Z|exists j]; lia. Qed.
Lemma visible_end : forall c l, (forall d, In d l -> isgraph d = true) -> l <> [] -> ends_visible (c :: l).
Proof.
  intros c l H N. right. destruct (exists_last N) as (l' & d & ->). exists (c :: l'), d. split; [reflexivity|]. apply H, in_or_app. right. now left.
Qed.
Lemma sign_no_nul : forall f x, sign_char f x <> NUL.
Proof. intros f x. unfold sign_char. destruct (qltb x 0); [discriminate|]. destruct (fSIGN f); discriminate. Qed.

Lemma floor_T : ftos_floor = T (-99). Proof. reflexivity. Qed.
(* the text, the value v that its digits stand for, and where they come from *)
Lemma printed_ok : forall f len x, (3 <= len <= 33)%nat -> ordinary x ->
  exists e n1 e1 z st, let L := adjust_len f e len in let D := Qfloor (shl z n1 * inject_Z (P10 L)) in
    let v := inject_Z D * T (e1 + 3 - Z.of_nat L - Z.of_nat z) in
    let t := (sign_char f x :: printed f (body z L e1 n1)) ++ st in
    (forall fw, fw = 0%nat \/ (len + 6 <= fw <= 39)%nat -> ftos x fw len f = Some (t ++ repeat " "%char (fw - List.length t))) /\
    (List.length t <= len + 6)%nat /\
    scale_text f (left_expo e1) = st ++ repeat " "%char (List.length (scale_text f (left_expo e1)) - List.length st) /\ Forall (fun c => isgraph c = true /\ c <> NUL) st /\
    (forall u rest, ends_number rest -> exists q, q == T (left_expo e1) /\ tail_of u (st ++ rest) q rest) /\
    lead z n1 /\ (z <= 2)%nat /\ (3 <= L)%nat /\ (-99 <= e1 <= 999)%Z /\ (exists j, e1 = 3 * j)%Z /\ 
    T e <= Qabs x < T (e + 3) /\ (exists j, e = 3 * j)%Z /\ (P10 (L - 1) <= D < P10 L)%Z /\
    (exists k, T k <= Qabs x < T (k + 1) /\ Qabs (v - Qabs x) <= (1 # 2) * T (k + 1 - Z.of_nat L) /\ (exists m, v == inject_Z m * T (k + 1 - Z.of_nat L)) /\
     T k <= v <= T (k + 1)) /\ (e1 = e \/ e1 = (e + 3)%Z /\ z = 2%nat /\ D = P10 (L - 1)).
Proof.
  intros f len x Hl Hx. assert (Hx' := Hx). destruct Hx' as [H1 H2]. rewrite floor_T in H1.
  assert (Ha : T (-99) <= mag x < T 309).
  { rewrite mag_abs. split; [exact H1|]. eapply Qlt_trans; [exact H2|apply BIGBIG_309]. }
  destruct (core f len (mag x) _ _ eq_refl eq_refl ltac:(lia) Ha) as (m1 & e0 & n & e & z0 & n1 & e1 & z & C). cbv zeta in C.
  destruct C as (Su & Sd & Ro & Ld & Hz & He1 & Hj1 & Re & Hj & HD & Hk & Hv & Hm & Hvk & Hc).
  pose proof (adjust_range f e len ltac:(lia)) as HL.
  destruct (left_ok e1 He1 Hj1) as (Q1 & Q2 & Q3). destruct (scale_reads f (left_expo e1) Q1 Q2 Q3) as (st & p & Est & Vst & Rst).
  assert (Ep : p = (List.length (scale_text f (left_expo e1)) - List.length st)%nat) by (rewrite Est, app_length, repeat_length; lia).
  exists e, n1, e1, z, st. cbv zeta. set (L := adjust_len f e len) in *. set (t := (sign_char f x :: printed f (body z L e1 n1)) ++ st).
  destruct (body_numeral z L e1 n1 Ld) as [Bn Bd]. destruct (printed_numeral f _ Bn Bd) as (Pn & Pd & Pl).
  assert (Nx : ~ x == 0).
  { intros X. rewrite X in H1. change (Qabs 0) with 0 in H1. pose proof (T_pos (-99)) as P. apply Qle_not_lt in H1. contradiction. }
  assert (Vt : forall c, In c (printed f (body z L e1 n1) ++ st) -> isgraph c = true /\ c <> NUL).
  { intros c Ic. apply in_app_or in Ic. destruct Ic as [Ic|Ic].
    - unfold numeral in Pn. rewrite Forall_forall in Pn. apply Pn, numeral_visible in Ic. tauto.
    - rewrite Forall_forall in Vst. now apply Vst. }
  assert (Ft : forall fw, fw = 0%nat \/ (len + 6 <= fw <= 39)%nat -> ftos x fw len f = Some (t ++ repeat " "%char (fw - List.length t))).
  { intros fw Hf. rewrite ftos_ordinary by assumption.
    destruct (number_ok f fw len x m1 e0 n e n1 e1 z Hl Hf) as (tl & E & Ht); try assumption. fold L in E, Ht. rewrite E. cbn [bind].
    rewrite Est in Ht |- *. 
    apply (finish_ok fw _ t p).
    - unfold t. now rewrite <- !app_assoc.
    - intros X. unfold t in X. cbn [app] in X. destruct X as [X|X]; [now apply (sign_no_nul f x)|]. apply Vt in X. now destruct X.
    - unfold t. cbn [app]. apply visible_end; [intros d Hd; now apply Vt|]. destruct (printed f (body z L e1 n1)); [destruct Pd|discriminate].
    - exact Ht. }
  split; [exact Ft|]. split.
  { assert (X : (List.length (sign_char f x :: printed f (body z L e1 n1)) + List.length (scale_text f (left_expo e1)) <= len + 6)%nat).
    { cbn [List.length]. unfold left_expo, body in *. destruct (Z.eqb_spec e1 (-3)) as [E3|E3].
      - unfold scale_text. cbn [Z.eqb List.length]. rewrite app_length, digs_length in Pl. change (List.length (str "0.")) with 2%nat in Pl. lia.
      - rewrite pointed_length, digs_length in Pl. pose proof (scale_length f e1 He1). lia. }
    unfold t. rewrite app_length. rewrite Est, app_length in X. lia. }
  split; [rewrite Est at 1; f_equal; f_equal; exact Ep|]. split; [exact Vst|]. split; [exact Rst|].
  split; [exact Ld|]. split; [exact Hz|]. split; [lia|]. split; [exact He1|]. split; [exact Hj1|].
  split; [rewrite <- mag_abs; exact Re|]. split; [exact Hj|]. split; [exact HD|]. split; [|exact Hc].
  exists (e + 2 - Z.of_nat z0)%Z. rewrite <- mag_abs. auto.
Qed.
Lemma text_reads : forall f x z L e1 n1 st, lead z n1 -> (z <= 2)%nat -> (3 <= L)%nat ->
  (forall u rest, ends_number rest -> exists q, q == T (left_expo e1) /\ tail_of u (st ++ rest) q rest) ->
  reads_as ((sign_char f x :: printed f (body z L e1 n1)) ++ st)
    (inject_Z (if qltb x 0 then -1 else 1) * (inject_Z (Qfloor (shl z n1 * inject_Z (P10 L))) * T (e1 + 3 - Z.of_nat L - Z.of_nat z))).
Proof.
  intros f x z L e1 n1 st Ld Hz HL Rst u line s bl rest Hs Ha Hb Hr.
  destruct (body_parts f z L e1 n1 Ld Hz HL) as (ip & fp & Em & Di & Df & Ev). destruct (Rst u rest Hr) as (q & Eq & Tq).
  assert (G : exists bl2 sg neg, [sign_char f x] = bl2 ++ sg /\ Forall blank bl2 /\ sign_text sg neg /\ signed neg 1 = (if qltb x 0 then -1 else 1)%Z).
  { unfold sign_char. destruct (qltb x 0); [|destruct (fSIGN f)].
    - exists [], ["-"%char], true. repeat split; [constructor|right; right; now split].
    - exists [], ["+"%char], false. repeat split; [constructor|right; left; now split].
    - exists [" "%char], [], false. repeat split; [repeat constructor; discriminate|left; now split]. }
  destruct G as (bl2 & sg & neg & Es & Hb2 & Sg & Sn).
  destruct (C17_ctof_value u line s (bl ++ bl2) sg neg ip true fp (st ++ rest) q rest Hs) as (w & s' & E & Ew & O & On & Ps); try assumption.
  - rewrite Ha, Em. change ((sign_char f x :: mantissa ip true fp) ++ st) with ([sign_char f x] ++ mantissa ip true fp ++ st). rewrite Es. now rewrite <- !app_assoc.
  - now apply Forall_app.
  - discriminate.
  - right. now right.
  - exists w, s'. split; [exact E|]. split; [|auto]. rewrite Ew, Eq, Sn, <- Ev. ring.
Qed.

Lemma pow_range : forall L D z e1, (1 <= L)%nat -> (P10 (L - 1) <= D < P10 L)%Z -> let v := inject_Z D * T (e1 + 3 - Z.of_nat L - Z.of_nat z) in
  let k := (e1 + 2 - Z.of_nat z)%Z in T k <= v < T (k + 1).
Proof.
  intros L D z e1 HL [A B] v k. unfold v. pose proof (T_pos (e1 + 3 - Z.of_nat L - Z.of_nat z)) as P. rewrite Zle_Qle in A. rewrite Zlt_Qlt in B. split.
  - assert (T k == inject_Z (P10 (L - 1)) * T (e1 + 3 - Z.of_nat L - Z.of_nat z)) as ->.
    { rewrite P10_T, <- T_add. unfold k. now replace (Z.of_nat (L - 1) + (e1 + 3 - Z.of_nat L - Z.of_nat z))%Z with (e1 + 2 - Z.of_nat z)%Z by lia. }
    now apply Qmult_le_r.
  - assert (T (k + 1) == inject_Z (P10 L) * T (e1 + 3 - Z.of_nat L - Z.of_nat z)) as ->.
    { rewrite P10_T, <- T_add. unfold k. now replace (Z.of_nat L + (e1 + 3 - Z.of_nat L - Z.of_nat z))%Z with (e1 + 2 - Z.of_nat z + 1)%Z by lia. }
    now apply Qmult_lt_r.
Qed.
Lemma int_near : forall a b u, 0 < u -> Qabs (inject_Z a * u - inject_Z b * u) <= (1 # 2) * u -> a = b.
Proof.
  intros a b u Pu H. setoid_replace (inject_Z a * u - inject_Z b * u) with ((inject_Z a - inject_Z b) * u) in H by ring.
  rewrite Qabs_Qmult, (Qabs_pos u) in H by lra. apply Qmult_le_r in H; [|exact Pu]. apply Qabs_le in H. destruct H as [A B].
  assert (C : inject_Z (a - 1) < inject_Z b) by (unfold Z.sub; rewrite inject_Z_plus; change (inject_Z (- (1))) with (- (1)); lra).
  assert (D : inject_Z (b - 1) < inject_Z a) by (unfold Z.sub; rewrite inject_Z_plus; change (inject_Z (- (1))) with (- (1)); lra).
  rewrite <- Zlt_Qlt in C, D. lia.
Qed.
Lemma mult_inj : forall a b u, 0 < u -> inject_Z a * u == inject_Z b * u -> a = b.
Proof.
  intros a b u Pu H. apply (int_near a b u Pu). setoid_replace (inject_Z a * u - inject_Z b * u) with 0 by (rewrite H; ring). change (Qabs 0) with 0.
  apply Qmult_le_0_compat; lra.
Qed.
Lemma limit_308 : T 308 < BIGBIG.
Proof. vm_compute. reflexivity. Qed.
Lemma small_ordinary : forall v k, T k <= Qabs v <= T (k + 1) -> (-99 <= k < 308)%Z -> ordinary v.
Proof.
  intros v k [A B] H. split.
  - rewrite floor_T. eapply Qle_trans; [|exact A]. apply T_le. lia.
  - eapply Qle_lt_trans; [exact B|]. eapply Qle_lt_trans; [|exact limit_308]. apply T_le. lia.
Qed.

(* ---- C60 ---- *)

(* an ordinary number x is printed as a text of at most len + 6 characters.  The number v that any
   scanner reads from the text is a multiple of one unit in the last of the kept digits, and within half
   a unit of x.  Printing v again gives the same text. *)
Theorem C60_round_trip : forall f len x k, (3 <= len <= 33)%nat -> Qpower 10 (-99) <= Qabs x < BIGBIG ->
  Qpower 10 k <= Qabs x < Qpower 10 (k + 1) -> let unit := Qpower 10 (k + 1 - Z.of_nat (kept f len x)) in
  exists t v, ftos x 0 len f = Some t /\ (List.length t <= len + 6)%nat /\ reads_as t v /\
    Qabs (v - x) <= (1 # 2) * unit /\ (exists m, v == inject_Z m * unit) /\
    (fFILL f = false -> (k < 308)%Z -> forall v', v' == v -> ftos v' 0 len f = Some t).
Proof.
  intros f len x k Hl Hx Hk unit.
  destruct (printed_ok f len x Hl Hx) as (e & n1 & e1 & z & st & C). cbv zeta in C.
  destruct C as (Ft & Lt & Est & Vst & Rst & Ld & Hz & HL & He1 & Hj1 & Re & Hj & HD & (k0 & Hk0 & Hv & Hm & Hvk) & Hc).
  assert (k0 = k) by (apply (decade_unique (Qabs x)); assumption). subst k0.
  assert (EL := kept_adjust f len x e ltac:(lia) Re Hj).
  set (L := adjust_len f e len) in *. set (D := Qfloor (shl z n1 * inject_Z (P10 L))) in *.
  set (v0 := inject_Z D * T (e1 + 3 - Z.of_nat L - Z.of_nat z)) in *. set (t := (sign_char f x :: printed f (body z L e1 n1)) ++ st) in *.
  assert (Eu : unit = T (k + 1 - Z.of_nat L)) by (unfold unit; rewrite EL; reflexivity).
  set (sg := inject_Z (if qltb x 0 then -1 else 1)).
  assert (Sx : x == sg * Qabs x).
  { unfold sg. destruct (qltb_spec x 0) as [X|X]; [rewrite Qabs_neg by lra|rewrite Qabs_pos by lra]; [change (inject_Z (-1)) with (-(1))|change (inject_Z 1) with 1]; ring. }
  assert (Sa : forall y, Qabs (sg * y) == Qabs y).
  { intros y. rewrite Qabs_Qmult. unfold sg. destruct (qltb x 0); [change (Qabs (inject_Z (-1))) with 1|change (Qabs (inject_Z 1)) with 1]; ring. }
  exists t, (sg * v0). split; [specialize (Ft 0%nat (or_introl eq_refl)); rewrite Ft; cbn [Nat.sub repeat]; now rewrite app_nil_r|].
  split; [exact Lt|]. split; [now apply text_reads|]. rewrite Eu. split.
  { setoid_replace (sg * v0 - x) with (sg * (v0 - Qabs x)) by (rewrite Sx at 1; ring). rewrite Sa. exact Hv. }
  split.
  { destruct Hm as [m Hm]. exists ((if qltb x 0 then -1 else 1) * m)%Z. rewrite Hm, inject_Z_mult. fold sg. ring. }
  intros Ff Hlim v' Ev'.
  (* the text of v' *)
  assert (Pv : 0 < v0) by (destruct Hvk as [A _]; eapply Qlt_le_trans; [apply (T_pos k)|exact A]).
  assert (Av : Qabs v' == v0) by (rewrite Ev', Sa; apply Qabs_pos; lra).
  assert (Bk : (-99 <= k)%Z).
  { assert (-99 < k + 1)%Z; [|lia]. apply T_lt_inv. eapply Qle_lt_trans; [apply Hx|apply Hk]. }
  assert (Ov : ordinary v') by (apply (small_ordinary v' k); [rewrite Av; exact Hvk|lia]).
  destruct (printed_ok f len v' Hl Ov) as (e' & n1' & e1' & z' & st' & C). cbv zeta in C.
  destruct C as (Ft' & _ & Est' & Vst' & _ & Ld' & Hz' & HL' & He1' & Hj1' & Re' & Hj' & HD' & (k' & Hk' & Hv' & Hm' & _) & _).
  destruct (pow_range L D z e1 ltac:(lia) HD) as [R1 R2]. fold v0 in R1, R2.
  assert (Ee : e' = e1).
  { apply (e_unique (Qabs v')); try assumption. rewrite Av. split.
    - eapply Qle_trans; [|exact R1]. apply T_le. lia.
    - eapply Qlt_le_trans; [exact R2|]. apply T_le. lia. }
  subst e'. set (L' := adjust_len f e1 len) in *. set (D' := Qfloor (shl z' n1' * inject_Z (P10 L'))) in *.
  set (v1 := inject_Z D' * T (e1' + 3 - Z.of_nat L' - Z.of_nat z')) in *.
  rewrite Av in Hk', Hv', Re'.
  assert (Ek : k' = (e1 + 2 - Z.of_nat z)%Z) by (apply (decade_unique v0); [exact Hk'|now split]).
  assert (Lc : L' = L \/ z = 2%nat /\ D = P10 (L - 1)) by (destruct Hc as [Hc|(_ & Hc2 & Hc3)]; [left; unfold L', L; rewrite Hc; reflexivity|right; split; assumption]).
  assert (Mv : exists m, v0 == inject_Z m * T (k' + 1 - Z.of_nat L')).
  { destruct Lc as [->|[Ez Ed]].
    - exists D. unfold v0. rewrite Ek. now replace (e1 + 2 - Z.of_nat z + 1 - Z.of_nat L)%Z with (e1 + 3 - Z.of_nat L - Z.of_nat z)%Z by lia.
    - exists (P10 (L' - 1)). unfold v0. rewrite Ed, !P10_T, <- !T_add, Ek.
      now replace (Z.of_nat (L - 1) + (e1 + 3 - Z.of_nat L - Z.of_nat z))%Z with (Z.of_nat (L' - 1) + (e1 + 2 - Z.of_nat z + 1 - Z.of_nat L'))%Z by lia. }
  assert (E1 : v1 == v0).
  { destruct Hm' as [m' Hm']. destruct Mv as [m Mv]. rewrite Hm', Mv in Hv'. apply int_near in Hv'; [|apply T_pos]. subst m'. now rewrite Hm', Mv. }
  destruct (pow_range L' D' z' e1' ltac:(lia) HD') as [R1' R2']. fold v1 in R1', R2'. rewrite E1 in R1', R2'.
  assert (Ez : (e1' + 2 - Z.of_nat z')%Z = (e1 + 2 - Z.of_nat z)%Z) by (apply (decade_unique v0); now split).
  assert (X : e1' = e1 /\ z' = z) by (destruct Hj1 as [j ->]; destruct Hj1' as [j' ->]; lia). destruct X as [-> ->].
  assert (Eb : stripr (body z L' e1 n1') = stripr (body z L e1 n1)).
  { destruct Lc as [E|[Ez2 Ed]].
    - rewrite E. f_equal. apply body_eq; try assumption. unfold v1, v0 in E1. rewrite E in E1. apply mult_inj in E1; [|apply T_pos].
      fold D. unfold D' in E1. rewrite E in E1. exact E1.
    - subst z. rewrite body_ten; [|lia|exact Ld'|].
      + rewrite body_ten; [reflexivity|lia|exact Ld|exact Ed].
      + fold D'. apply (mult_inj _ _ (T (e1 + 3 - Z.of_nat L' - Z.of_nat 2))); [apply T_pos|]. fold v1. rewrite E1. unfold v0. rewrite Ed, !P10_T, <- !T_add.
        now replace (Z.of_nat (L - 1) + (e1 + 3 - Z.of_nat L - Z.of_nat 2))%Z with (Z.of_nat (L' - 1) + (e1 + 3 - Z.of_nat L' - Z.of_nat 2))%Z by lia. }
  assert (Es : st' = st).
  { rewrite Est in Est'. assert (V : forall l, Forall (fun c => isgraph c = true /\ c <> NUL) l -> ends_visible l).
    { intros l Hl'. destruct (list_eq_dec ascii_dec l []) as [->|N]; [now left|]. right. destruct (exists_last N) as (l' & c & ->). exists l', c. split; [reflexivity|].
      apply Forall_app in Hl'. destruct Hl' as [_ Hl']. inversion_clear Hl' as [|? ? [Hg _] _]. exact Hg. }
    assert (I : forall p, invisible (repeat " "%char p)) by (intros p; apply Forall_forall; intros c Hc'; apply repeat_spec in Hc'; now subst c).
    destruct (ends_unique _ _ _ _ Est' (I _) (V _ Vst) (I _) (V _ Vst')) as [Y _]. now symmetry. }
  assert (Eg : sign_char f v' = sign_char f x).
  { unfold sign_char. assert (Y : qltb v' 0 = qltb x 0); [|now rewrite Y]. unfold sg in Ev'. destruct (qltb x 0), (qltb_spec v' 0) as [Y|Y]; try reflexivity; exfalso; rewrite Ev' in Y.
    - apply Y. change (inject_Z (-1)) with (-(1)). lra.
    - change (inject_Z 1) with 1 in Y. lra. }
  specialize (Ft' 0%nat (or_introl eq_refl)). rewrite Ft'. unfold t, printed. rewrite Ff, Eb, Es, Eg. cbn [Nat.sub repeat]. now rewrite app_nil_r.
Qed.
Print Assumptions C60_round_trip.

(* a number that needs no more digits than are kept is read back exactly *)
Theorem C60_exact : forall f len x k m, (3 <= len <= 33)%nat -> Qpower 10 (-99) <= Qabs x < BIGBIG ->
  Qpower 10 k <= Qabs x < Qpower 10 (k + 1) -> x == inject_Z m * Qpower 10 (k + 1 - Z.of_nat (kept f len x)) ->
  exists t, ftos x 0 len f = Some t /\ reads_as t x.
Proof.
  intros f len x k m Hl Hx Hk Hm. destruct (C60_round_trip f len x k Hl Hx Hk) as (t & v & E & _ & R & B & (m' & Hm') & _).
  exists t. split; [exact E|]. assert (X : v == x).
  { pose proof (T_pos (k + 1 - Z.of_nat (kept f len x))) as Pu. cbv zeta in *.
    set (un := Qpower 10 (k + 1 - Z.of_nat (kept f len x))) in *. clearbody un. rewrite Hm', Hm in B. apply int_near in B; [|exact Pu]. subst m'. now rewrite Hm', Hm. }
  intros u line s bl rest Hs Ha Hb Hr. destruct (R u line s bl rest Hs Ha Hb Hr) as (q & s' & E1 & E2 & O). exists q, s'. split; [exact E1|]. split; [now rewrite E2|exact O].
Qed.
Print Assumptions C60_exact.

Definition zero_text (f : format) (len : nat) : list ascii := str " 0." ++ (if fFILL f then repeat "0"%char (len - 1) else []).
Lemma zero_ok : forall f fw len x, (3 <= len <= 33)%nat -> fw = 0%nat \/ (len + 6 <= fw <= 39)%nat -> Qabs x < ftos_floor ->
  ftos x fw len f = Some (zero_text f len ++ repeat " "%char (fw - List.length (zero_text f len))).
Proof.
  intros f fw len x Hl Hf Hx.
  assert (Ef : ftos x fw len f = let* b := number_of f fw len x (blank_string fw len) in finish fw b).
  { unfold ftos, MAXLENGTH. destruct special_bounds as [SV SI]. assert (Hb : ftos_floor < BIGBIG) by (vm_compute; reflexivity). assert (H2 : Qabs x < BIGBIG) by (eapply Qlt_trans; eassumption).
    apply Qabs_lt in H2. clear Hb Hx.
    replace (len <? 3)%nat with false by (symmetry; apply Nat.ltb_ge; lia). cbn [Nat.sub].
    replace (34 <? len)%nat with false by (symmetry; apply Nat.ltb_ge; lia). replace (39 <? fw)%nat with false by (symmetry; apply Nat.ltb_ge; lia).
    generalize dependent NOT_VALID. intros nv SV. generalize dependent NOT_INPUT. intros ni SI. generalize dependent BIGBIG. intros bb H2 SV SI.
    destruct (qeqb_spec x nv); [exfalso; lra|]. destruct (qeqb_spec x ni); [exfalso; lra|].
    destruct (qleb_spec bb x); [exfalso; lra|]. destruct (qleb_spec x (- bb)); [exfalso; lra|]. reflexivity. }
  rewrite Ef. clear Ef. destruct (start_tail fw len ltac:(lia) Hf) as [St _].
  assert (Cp : (len + 6 <= cap fw)%nat) by (unfold cap; destruct (Nat.eqb_spec fw 0); lia).
  destruct (tail_length _ _ _ St) as (_ & C39 & Lb & _).
  unfold number_of. destruct (qltb_spec (Qabs x) ftos_floor) as [_|X]; [|contradiction]. clear Hx. change (qeqb 0 0) with true. cbv iota.
  set (b := blank_string fw len) in *. set (zs := repeat "0"%char (len - 1)).
  assert (Z : zero_of len b = Some (0%Z, List.length (str " 0." ++ zs), (str " 0." ++ zs) ++ skipn (len + 2) b)).
  { unfold zero_of. pose proof (puts_tail (str " 0." ++ [NUL]) [] b ltac:(cbn [List.length app str list_ascii_of_string]; lia)) as P. cbn [List.length app] in P.
    change (puts b 0 (str " 0." ++ [NUL]) = Some ((str " 0." ++ [NUL]) ++ skipn 4 b)) in P. rewrite P. cbn [bind].
    pose proof (puts_tail zs (str " 0.") (NUL :: skipn 4 b)) as P2. rewrite <- app_assoc. cbn [app].
    change (List.length (str " 0.")) with 3%nat in P2. unfold zs in *. rewrite repeat_length in P2. rewrite P2 by (cbn [List.length]; rewrite skipn_length; lia). cbn [bind].
    rewrite app_length, repeat_length. rewrite <- app_assoc. change (List.length (str " 0.")) with 3%nat. do 4 f_equal.
    destruct (len - 1)%nat as [|p] eqn:E; [lia|]. replace (len + 2)%nat with (4 + p)%nat by lia. cbn [skipn].
    clear. destruct b as [|? [|? [|? [|? b]]]]; cbn [skipn Nat.add]; try reflexivity; destruct p; reflexivity. }
  rewrite Z. cbn [bind].
  assert (Lz : List.length (str " 0." ++ zs) = (len + 2)%nat) by (unfold zs; rewrite app_length, repeat_length; change (List.length (str " 0.")) with 3%nat; lia).
  pose proof (tail_skip _ _ _ (len + 2) St ltac:(lia)) as S2. rewrite Nat.add_0_l in S2. set (tl := skipn (len + 2) b) in *. set (t := str " 0." ++ zs) in *.
  rewrite <- Lz in S2. destruct (tail_cons _ _ _ S2) as (c & tl' & Ec & Fc & _).
  assert (Nt : nth_error (t ++ tl) (List.length t) = Some c) by (rewrite Ec; apply nth_mid). rewrite Nt. cbn [bind].
  assert (A : (if Ascii.eqb c " " || Ascii.eqb c NUL then Some tt else None) = Some tt) by (destruct Fc; subst c; reflexivity). rewrite A. cbn [bind]. clear A.
  assert (Es : stripr t = str " 0.").
  { unfold t, zs. rewrite stripr_zeros. reflexivity. }
  assert (G : exists tl2, (if fFILL f then Some (List.length t, t ++ tl) else drop_zeros fw (List.length t) (t ++ tl)) =
     Some (List.length (zero_text f len), zero_text f len ++ tl2) /\ tail_ok fw (List.length (zero_text f len)) tl2).
  { unfold zero_text. destruct (fFILL f); [exists tl; split; [reflexivity|exact S2]|]. destruct (drop_ok fw t tl) as (tl2 & E & H2); [rewrite Es; discriminate|exact S2|]. rewrite Es in *.
    exists tl2. now split. }
  destruct G as (tl2 & -> & H2). cbn [bind]. unfold append_scale. cbn [Z.eqb bind].
  assert (Hlast : exists pre' d, zero_text f len = pre' ++ [d] /\ d <> "M"%char /\ isgraph d = true).
  { unfold zero_text. destruct (fFILL f); [|exists (str " 0"), "."%char; repeat split; discriminate].
    exists (str " 0." ++ repeat "0"%char (len - 2)), "0"%char. replace (len - 1)%nat with ((len - 2) + 1)%nat by lia. rewrite repeat_app, app_assoc. repeat split. discriminate. }
  destruct Hlast as (pre' & d & Ed & Nd & Gd).
  assert (Nn : nth_error (zero_text f len ++ tl2) (List.length (zero_text f len) - 1) = Some d).
  { rewrite Ed, app_length. cbn [List.length]. rewrite Nat.add_sub, <- app_assoc. apply nth_mid. }
  rewrite Nn. cbn [bind]. destruct (Ascii.eqb_spec d "M"); [contradiction|]. cbn [bind].
  apply (finish_ok fw _ _ 0); [now rewrite app_nil_r| |right; exists pre', d; now split|exact H2].
  unfold zero_text. intros X. apply in_app_or in X. destruct X as [X|X]; [cbn in X; intuition discriminate|]. destruct (fFILL f); [apply repeat_spec in X; discriminate X|destruct X].
Qed.

(* zero, and every number below the noise floor, is printed as 0. and read back as 0 *)
Theorem C60_zero : forall f len x, (3 <= len <= 33)%nat -> Qabs x < Qpower 10 (-99) ->
  exists t, ftos x 0 len f = Some t /\ reads_as t 0 /\ (fFILL f = false -> t = str " 0.").
Proof.
  intros f len x Hl Hx. exists (zero_text f len). split; [rewrite zero_ok by (auto; lia); cbn [Nat.sub repeat]; now rewrite app_nil_r|]. split; [|intros E; unfold zero_text; rewrite E; reflexivity].
  clear Hx. intros u line s bl rest Hs Ha Hb Hr. destruct (ends_plain rest Hr) as (A & B & C).
  assert (Tq : tail_of u ([] ++ rest) (letters_factor u []) rest) by (apply t_letters; [constructor|exact A|intros _; now split|exact I]).
  set (fp := if fFILL f then repeat "0"%char (len - 1) else []).
  assert (Df : digits fp) by (unfold fp; destruct (fFILL f); [apply digits_repeat|constructor]).
  destruct (C17_ctof_value u line s (bl ++ [" "%char]) [] false (str "0") true fp rest (letters_factor u []) rest Hs) as (w & s' & E & Ew & O & On & Ps); try assumption.
  - rewrite Ha. unfold zero_text, mantissa. fold fp. now rewrite <- !app_assoc.
  - apply Forall_app. split; [exact Hb|]. repeat constructor. discriminate.
  - left. now split.
  - repeat constructor.
  - discriminate.
  - right. now right.
  - exists w, s'. split; [exact E|]. split; [|auto]. rewrite Ew. assert (V : value (str "0" ++ fp) = 0%Z).
    { unfold fp. destruct (fFILL f); [rewrite value_zeros|]; reflexivity. }
    rewrite V. change (inject_Z 0) with 0. ring.
Qed.
Print Assumptions C60_zero.

(* in a field of w characters every value, also the special ones, is the same text padded with blanks
   to exactly w characters *)
Theorem C60_fixed_width : forall f len w x, (3 <= len <= 33)%nat -> (len + 6 <= w <= 39)%nat ->
  exists t, ftos x 0 len f = Some t /\ ftos x w len f = Some (t ++ repeat " "%char (w - List.length t)) /\ (List.length t <= w)%nat.
Proof.
  intros f len w x Hl Hw.
  assert (Ef : forall fw, fw = 0%nat \/ (len + 6 <= fw <= 39)%nat -> ftos x fw len f =
    if qeqb x NOT_VALID then let* b := puts (blank_string fw len) 0 (str " ??") in finish fw b
    else if qeqb x NOT_INPUT then let* b := puts (blank_string fw len) 0 (str " NA") in finish fw b
    else if qleb BIGBIG x then let* b := puts (blank_string fw len) 0 (str " Inf") in finish fw b
    else if qleb x (- BIGBIG) then let* b := puts (blank_string fw len) 0 (str "-Inf") in finish fw b
    else let* b := number_of f fw len x (blank_string fw len) in finish fw b).
  { intros fw Hf. unfold ftos, MAXLENGTH.
    replace (len <? 3)%nat with false by (symmetry; apply Nat.ltb_ge; lia). cbn [Nat.sub].
    replace (34 <? len)%nat with false by (symmetry; apply Nat.ltb_ge; lia). replace (39 <? fw)%nat with false by (symmetry; apply Nat.ltb_ge; lia).
    destruct (qeqb x NOT_VALID); [reflexivity|]. destruct (qeqb x NOT_INPUT); [reflexivity|]. destruct (qleb BIGBIG x); [reflexivity|]. destruct (qleb x (- BIGBIG)); reflexivity. }
  assert (W : forall t, no_nul t -> ends_visible t -> (List.length t <= 4)%nat -> forall fw, fw = 0%nat \/ (len + 6 <= fw <= 39)%nat ->
     (let* b := puts (blank_string fw len) 0 t in finish fw b) = Some (t ++ repeat " "%char (fw - List.length t))).
  { intros t Nt Vt Lt fw Hf. destruct (start_tail fw len ltac:(lia) Hf) as [St _]. destruct (tail_length _ _ _ St) as (_ & C39 & Lb & _).
    assert (Cp : (len + 6 <= cap fw)%nat) by (unfold cap; destruct (Nat.eqb_spec fw 0); lia).
    pose proof (puts_tail t [] (blank_string fw len) ltac:(lia)) as P. cbn [List.length app] in P. rewrite P. cbn [bind].
    apply (finish_ok fw t t 0); [now rewrite app_nil_r|exact Nt|exact Vt|]. apply (tail_skip fw 0); [exact St|lia]. }
  assert (G : (exists t, (List.length t <= w)%nat /\ forall fw, fw = 0%nat \/ (len + 6 <= fw <= 39)%nat -> ftos x fw len f = Some (t ++ repeat " "%char (fw - List.length t)))).
  { destruct (Qlt_le_dec (Qabs x) ftos_floor) as [Z|Z].
    - exists (zero_text f len). split; [|intros fw Hf; now apply zero_ok]. unfold zero_text. rewrite app_length. change (List.length (str " 0.")) with 3%nat.
      destruct (fFILL f); [rewrite repeat_length|cbn [List.length]]; lia.
    - destruct (Qlt_le_dec (Qabs x) BIGBIG) as [B|B].
      + destruct (printed_ok f len x Hl (conj Z B)) as (e & n1 & e1 & z & st & C). cbv zeta in C. destruct C as (Ft & Lt & _).
        eexists. split; [|exact Ft]. lia.
      + assert (N : qleb BIGBIG x = true \/ qleb x (- BIGBIG) = true).
        { destruct (qleb_spec BIGBIG x) as [X|X]; [now left|]. destruct (qleb_spec x (- BIGBIG)) as [Y|Y]; [now right|]. exfalso.
          assert (Qabs x < BIGBIG); [|apply Qle_not_lt in B; contradiction]. apply Qabs_lt. split; now apply Qnot_le_lt. }
        assert (R : exists t, no_nul t /\ ends_visible t /\ (List.length t <= 4)%nat /\ forall fw, fw = 0%nat \/ (len + 6 <= fw <= 39)%nat -> ftos x fw len f = let* b := puts (blank_string fw len) 0 t in finish fw b).
        { assert (K : forall t l c, t = l ++ [c] -> isgraph c = true -> existsb (Ascii.eqb NUL) t = false -> (List.length t <= 4)%nat -> no_nul t /\ ends_visible t /\ (List.length t <= 4)%nat).
          { intros t l c Et Gc X Lt. repeat split; [|right; now exists l, c|exact Lt]. intros I. assert (Y : existsb (Ascii.eqb NUL) t = true) by (apply existsb_exists; exists NUL; now split). congruence. }
          destruct (qeqb x NOT_VALID); [exists (str " ??")|destruct (qeqb x NOT_INPUT); [exists (str " NA")|destruct (qleb BIGBIG x); [exists (str " Inf")|destruct (qleb x (- BIGBIG)); [exists (str "-Inf")|destruct N; discriminate]]]].
          - destruct (K (str " ??") (str " ?") "?"%char eq_refl eq_refl eq_refl ltac:(cbn; lia)) as (K1 & K2 & K3). auto.
          - destruct (K (str " NA") (str " N") "A"%char eq_refl eq_refl eq_refl ltac:(cbn; lia)) as (K1 & K2 & K3). auto.
          - destruct (K (str " Inf") (str " In") "f"%char eq_refl eq_refl eq_refl ltac:(cbn; lia)) as (K1 & K2 & K3). auto.
          - destruct (K (str "-Inf") (str "-In") "f"%char eq_refl eq_refl eq_refl ltac:(cbn; lia)) as (K1 & K2 & K3). auto. }
        destruct R as (t & R1 & R2 & R3 & R4). exists t. split; [lia|]. intros fw Hf. rewrite R4 by assumption. now apply W. }
  destruct G as (t & Lt & G). exists t. split; [|split; [|exact Lt]].
  - rewrite (G 0%nat (or_introl eq_refl)). cbn [Nat.sub repeat]. now rewrite app_nil_r.
  - apply G. now right.
Qed.
Print Assumptions C60_fixed_width.

(* ---- cases ---- *)
Example C60_case : (* -123.456789 MHz with 5 digits; the hypotheses of C60_round_trip hold with k = 8 *)
  let x := -123456789 # 1 in let f := Fmt false false false in
  Qpower 10 8 <= Qabs x < Qpower 10 9 /\ kept f 5 x = 5%nat /\ ftos x 0 5 f = Some (str "-123.46Meg") /\ ftos (-123460000 # 1) 0 5 f = Some (str "-123.46Meg") /\
  ftos x 11 5 f = Some (str "-123.46Meg ").
Proof. vm_compute. repeat split; discriminate. Qed.
Example C60_exponent_case : (* one digit fewer, rounding up to the next power of ten *)
  let x := 999996 # 1000000000000000000 in let f := Fmt true true false in kept f 5 x = 4%nat /\ ftos x 0 5 f = Some (str "+1.E-12").
Proof. vm_compute. split; reflexivity. Qed.
Example C60_exact_case : (* 1/8 needs 3 digits: k = -1 *)
  Qpower 10 (-1) <= Qabs (1 # 8) < Qpower 10 0 /\ (1 # 8) == inject_Z 125 * Qpower 10 (-1 + 1 - Z.of_nat (kept (Fmt false false false) 3 (1 # 8))) /\
  to_string_double (1 # 8) = Some (str " 0.125").
Proof. vm_compute. repeat split; discriminate. Qed.
Example C60_zero_case : Qabs (Qpower 10 (-100)) < Qpower 10 (-99) /\ ftos (Qpower 10 (-100)) 0 5 (Fmt false false true) = Some (str " 0.0000").
Proof. vm_compute. split; reflexivity. Qed.
Example C60_fixed_case : ftos NOT_VALID 11 5 (Fmt false false false) = Some (str " ??        ") /\ ftos (-1 # 3) 11 5 (Fmt false false false) = Some (str "-0.33333   ").
Proof. vm_compute. split; reflexivity. Qed.

(* ---- what does not hold ---- *)
(* with the longest length that ftos lets through, 34, the buffer has no room for the terminator *)
Theorem C60_longest_refuted : forall f w, (w <= 40)%nat -> ftos (1 # 3) w 34 f = None.
Proof.
  assert (C : forallb (fun w => forallb (fun f => match ftos (1 # 3) w 34 f with None => true | Some _ => false end)
     [Fmt false false false; Fmt false false true; Fmt false true false; Fmt false true true; Fmt true false false; Fmt true false true; Fmt true true false; Fmt true true true])
     (seq 0 41) = true) by (vm_compute; reflexivity).
  intros f w H. rewrite forallb_forall in C. specialize (C w ltac:(apply in_seq; lia)). rewrite forallb_forall in C.
  specialize (C f ltac:(destruct f as [[] [] []]; cbn; tauto)). destruct (ftos (1 # 3) w 34 f); [discriminate C|reflexivity].
Qed.
Print Assumptions C60_longest_refuted.
(* just below the limit, rounding goes up past it: the text read back prints as Inf *)
Theorem C60_near_limit_refuted : let f := Fmt false false false in let x := inject_Z (16624990 * 10 ^ 301) in
  Qabs x < BIGBIG /\ ftos x 0 6 f = Some (str " 166.25E306") /\
  match ctof uSI (cs_string (str " 166.25E306")) with Some (v, s) => ok s = true /\ ftos v 0 6 f = Some (str " Inf") | None => False end.
Proof. vm_compute. repeat split. Qed.
Print Assumptions C60_near_limit_refuted.
