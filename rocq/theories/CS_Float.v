(* Lemmas about the scanner model: floating point and boolean input. *)
Require Import ZArith QArith List Ascii String Bool Lia.
Require Import ZifyBool.
Require Import Verif.Loops Verif.Wmatch_Model Verif.CS_Model Verif.CS_Proofs Verif.CS_Ops.
Import ListNotations.
Local Open Scope Z_scope.

(* the factor and the rest, as a function of the text *)
Definition exp_digits (r : list ascii) : list ascii := take_while fdigit (dropsign (eat1 (in_set (str "eE")) r)).
Fixpoint pick (l : list (list ascii * Q)) (c : ascii) : option Q :=
  match l with [] => None | (t, v) :: l' => if in_set t c then Some v else pick l' c end.

Lemma first_skip_vw : forall line (l : list (list ascii * Q)) r s, vw line r s ->
  exists s', first_skip l s = Some (pick l (head r), s') /\ same_m s s' /\
    vw line (match pick l (head r) with Some _ => tl r | None => r end) s'.
Proof.
  intros line l. induction l as [|[t v] l IH]; intros r s V; cbn [first_skip pick].
  - exists s. split; [reflexivity|]. split; [apply same_m_refl|assumption].
  - destruct (skip1_vw _ _ _ t V) as (s1 & E1 & V1 & O1 & M1 & F1). inb E1. rewrite O1.
    destruct (in_set t (head r)) eqn:E.
    + exists s1. split; [reflexivity|]. split; [assumption|]. destruct r as [|c r]; [discriminate E|].
      change (head (c :: r)) with c in E. cbn [eat1] in V1. rewrite E in V1. exact V1.
    + assert (V1' : vw line r s1) by (rewrite (F1 eq_refl); exact V).
      destruct (IH r s1 V1') as (s2 & E2 & M2 & V2). exists s2. split; [exact E2|]. split; [now apply same_m_trans with s1|exact V2].
Qed.

(* value and rest of the scale part; None: the exponent overflows *)
Definition scale_of (u : units) (r : list ascii) : option (Q * list ascii) :=
  if in_set (str "eE") (head r) then
    let r1 := tl r in
    let* e := foldo (int_digit 10) 0 (take_while fdigit (dropsign r1)) in
    Some (ten_to (e * (if sign_neg r1 then -1 else 1)), drop_while fdigit (dropsign r1))
  else match u with
  | uSPICE =>
    if in_set (str "mM") (head r) then
      let r1 := tl r in
      if in_set (str "eE") (head r1) then Some (ten_to 6, tl r1)
      else if in_set (str "iI") (head r1) then Some ((254 # 10000000)%Q, tl r1)
      else Some (ten_to (-3), r1)
    else Some (match pick (suffixes u) (head r) with Some q => q | None => 1%Q end,
               match pick (suffixes u) (head r) with Some _ => tl r | None => r end)
  | uSI => Some (match pick (suffixes u) (head r) with Some q => q | None => 1%Q end,
               match pick (suffixes u) (head r) with Some _ => tl r | None => r end)
  end.

Lemma eat1_tl : forall f r, f NUL = false -> f (head r) = true -> eat1 f r = tl r.
Proof. intros f [|c r] N H; [reflexivity|]. unfold head in H. cbn in *. now rewrite H. Qed.

Lemma scale_vw : forall line u r s q r', vw line r s -> scale_of u r = Some (q, r') ->
  exists s', scale u s = Some (q, s') /\ vw line r' s'.
Proof.
  intros line u r s q r' V H. unfold scale, scale_of in *.
  destruct (skip1_vw _ _ _ (str "eE") V) as (s1 & E1 & V1 & O1 & M1 & F1). inb E1. rewrite O1.
  destruct (in_set (str "eE") (head r)) eqn:E.
  - rewrite eat1_tl in V1 by (reflexivity || assumption).
    destruct (sign_vw _ _ _ V1) as (s2 & E2 & O2 & _ & s3 & E3 & V3 & _). inb E2. rewrite O2. inb E3.
    cbv zeta in H. destruct (foldo (int_digit 10) 0 (take_while fdigit (dropsign (tl r)))) as [e|] eqn:Ee; [|discriminate H].
    cbn [bind] in H. injection H as <- <-.
    destruct (conv_vw _ line is_digit fdigit (int_digit 10) eq_refl (is_digit_vw line) 0 _ s3 e V3 Ee) as (s4 & E4 & V4 & _).
    inb E4. now exists s4.
  - assert (V1' : vw line r s1) by (rewrite (F1 eq_refl); exact V).
    assert (Rest : forall s, vw line r s -> exists s',
       (let* (f, s) := first_skip (suffixes u) s in Some (match f with Some q => q | None => 1%Q end, s))
        = Some (match pick (suffixes u) (head r) with Some q => q | None => 1%Q end, s') /\
        vw line (match pick (suffixes u) (head r) with Some _ => tl r | None => r end) s').
    { intros s0 V0. destruct (first_skip_vw line (suffixes u) r s0 V0) as (s5 & E5 & _ & V5). inb E5. now exists s5. }
    destruct u.
    + cbn [bind]. injection H as <- <-. exact (Rest s1 V1').
    + destruct (skip1_vw _ _ _ (str "mM") V1') as (s2 & E2 & V2 & O2 & M2 & F2). inb E2. rewrite O2.
      destruct (in_set (str "mM") (head r)) eqn:Em.
      * rewrite eat1_tl in V2 by (reflexivity || assumption). cbv zeta in H.
        destruct (skip1_vw _ _ _ (str "eE") V2) as (s3 & E3 & V3 & O3 & M3 & F3). inb E3. rewrite O3.
        destruct (in_set (str "eE") (head (tl r))) eqn:Ee.
        { rewrite eat1_tl in V3 by (reflexivity || assumption). injection H as <- <-. now exists s3. }
        assert (V3' : vw line (tl r) s3) by (rewrite (F3 eq_refl); exact V2).
        destruct (skip1_vw _ _ _ (str "iI") V3') as (s4 & E4 & V4 & O4 & M4 & F4). inb E4. rewrite O4.
        destruct (in_set (str "iI") (head (tl r))) eqn:Ei.
        { rewrite eat1_tl in V4 by (reflexivity || assumption). injection H as <- <-. now exists s4. }
        injection H as <- <-. exists s4. split; [reflexivity|]. rewrite (F4 eq_refl). exact V3'.
      * injection H as <- <-. apply (Rest s2). rewrite (F2 eq_refl). exact V1'.
Qed.

Lemma suffix_tl : forall r, suffix (tl r) r.
Proof. intros [|c r]; [apply suffix_refl|]. now exists [c]. Qed.
Lemma scale_suffix : forall u r q r', scale_of u r = Some (q, r') -> suffix r' r.
Proof.
  intros u r q r' H. unfold scale_of in H.
  destruct (in_set (str "eE") (head r)).
  - cbv zeta in H. destruct (foldo _ _ _); [|discriminate H]. cbn [bind] in H. injection H as _ <-.
    eapply suffix_trans; [apply suffix_drop|]. eapply suffix_trans; [apply suffix_sign|apply suffix_tl].
  - assert (X : suffix (match pick (suffixes u) (head r) with Some _ => tl r | None => r end) r).
    { destruct (pick _ _); [apply suffix_tl|apply suffix_refl]. }
    destruct u; [injection H as _ <-; exact X|].
    destruct (in_set (str "mM") (head r)); [|injection H as _ <-; exact X].
    cbv zeta in H. destruct (in_set (str "eE") (head (tl r))); [injection H as _ <-; eapply suffix_trans; apply suffix_tl|].
    destruct (in_set (str "iI") (head (tl r))); injection H as _ <-; [eapply suffix_trans; apply suffix_tl|apply suffix_tl].
Qed.

(* digits read as a number *)
Definition qdigits (v : Q) (l : list ascii) : Q := fold_left (fun v c => (10 * v + inject_Z (dig c))%Q) l v.
Definition fdot := in_set (str ".").
Definition ffloat := in_set (str "+-.0123456789").
Definition frac_step (vp : Q * Q) (c : ascii) : Q * Q := ((10 * fst vp + inject_Z (dig c))%Q, (snd vp * (1 # 10))%Q).

Lemma ctof_vw : forall line u r s q r5, vw line r s ->
  ffloat (head (dropbl r)) = true ->
  let r1 := dropsign (dropbl r) in
  let r3 := eat1 fdot (drop_while fdigit r1) in
  let vp := fold_left frac_step (take_while fdigit r3) (qdigits 0%Q (take_while fdigit r1), 1%Q) in
  scale_of u (drop_while fdigit r3) = Some (q, r5) ->
  exists s', ctof u s = Some ((inject_Z (if sign_neg (dropbl r) then -1 else 1) * fst vp * (snd vp * q))%Q, s') /\
    vw line (dropcom (drop_while falpha r5)) s' /\ ok s' = true.
Proof.
  intros line u r s q r5 V Hf r1 r3 vp Hs. unfold ctof.
  destruct (skipbl_vw _ _ _ V) as (s1 & E1 & V1 & _). inb E1.
  unfold is_float. inb (match1_vw _ _ _ (str "+-.0123456789") V1). fold ffloat. rewrite Hf. cbn [negb].
  destruct (sign_vw _ _ _ V1) as (s2 & E2 & O2 & _ & s3 & E3 & V3 & _). inb E2. rewrite O2. inb E3. fold r1 in V3.
  destruct (conv_vw _ line is_digit fdigit (fun v c => Some (10 * v + inject_Z (dig c))%Q) eq_refl (is_digit_vw line) 0%Q _ s3 _ V3 (foldo_total _ _ _ _)) as (s4 & E4 & V4 & _).
  inb E4. destruct (skip1_vw _ _ _ (str ".") V4) as (s5 & E5 & V5 & _). inb E5. fold fdot in V5. fold r3 in V5.
  destruct (conv_vw _ line is_digit fdigit (fun vp c => Some ((10 * fst vp + inject_Z (dig c))%Q, (snd vp * (1 # 10))%Q)) eq_refl (is_digit_vw line)
     (qdigits 0%Q (take_while fdigit r1), 1%Q) _ s5 _ V5 (foldo_total _ _ _ _)) as (s6 & E6 & V6 & _).
  change (fold_left (fun (v : Q) (c : ascii) => (10 * v + inject_Z (dig c))%Q) (take_while fdigit r1) 0%Q) with (qdigits 0%Q (take_while fdigit r1)).
  inb E6. destruct (scale_vw _ _ _ _ _ _ V6 Hs) as (s7 & E7 & V7). inb E7.
  destruct (skip_while_vw line is_alpha falpha eq_refl (is_alpha_vw line) _ _ V7) as (s8 & E8 & V8 & _). inb E8.
  destruct (skipcom_vw _ _ _ V8) as (s9 & E9 & V9 & _). inb E9.
  eexists. split; [reflexivity|]. split; [exact V9|reflexivity].
Qed.
Lemma ctof_no : forall line u r s, vw line r s -> ffloat (head (dropbl r)) = false ->
  exists s', ctof u s = Some (0%Q, s') /\ vw line (dropcom (dropbl r)) s' /\ ok s' = false.
Proof.
  intros line u r s V Hf. unfold ctof.
  destruct (skipbl_vw _ _ _ V) as (s1 & E1 & V1 & _). inb E1.
  unfold is_float. inb (match1_vw _ _ _ (str "+-.0123456789") V1). fold ffloat. rewrite Hf. cbn [negb].
  destruct (skipcom_vw _ _ _ V1) as (s9 & E9 & V9 & _). inb E9.
  eexists. split; [reflexivity|]. split; [exact V9|reflexivity].
Qed.

