(* C16, C17: numeric input *)
Require Import ZArith QArith Qpower List Ascii String Bool Lia.
Require Import ZifyBool.
Require Import Verif.Loops Verif.Wmatch_Model Verif.CS_Model Verif.Decimal_Text Verif.CS_Proofs Verif.CS_Ops Verif.CS_Float Verif.CS_Word Verif.P_Scanner Verif.P_Keyword.
Import ListNotations.
Local Open Scope Z_scope.

(* ---- vocabulary ---- *)
Definition digits (l : list ascii) : Prop := Forall (fun c => In c (str "0123456789")) l.
Definition value (l : list ascii) : Z := number 10 (fun c => code c - 48) l.
Definition begins_digit (r : list ascii) : Prop := match r with c :: _ => In c (str "0123456789") | [] => False end.
(* an optional sign and what it means *)
Definition sign_text (sg : list ascii) (neg : bool) : Prop :=
  (sg = [] /\ neg = false) \/ (sg = ["+"%char] /\ neg = false) \/ (sg = ["-"%char] /\ neg = true).
Definition signed (neg : bool) (z : Z) : Z := if neg then - z else z.
(* r' is r without leading blanks, at most one comma, and the blanks after it *)
Definition past_separators (r r' : list ascii) : Prop :=
  exists b1 cm b2, r = b1 ++ cm ++ b2 ++ r' /\ Forall blank b1 /\ Forall blank b2 /\ (cm = [] \/ cm = [","%char]) /\
    ~ begins_blank r' /\ (cm = [] -> b2 = [] /\ ~ begins_comma r').

(* ---- proofs ---- *)
Lemma dropcom_spec : forall r, past_separators r (dropcom r).
Proof. intros r. destruct (split_com r) as (b1 & cm & b2 & H). now exists b1, cm, b2. Qed.

Lemma digits_take : forall l r, digits l -> ~ begins_digit r -> take_while fdigit (l ++ r) = l /\ drop_while fdigit (l ++ r) = r.
Proof.
  intros l r H N. assert (F : Forall (fun c => fdigit c = true) l).
  { eapply Forall_impl; [|exact H]. intros c Hc. cbn in Hc. repeat destruct Hc as [<-|Hc]; try reflexivity. contradiction. }
  assert (E : fdigit (head r) = false).
  { destruct r as [|c q]; [reflexivity|]. unfold head. cbn [hd]. destruct (fdigit c) eqn:E; [|reflexivity].
    exfalso. apply N. now apply in_set_In. }
  split.
  - rewrite take_app by assumption. rewrite take_stop by assumption. apply app_nil_r.
  - rewrite drop_app by assumption. now apply drop_idem.
Qed.
Lemma digits_visible : forall l r, digits l -> l <> [] -> dropbl (l ++ r) = l ++ r.
Proof.
  intros l r H N. destruct H as [|c l Hc _]; [contradiction|]. apply drop_idem. unfold head. cbn [app hd].
  cbn in Hc. repeat destruct Hc as [<-|Hc]; try reflexivity. contradiction.
Qed.
Lemma digit_not_sign : forall l r, digits l -> l <> [] -> sign_neg (l ++ r) = false /\ dropsign (l ++ r) = l ++ r.
Proof.
  intros l r H N. destruct H as [|c l Hc _]; [contradiction|]. cbn [app].
  assert (A : fminus c = false /\ fplus c = false).
  { cbn in Hc. repeat destruct Hc as [<-|Hc]; try (split; reflexivity). contradiction. }
  unfold dropsign, sign_neg, head. cbn [hd]. rewrite (proj1 A). cbn [eat1]. rewrite (proj2 A). split; reflexivity.
Qed.
Lemma sign_split : forall sg neg l r, sign_text sg neg -> digits l -> (sg = [] -> l <> []) -> 
  sign_neg (sg ++ l ++ r) = neg /\ (l <> [] -> dropsign (sg ++ l ++ r) = l ++ r) /\ (sg <> [] -> dropsign (sg ++ l ++ r) = l ++ r) /\ dropbl (sg ++ l ++ r) = sg ++ l ++ r.
Proof.
  intros sg neg l r [[-> ->]|[[-> ->]|[-> ->]]] D N; cbn [app].
  - specialize (N eq_refl). destruct (digit_not_sign l r D N) as [A B]. split; [exact A|]. split; [intros _; exact B|]. split; [intros _; exact B|].
    now apply digits_visible.
  - repeat split.
  - repeat split.
Qed.

Lemma value_nonneg : forall l, digits l -> 0 <= value l.
Proof.
  intros l H. apply number_nonneg; [lia|]. intros c Hc. unfold digits in H. rewrite Forall_forall in H. apply H in Hc. apply digit_range in Hc. unfold dig in Hc. lia.
Qed.
Lemma value_fold : forall l, digits l -> value l <= INT_MAX -> foldo (int_digit 10) 0 l = Some (value l).
Proof.
  intros l H L. apply (foldo_fits 10 dig); [lia| |lia| |exact L].
  - intros. apply int_digit_ok; lia.
  - intros c Hc. unfold digits in H. rewrite Forall_forall in H. now apply digit_range, H.
Qed.
Lemma fold_mod : forall l v, fold_left (fun v c => (10 * v + dig c) mod 4294967296) l (v mod 4294967296) =
  fold_left (fun v c => 10 * v + dig c) l v mod 4294967296.
Proof.
  induction l as [|c l IH]; intros v; [reflexivity|]. cbn [fold_left].
  replace ((10 * (v mod 4294967296) + dig c) mod 4294967296) with ((10 * v + dig c) mod 4294967296); [apply IH|].
  rewrite (Z.add_mod (10 * (v mod 4294967296))), (Z.add_mod (10 * v)) by lia. do 2 f_equal.
  rewrite Z.mul_mod_idemp_r by lia. reflexivity.
Qed.

Lemma digit_char_ok : forall d, 0 <= d <= 9 -> In (digit_char d) (str "0123456789") /\ code (digit_char d) - 48 = d.
Proof.
  intros d H. assert (C : d = 0 \/ d = 1 \/ d = 2 \/ d = 3 \/ d = 4 \/ d = 5 \/ d = 6 \/ d = 7 \/ d = 8 \/ d = 9) by lia.
  repeat destruct C as [->|C]; try (split; [vm_compute; auto 11|reflexivity]). subst d. split; [vm_compute; auto 11|reflexivity].
Qed.
Lemma value_cons : forall c l, value (c :: l) = (code c - 48) * 10 ^ Z.of_nat (List.length l) + value l.
Proof. intros c l. unfold value at 1, number. cbn [fold_left]. rewrite number_app. reflexivity. Qed.
Lemma show_loop_ok : forall n z acc, 0 <= z < 2 ^ Z.of_nat n -> digits acc ->
  digits (show_loop n z acc) /\ value (show_loop n z acc) = z * 10 ^ Z.of_nat (List.length acc) + value acc /\
  ((0 < n)%nat -> show_loop n z acc <> []).
Proof.
  induction n as [|n IH]; intros z acc Hz D.
  - cbn [show_loop]. cbn in Hz. assert (z = 0) by lia. subst z. repeat split; [assumption|lia].
  - cbn [show_loop]. destruct (Z.ltb_spec z 10) as [L|L].
    + destruct (digit_char_ok z) as [A B]; [lia|]. split; [constructor; assumption|]. split; [|discriminate].
      rewrite value_cons, B. reflexivity.
    + destruct (digit_char_ok (z mod 10)) as [A B]; [pose proof (Z.mod_pos_bound z 10); lia|].
      destruct (IH (z / 10) (digit_char (z mod 10) :: acc)) as (D' & V' & _).
      * split; [apply Z.div_pos; lia|]. apply Z.div_lt_upper_bound; [lia|].
        rewrite Nat2Z.inj_succ, Z.pow_succ_r in Hz by lia. lia.
      * constructor; assumption.
      * split; [exact D'|]. split.
        { rewrite V'. cbn [List.length]. rewrite value_cons, B.
          rewrite Nat2Z.inj_succ, Z.pow_succ_r by lia. pose proof (Z.div_mod z 10 ltac:(lia)). nia. }
        { intros _ E. rewrite E in V'. change (value []) with 0 in V'. cbn [List.length] in V'.
          assert (1 <= z / 10) by (apply Z.div_le_lower_bound; lia).
          assert (0 <= value (digit_char (z mod 10) :: acc)) by (apply value_nonneg; constructor; assumption).
          assert (0 < 10 ^ Z.of_nat (S (List.length acc))) by (apply Z.pow_pos_nonneg; lia). cbn [List.length] in *. nia. }
Qed.
Lemma show_nat_ok : forall z, 0 <= z -> digits (show_nat z) /\ value (show_nat z) = z /\ show_nat z <> [].
Proof.
  intros z Hz. unfold show_nat. destruct (show_loop_ok (S (Z.to_nat (Z.log2 z))) z []) as (A & B & C).
  - split; [assumption|]. rewrite Nat2Z.inj_succ, Z2Nat.id by apply Z.log2_nonneg.
    destruct (Z.eq_dec z 0) as [->|N]; [vm_compute; reflexivity|]. apply Z.log2_spec. lia.
  - constructor.
  - split; [exact A|]. split; [rewrite B; cbn; unfold value, number; cbn; lia|apply C; lia].
Qed.

(* ---- C16 ---- *)

(* any signed run of digits whose value fits in an int is read as its value; the scanner reports
   success and stops after the number and one separator *)
Theorem C16_ctoi_value : forall line s bl sg neg ds rest, on_line line s ->
  after s = bl ++ sg ++ ds ++ rest -> Forall blank bl -> sign_text sg neg -> digits ds -> ds <> [] -> ~ begins_digit rest ->
  value ds <= 2147483647 ->
  exists s', ctoi s = Some (signed neg (value ds), s') /\ ok s' = true /\ on_line line s' /\ past_separators rest (after s').
Proof.
  intros line s bl sg neg ds rest Hs Ha Bl Sg Ds Nd Nr Hv. destruct (on_line_vw _ _ Hs) as (r & V).
  rewrite (after_vw _ _ _ V) in Ha.
  destruct (sign_split sg neg ds rest Sg Ds (fun _ => Nd)) as (S1 & S2 & _ & S3). specialize (S2 Nd).
  assert (Ed : dropbl r = sg ++ ds ++ rest) by (rewrite Ha, dropbl_app by assumption; exact S3).
  destruct (digits_take ds rest Ds Nr) as [T1 T2].
  assert (H1 : foldo (int_digit 10) 0 (take_while fdigit (dropsign (dropbl r))) = Some (value ds)).
  { rewrite Ed, S2, T1. now apply value_fold. }
  assert (H2 : int_chk (value ds * (if sign_neg (dropbl r) then -1 else 1)) = Some (signed neg (value ds))).
  { rewrite int_chk_sign by (split; [now apply value_nonneg|exact Hv]). rewrite Ed, S1. f_equal. unfold signed. destruct neg; lia. }
  destruct (ctoi_vw _ _ _ _ _ V H1 H2) as (s' & E & V' & O). exists s'. split; [exact E|].
  assert (Er : int_rest r = dropcom rest) by (unfold int_rest; rewrite Ed, S2, T2; reflexivity).
  rewrite Er in *. split.
  - rewrite O. unfold moved. rewrite Ed. apply negb_true_iff. apply Nat.eqb_neq.
    pose proof (suffix_len _ _ (suffix_eat1b fcomma rest)) as L. fold dropcom in L. rewrite !app_length. destruct ds; [contradiction|cbn; lia].
  - split; [now apply vw_on_line with (dropcom rest)|]. rewrite (after_vw _ _ _ V'). apply dropcom_spec.
Qed.
Print Assumptions C16_ctoi_value.

(* printed integers are read back: every int except the smallest, whose magnitude does not fit *)
Theorem C16_ctoi_reads_printed : forall line s bl z rest, on_line line s -> after s = bl ++ show z ++ rest -> Forall blank bl ->
  ~ begins_digit rest -> -2147483647 <= z <= 2147483647 ->
  exists s', ctoi s = Some (z, s') /\ ok s' = true /\ past_separators rest (after s').
Proof.
  intros line s bl z rest Hs Ha Bl Nr Hz. unfold show in Ha. destruct (Z.ltb_spec z 0) as [L|L].
  - destruct (show_nat_ok (- z)) as (D & Vz & N); [lia|].
    destruct (C16_ctoi_value line s bl ["-"%char] true (show_nat (- z)) rest) as (s' & E & O & _ & P); try assumption; [right; right; split; reflexivity|lia|].
    exists s'. rewrite Vz in E. cbn [signed] in E. rewrite Z.opp_involutive in E. auto.
  - destruct (show_nat_ok z) as (D & Vz & N); [lia|].
    destruct (C16_ctoi_value line s bl [] false (show_nat z) rest) as (s' & E & O & _ & P); try assumption; [left; split; reflexivity|lia|].
    exists s'. rewrite Vz in E. auto.
Qed.
Print Assumptions C16_ctoi_reads_printed.

(* unsigned input: value modulo 2^32, any number of digits *)
Theorem C16_ctou_value : forall line s bl ds rest, on_line line s ->
  after s = bl ++ ds ++ rest -> Forall blank bl -> digits ds -> ds <> [] -> ~ begins_digit rest ->
  exists s', ctou s = Some (value ds mod 4294967296, s') /\ ok s' = true /\ on_line line s' /\ past_separators rest (after s').
Proof.
  intros line s bl ds rest Hs Ha Bl Ds Nd Nr. destruct (on_line_vw _ _ Hs) as (r & V).
  rewrite (after_vw _ _ _ V) in Ha.
  assert (Ed : dropbl r = ds ++ rest) by (rewrite Ha, dropbl_app by assumption; now apply digits_visible).
  destruct (digits_take ds rest Ds Nr) as [T1 T2].
  destruct (ctou_vw _ _ _ V) as (s' & E & V' & O). exists s'.
  rewrite Ed, T1 in E. change 0 with (0 mod 4294967296) in E. rewrite fold_mod in E. split; [exact E|].
  assert (Er : uns_rest fdigit r = dropcom rest) by (unfold uns_rest; rewrite Ed, T2; reflexivity).
  rewrite Er in *. split.
  - rewrite O. unfold moved. rewrite Ed. apply negb_true_iff. apply Nat.eqb_neq.
    pose proof (suffix_len _ _ (suffix_eat1b fcomma rest)) as L. fold dropcom in L. rewrite !app_length. destruct ds; [contradiction|cbn; lia].
  - split; [now apply vw_on_line with (dropcom rest)|]. rewrite (after_vw _ _ _ V'). apply dropcom_spec.
Qed.
Print Assumptions C16_ctou_value.

Example C16_case : after (cs_string (str " -450, x")) = str " " ++ show (-450) ++ str ", x" /\
  (let* (v, s) := ctoi (cs_string (str " -450, x")) in Some (v, after s)) = Some (-450, str "x").
Proof. split; vm_compute; reflexivity. Qed.
Example C16_ctou_case : (let* (v, s) := ctou (cs_string (str "4294967299x")) in Some (v, after s)) = Some (3, str "x").
Proof. vm_compute. reflexivity. Qed.

(* the smallest int cannot be read: the digits are accumulated positively and overflow *)
Theorem C16_smallest_int_refuted : ctoi (cs_string (show (-2147483648))) = None.
Proof. vm_compute. reflexivity. Qed.
Print Assumptions C16_smallest_int_refuted.
(* a sign alone, or an empty field, is accepted as the number 0 *)
Theorem C16_sign_alone_accepted_refuted : exists s', ctoi (cs_string (str "-x")) = Some (0, s') /\ ok s' = true /\ after s' = str "x".
Proof. eexists. split; [vm_compute; reflexivity|]. split; reflexivity. Qed.
Print Assumptions C16_sign_alone_accepted_refuted.

(* ---- C17 ---- *)
Definition letter (c : ascii) : Prop := isalpha (toascii c) = true.
Definition begins_letter (r : list ascii) : Prop := match r with c :: _ => letter c | [] => False end.
Definition chr (c : ascii) (s : string) : bool := existsb (Ascii.eqb c) (str s).

(* the documented scale factors, as a function of all the letters after the number *)
Definition letters_factor (u : units) (ls : list ascii) : Q :=
  match ls with
  | [] => 1
  | c :: r =>
    if chr c "mM" then
      match u with
      | uSI => if chr c "M" then 1000000 else 1 # 1000
      | uSPICE => match r with
                  | d :: _ => if chr d "eE" then 1000000 else if chr d "iI" then 254 # 10000000 else 1 # 1000
                  | [] => 1 # 1000 end
      end
    else if chr c "P" then match u with uSI => 1000000000000000 | uSPICE => 1 # 1000000000000 end
    else if chr c "tT" then 1000000000000 else if chr c "gG" then 1000000000 else if chr c "kK" then 1000
    else if chr c "uU" then 1 # 1000000 else if chr c "nN" then 1 # 1000000000 else if chr c "p" then 1 # 1000000000000
    else if chr c "fF" then 1 # 1000000000000000 else if chr c "aA" then 1 # 1000000000000000000
    else 1
  end%Q.

(* the text after the digits, its factor, and what is left *)
Inductive tail_of (u : units) : list ascii -> Q -> list ascii -> Prop :=
| t_letters : forall ls rest, Forall letter ls -> ~ begins_letter rest -> (ls = [] -> ~ begins_digit rest /\ match rest with c :: _ => c <> "%"%char /\ c <> "."%char | [] => True end) ->
    match ls with c :: _ => c <> "e"%char /\ c <> "E"%char | [] => True end ->
    tail_of u (ls ++ rest) (letters_factor u ls) rest
| t_percent : forall ls rest, Forall letter ls -> ~ begins_letter rest -> tail_of u ("%"%char :: ls ++ rest) (1 # 100) rest
| t_exp : forall e sg neg ds ls rest, (e = "e"%char \/ e = "E"%char) -> sign_text sg neg -> digits ds -> ds <> [] ->
    value ds <= 2147483647 -> Forall letter ls -> ~ begins_letter rest -> (ls = [] -> ~ begins_digit rest) ->
    tail_of u (e :: sg ++ ds ++ ls ++ rest) (Qpower 10 (signed neg (value ds))) rest.

(* the digits before and after the point; no point means no digits after it *)
Definition mantissa (ip : list ascii) (dot : bool) (fp : list ascii) : list ascii := ip ++ (if dot then "."%char :: fp else []).

Lemma chr_set : forall c s, ~ In NUL (str s) -> in_set (str s) c = chr c s.
Proof.
  intros c s H. unfold in_set, mem, chr. destruct (Ascii.eqb_spec c NUL) as [->|N]; [|reflexivity]. cbn [negb andb]. symmetry.
  destruct (existsb (Ascii.eqb NUL) (str s)) eqn:E; [|reflexivity]. apply existsb_exists in E. destruct E as (x & Hx & Ex).
  apply Ascii.eqb_eq in Ex. subst x. contradiction.
Qed.
Lemma letter_falpha : forall c, letter c <-> falpha c = true. Proof. reflexivity. Qed.
Lemma letters_drop : forall ls rest, Forall letter ls -> ~ begins_letter rest -> drop_while falpha (ls ++ rest) = rest.
Proof.
  intros ls rest H N. rewrite drop_app by exact H. apply drop_idem. destruct rest as [|c q]; [reflexivity|]. unfold head. cbn [hd].
  destruct (falpha c) eqn:E; [|reflexivity]. now elim N.
Qed.

Lemma pick_cases : forall u c, in_set (str "mM") c = false ->
  pick (suffixes u) c = if chr c "%" then Some (ten_to (-2)) else
   if chr c "P" then Some (match u with uSI => ten_to 15 | uSPICE => ten_to (-12) end)
   else if chr c "tT" then Some (ten_to 12) else if chr c "gG" then Some (ten_to 9) else if chr c "kK" then Some (ten_to 3)
   else if chr c "uU" then Some (ten_to (-6)) else if chr c "nN" then Some (ten_to (-9)) else if chr c "p" then Some (ten_to (-12))
   else if chr c "fF" then Some (ten_to (-15)) else if chr c "aA" then Some (ten_to (-18)) else None.
Proof. intros u [[] [] [] [] [] [] [] []] H; destruct u; vm_compute in H; try discriminate H; vm_compute; reflexivity. Qed.
Lemma pick_m : forall c, in_set (str "mM") c = true ->
  pick (suffixes uSI) c = if chr c "M" then Some (ten_to 6) else Some (ten_to (-3)).
Proof. intros [[] [] [] [] [] [] [] []] H; vm_compute in H; try discriminate H; vm_compute; reflexivity. Qed.
Lemma letter_not_percent : forall c, letter c -> chr c "%" = false.
Proof. intros [[] [] [] [] [] [] [] []] H; vm_compute in H; try discriminate H; reflexivity. Qed.
Lemma non_letter_none : forall u c, ~ letter c -> c <> "%"%char -> pick (suffixes u) c = None.
Proof.
  intros u c H N. destruct (in_set (str "mM") c) eqn:Em.
  - exfalso. apply H. apply in_set_In in Em. destruct Em as [<-|[<-|[]]]; reflexivity.
  - rewrite pick_cases by assumption. assert (G : forall s, (forall d, In d (str s) -> letter d \/ d = "%"%char) -> chr c s = false).
    { intros s Hs. unfold chr. destruct (existsb (Ascii.eqb c) (str s)) eqn:E; [|reflexivity]. apply existsb_exists in E.
      destruct E as (d & Hd & Ed). apply Ascii.eqb_eq in Ed. subst d. destruct (Hs c Hd); contradiction. }
    rewrite !G; [reflexivity|..]; (intros d Hd; cbn in Hd; repeat destruct Hd as [<-|Hd]; try contradiction; (left; reflexivity) || (right; reflexivity)).
Qed.

Lemma tail_scale : forall u t f rest, tail_of u t f rest ->
  exists q r5, scale_of u t = Some (q, r5) /\ (q == f)%Q /\ drop_while falpha r5 = rest.
Proof.
  intros u t f rest H. destruct H as [ls rest Hl Nl Hn He|ls rest Hl Nl|e sg neg ds ls rest He Hs Hd Nd Hv Hl Nl Hn].
  - destruct ls as [|c ls].
    + cbn [app]. destruct (Hn eq_refl) as [_ Hp].
      assert (Ep : pick (suffixes u) (head rest) = None).
      { destruct rest as [|c q]; [vm_compute; destruct u; reflexivity|]. apply non_letter_none; [exact Nl|apply Hp]. }
      assert (Nm : forall s, (forall d, In d (str s) -> letter d) -> ~ In NUL (str s) -> in_set (str s) (head rest) = false).
      { intros s Hs H0. destruct (in_set (str s) (head rest)) eqn:E; [|reflexivity]. exfalso. apply in_set_In in E.
        destruct rest as [|c q]; [contradiction|]. apply Nl. now apply Hs. }
      unfold scale_of. rewrite (Nm "eE"%string) by (intros; cbn in *; intuition (subst; reflexivity || discriminate)).
      rewrite (Nm "mM"%string) by (intros; cbn in *; intuition (subst; reflexivity || discriminate)). rewrite Ep.
      exists 1%Q, rest. split; [destruct u; reflexivity|]. split; [reflexivity|]. now apply (letters_drop []).
    + inversion_clear Hl as [|? ? Hc Hl']. unfold scale_of. cbn [app head hd tl]. 
      assert (Ee : in_set (str "eE") c = false).
      { destruct (in_set (str "eE") c) eqn:E; [|reflexivity]. apply in_set_In in E. destruct E as [<-|[<-|[]]]; [now elim (proj1 He)|now elim (proj2 He)]. }
      unfold head. cbn [hd]. rewrite Ee. cbn [letters_factor].
      assert (Pk : pick (suffixes u) c = None -> exists q r5, Some (match pick (suffixes u) c with Some q => q | None => 1%Q end, match pick (suffixes u) c with Some _ => ls ++ rest | None => c :: ls ++ rest end) = Some (q, r5) /\ (q == 1)%Q /\ drop_while falpha r5 = rest).
      { intros ->. eexists _, _. split; [reflexivity|]. split; [reflexivity|]. apply (letters_drop (c :: ls)); [now constructor|assumption]. }
      assert (Ps : forall v w, pick (suffixes u) c = Some v -> (v == w)%Q -> exists q r5, Some (match pick (suffixes u) c with Some q => q | None => 1%Q end, match pick (suffixes u) c with Some _ => ls ++ rest | None => c :: ls ++ rest end) = Some (q, r5) /\ (q == w)%Q /\ drop_while falpha r5 = rest).
      { intros v w -> E. eexists _, _. split; [reflexivity|]. split; [exact E|]. now apply letters_drop. }
      assert (Oth : in_set (str "mM") c = false -> exists q r5, Some (match pick (suffixes u) c with Some q => q | None => 1%Q end, match pick (suffixes u) c with Some _ => ls ++ rest | None => c :: ls ++ rest end) = Some (q, r5) /\ (q == letters_factor u (c :: ls))%Q /\ drop_while falpha r5 = rest).
      { intros Em. cbn [letters_factor]. rewrite <- (chr_set c "mM") by (cbn; intuition discriminate). rewrite Em.
        pose proof (pick_cases u c Em) as P. rewrite (letter_not_percent c Hc) in P.
        destruct (chr c "P"); [apply (Ps _ _ P); destruct u; reflexivity|].
        destruct (chr c "tT"); [apply (Ps _ _ P); reflexivity|]. destruct (chr c "gG"); [apply (Ps _ _ P); reflexivity|].
        destruct (chr c "kK"); [apply (Ps _ _ P); reflexivity|]. destruct (chr c "uU"); [apply (Ps _ _ P); reflexivity|].
        destruct (chr c "nN"); [apply (Ps _ _ P); reflexivity|]. destruct (chr c "p"); [apply (Ps _ _ P); reflexivity|].
        destruct (chr c "fF"); [apply (Ps _ _ P); reflexivity|]. destruct (chr c "aA"); [apply (Ps _ _ P); reflexivity|].
        exact (Pk P). }
      cbn [letters_factor] in Oth. rewrite <- (chr_set c "mM") in * by (cbn; intuition discriminate).
      destruct (in_set (str "mM") c) eqn:Em; [|destruct u; exact (Oth eq_refl)].
      destruct u.
      * pose proof (pick_m c Em) as P. destruct (chr c "M"); apply (Ps _ _ P); reflexivity.
      * cbv zeta. rewrite !chr_set by (cbn; intuition discriminate).
        destruct ls as [|d ls].
        { cbn [app]. 
          assert (Nr : forall s, (forall d, In d (str s) -> letter d) -> in_set (str s) (head rest) = false).
          { intros s Hs. destruct (in_set (str s) (head rest)) eqn:E; [|reflexivity]. exfalso.
            destruct rest as [|d q]; [discriminate E|]. apply in_set_In in E. apply Nl. now apply Hs. }
          fold (head rest). rewrite <- !chr_set by (cbn; intuition discriminate).
          rewrite (Nr "eE"%string) by (intros; cbn in *; intuition (subst; reflexivity)).
          rewrite (Nr "iI"%string) by (intros; cbn in *; intuition (subst; reflexivity)).
          eexists _, _. split; [reflexivity|]. split; [reflexivity|]. now apply (letters_drop []). }
        { cbn [app hd tl]. inversion_clear Hl' as [|? ? Hd' Hl'']. destruct (chr d "eE").
          - eexists _, _. split; [reflexivity|]. split; [reflexivity|]. now apply letters_drop.
          - destruct (chr d "iI").
            + eexists _, _. split; [reflexivity|]. split; [reflexivity|]. now apply letters_drop.
            + eexists _, _. split; [reflexivity|]. split; [reflexivity|]. apply (letters_drop (d :: ls)); [now constructor|assumption]. }
  - exists (ten_to (-2)), (ls ++ rest). split; [destruct u; reflexivity|]. split; [reflexivity|]. now apply letters_drop.
  - assert (Ee : in_set (str "eE") e = true) by (destruct He as [->| ->]; reflexivity).
    unfold scale_of, head. cbn [hd tl]. rewrite Ee. cbv zeta.
    assert (Nr : ~ begins_digit (ls ++ rest)).
    { destruct ls as [|c ls]; [exact (Hn eq_refl)|]. inversion_clear Hl as [|? ? Hc _]. intros X. cbn in X. revert Hc.
      repeat destruct X as [<-|X]; try (intros Y; discriminate Y). contradiction. }
    destruct (sign_split sg neg ds (ls ++ rest) Hs Hd (fun _ => Nd)) as (S1 & S2 & _ & _). specialize (S2 Nd).
    destruct (digits_take ds (ls ++ rest) Hd Nr) as [T1 T2]. rewrite S2, T1, T2, S1, (value_fold ds Hd Hv). cbn [bind].
    eexists _, _. split; [reflexivity|]. split; [|now apply letters_drop]. unfold ten_to, signed. destruct neg.
    + replace (value ds * -1) with (- value ds) by lia. reflexivity.
    + rewrite Z.mul_1_r. reflexivity.
Qed.

Lemma qdigits_value : forall l v, (qdigits v l == v * inject_Z (10 ^ Z.of_nat (List.length l)) + inject_Z (value l))%Q.
Proof.
  induction l as [|c l IH]; intros v.
  - cbn. unfold value, number. cbn. ring.
  - unfold qdigits in *. cbn [fold_left List.length]. rewrite IH. rewrite value_cons.
    rewrite Nat2Z.inj_succ, Z.pow_succ_r by lia.
    change (code c - 48) with (dig c). rewrite !inject_Z_plus, !inject_Z_mult. change (inject_Z 10) with 10%Q. change (inject_Z (10 * 0)) with 0%Q. ring.
Qed.
Lemma frac_fold : forall l v p, fold_left frac_step l (v, p) = (qdigits v l, snd (fold_left frac_step l (v, p))) /\
  (snd (fold_left frac_step l (v, p)) == p * Qpower 10 (- Z.of_nat (List.length l)))%Q.
Proof.
  induction l as [|c l IH]; intros v p.
  - cbn. split; [reflexivity|]. ring.
  - cbn [fold_left]. change (frac_step (v, p) c) with ((10 * v + inject_Z (dig c))%Q, (p * (1 # 10))%Q). destruct (IH (10 * v + inject_Z (dig c))%Q (p * (1 # 10))%Q) as [A B]. split.
    + rewrite A at 1. reflexivity.
    + rewrite B. cbn [List.length]. rewrite Nat2Z.inj_succ.
      replace (- Z.succ (Z.of_nat (List.length l))) with (-(1) + - Z.of_nat (List.length l)) by lia.
      rewrite (Qpower_plus 10 (-(1)) (- Z.of_nat (List.length l))) by (intro X; discriminate X).
      change (Qpower 10 (- (1))) with (1 # 10). ring.
Qed.
Lemma value_app : forall a b, value (a ++ b) = value a * 10 ^ Z.of_nat (List.length b) + value b.
Proof. intros a b. unfold value at 1, number. rewrite fold_left_app. rewrite number_app. reflexivity. Qed.

(* sign, digits, point, digits, and a scale part are read as
   sign * (all digits) * 10^-(digits after the point) * scale, exactly *)
Theorem C17_ctof_value : forall u line s bl sg neg ip dot fp t f rest, on_line line s ->
  after s = bl ++ sg ++ mantissa ip dot fp ++ t ->
  Forall blank bl -> sign_text sg neg -> digits ip -> digits fp -> (dot = false -> fp = []) ->
  (sg <> [] \/ ip <> [] \/ dot = true) -> tail_of u t f rest ->
  exists q s', ctof u s = Some (q, s') /\
    (q == inject_Z (signed neg 1) * inject_Z (value (ip ++ fp)) * Qpower 10 (- Z.of_nat (List.length fp)) * f)%Q /\
    ok s' = true /\ on_line line s' /\ past_separators rest (after s').
Proof.
  intros u line s bl sg neg ip dot fp t f rest Hs Ha Bl Sg Di Df Hdot Hne Ht. destruct (on_line_vw _ _ Hs) as (r & V).
  rewrite (after_vw _ _ _ V) in Ha.
  destruct (tail_scale u t f rest Ht) as (q & r5 & Es & Eq & Er5).
  assert (Nt : ~ begins_digit t /\ (forall q', t <> "."%char :: q')).
  { destruct Ht as [ls rest Hl Nl Hn He|ls rest Hl Nl|e sg' neg' ds ls rest He Hs' Hd Nd Hv Hl Nl Hn].
    - destruct ls as [|c ls]; cbn [app].
      + destruct (Hn eq_refl) as [A B]. split; [exact A|]. intros q' ->. now apply B.
      + inversion_clear Hl as [|? ? Hc _]. split; [|intros q' E; injection E as -> _; discriminate Hc].
        intros X. cbn in X. revert Hc. repeat destruct X as [<-|X]; try (intros Y; discriminate Y). contradiction.
    - split; [intros X; cbn in X; intuition discriminate|intros q' E; discriminate E].
    - split; [intros X; cbn in X; destruct He as [->| ->]; intuition discriminate|intros q' E; destruct He as [->| ->]; discriminate E]. }
  destruct Nt as [Nt1 Nt2].
  set (body := (if dot then "."%char :: fp else []) ++ t).
  assert (Eb : mantissa ip dot fp ++ t = ip ++ body) by (unfold mantissa, body; now rewrite <- app_assoc).
  rewrite Eb in Ha.
  assert (Nb : ~ begins_digit body).
  { unfold body. destruct dot; cbn; [intuition discriminate|exact Nt1]. }
  (* sign *)
  assert (S : sign_neg (sg ++ ip ++ body) = neg /\ dropsign (sg ++ ip ++ body) = ip ++ body /\ dropbl (sg ++ ip ++ body) = sg ++ ip ++ body
      /\ ffloat (head (sg ++ ip ++ body)) = true).
  { destruct Sg as [[-> ->]|[[-> ->]|[-> ->]]]; [|repeat split..]. cbn [app].
    destruct Di as [|c ip Hc Di'].
    - cbn [app]. destruct dot; [|destruct Hne as [X|[X|X]]; [now elim X|now elim X|discriminate X]]. unfold body. repeat split.
    - assert (D : digits (c :: ip)) by (constructor; assumption).
      destruct (digit_not_sign (c :: ip) body D ltac:(discriminate)) as [A B].
      split; [exact A|]. split; [exact B|]. split; [apply digits_visible; [exact D|discriminate]|].
      unfold head. cbn [app hd]. cbn in Hc. repeat destruct Hc as [<-|Hc]; try reflexivity. contradiction. }
  destruct S as (S1 & S2 & S3 & S4).
  assert (Ed : dropbl r = sg ++ ip ++ body) by (rewrite Ha, dropbl_app by assumption; exact S3).
  destruct (digits_take ip body Di Nb) as [T1 T2].
  assert (E3 : eat1 fdot body = fp ++ t).
  { unfold body. destruct dot; [reflexivity|]. rewrite (Hdot eq_refl). cbn [app]. apply eat1_id.
    destruct t as [|c q']; [reflexivity|]. unfold head. cbn [hd]. destruct (fdot c) eqn:E; [|reflexivity]. apply in_set_In in E.
    destruct E as [<-|[]]. now elim (Nt2 q'). }
  destruct (digits_take fp t Df Nt1) as [T3 T4].
  pose proof (ctof_vw line u r s q r5 V) as C. cbv zeta in C. rewrite Ed, S2, T1, T2, E3, T3, T4 in C. specialize (C S4).
  destruct (C Es) as (s' & E & V' & O). clear C.
  eexists _, s'. split; [exact E|]. split; [|split; [exact O|split; [now eapply vw_on_line; exact V'|]]].
  - destruct (frac_fold fp (qdigits 0 ip) 1) as [A B]. rewrite A. cbn [fst snd]. rewrite B, Eq, S1.
    replace (qdigits (qdigits 0 ip) fp) with (qdigits 0 (ip ++ fp)) by apply fold_left_app. rewrite qdigits_value.
    change (signed neg 1) with (if neg then -1 else 1). ring.
  - rewrite (after_vw _ _ _ V'), Er5. apply dropcom_spec.
Qed.
Print Assumptions C17_ctof_value.

Ltac digs := unfold digits; repeat (apply Forall_cons; [cbn; tauto|]); apply Forall_nil.
(* 10uhenries, 1.5meg (spice), -2.5e-3 *)
Example C17_case : exists q s', ctof uSPICE (cs_string (str "10uhenries, 7")) = Some (q, s') /\ (q == 1 # 100000)%Q /\ after s' = str "7".
Proof. eexists _, _. split; [vm_compute; reflexivity|]. split; reflexivity. Qed.
Example C17_hypotheses_case : str "1.5Meg)" = [] ++ [] ++ mantissa (str "1") true (str "5") ++ str "Meg)" /\
  digits (str "1") /\ digits (str "5") /\ tail_of uSPICE (str "Meg)") (letters_factor uSPICE (str "Meg")) (str ")") /\ letters_factor uSPICE (str "Meg") = 1000000%Q.
Proof.
  split; [reflexivity|]. split; [digs|]. split; [digs|]. split; [|reflexivity].
  change (str "Meg)") with (str "Meg" ++ str ")"). apply t_letters.
  - repeat constructor.
  - intros X. discriminate X.
  - discriminate.
  - split; discriminate.
Qed.
Example C17_exponent_case : tail_of uSI (str "e-3V ") (1 # 1000) (str " ").
Proof.
  change (1 # 1000)%Q with (Qpower 10 (signed true (value (str "3")))).
  change (str "e-3V ") with ("e"%char :: str "-" ++ str "3" ++ str "V" ++ str " "). apply t_exp.
  - now left.
  - right. right. split; reflexivity.
  - digs.
  - discriminate.
  - vm_compute. discriminate.
  - repeat constructor.
  - intros X. discriminate X.
  - discriminate.
Qed.

(* a sign alone is accepted as the number 0, and letters after it are swallowed *)
Theorem C17_sign_alone_accepted_refuted : exists q s', ctof uSPICE (cs_string (str "-foo x")) = Some (q, s') /\ (q == 0)%Q /\ ok s' = true /\ after s' = str "x".
Proof. eexists _, _. split; [vm_compute; reflexivity|]. repeat split. Qed.
Print Assumptions C17_sign_alone_accepted_refuted.
(* an exponent that does not fit in an int is undefined behaviour *)
Theorem C17_huge_exponent_refuted : ctof uSI (cs_string (str "1e99999999999")) = None.
Proof. vm_compute. reflexivity. Qed.
Print Assumptions C17_huge_exponent_refuted.
(* ---- C16 continued: octal, hexadecimal and boolean input ---- *)

(* what a hexadecimal digit of either case is worth *)
Definition hex_val (c : ascii) : Z :=
  if existsb (Ascii.eqb c) (str "0123456789") then code c - 48
  else if existsb (Ascii.eqb c) (str "abcdef") then code c - 87 else code c - 55.
Definition hex_digits (l : list ascii) : Prop := Forall (fun c => In c (str "0123456789abcdefABCDEF")) l.
Definition begins_hex (r : list ascii) : Prop := match r with c :: _ => In c (str "0123456789abcdefABCDEF") | [] => False end.
Definition hex_value (l : list ascii) : Z := number 16 hex_val l.
Definition octal_value (l : list ascii) : Z := number 8 (fun c => code c - 48) l.

Lemma hex_take : forall l r, hex_digits l -> ~ begins_hex r -> take_while fxdigit (l ++ r) = l /\ drop_while fxdigit (l ++ r) = r.
Proof.
  intros l r H N. assert (F : Forall (fun c => fxdigit c = true) l).
  { eapply Forall_impl; [|exact H]. intros c Hc. cbn in Hc. repeat destruct Hc as [<-|Hc]; try reflexivity. contradiction. }
  assert (E : fxdigit (head r) = false).
  { destruct r as [|c q]; [reflexivity|]. unfold head. cbn [hd]. destruct (fxdigit c) eqn:E; [|reflexivity].
    exfalso. apply N. now apply in_set_In. }
  split.
  - rewrite take_app by assumption. rewrite take_stop by assumption. apply app_nil_r.
  - rewrite drop_app by assumption. now apply drop_idem.
Qed.
Lemma hex_visible : forall l r, hex_digits l -> l <> [] -> dropbl (l ++ r) = l ++ r.
Proof.
  intros l r H N. destruct H as [|c l Hc _]; [contradiction|]. apply drop_idem. unfold head. cbn [app hd].
  cbn in Hc. repeat destruct Hc as [<-|Hc]; try reflexivity. contradiction.
Qed.
Lemma hex_digit_is : forall v c, In c (str "0123456789abcdefABCDEF") -> 0 <= hex_val c <= 15 /\
  hex_digit v c = (let* a := int_chk (16 * v) in int_chk (a + hex_val c)).
Proof.
  intros v c Hc. cbn in Hc. repeat destruct Hc as [<-|Hc]; try (split; [vm_compute; split; discriminate|reflexivity]). contradiction.
Qed.
Lemma hex_fold : forall l, hex_digits l -> hex_value l <= INT_MAX -> foldo hex_digit 0 l = Some (hex_value l).
Proof.
  intros l H L. unfold hex_digits in H. rewrite Forall_forall in H. unfold hex_value.
  assert (G : forall l', (forall c, In c l' -> In c (str "0123456789abcdefABCDEF")) -> forall v, 0 <= v ->
    fold_left (fun v c => 16 * v + hex_val c) l' v <= INT_MAX -> foldo hex_digit v l' = Some (fold_left (fun v c => 16 * v + hex_val c) l' v)).
  { clear. induction l' as [|c l' IH]; intros Hl v Hv L; [reflexivity|]. cbn [foldo fold_left] in *.
    destruct (hex_digit_is v c) as [R E]; [apply Hl; now left|]. rewrite E.
    assert (M : forall q w, (forall c, In c q -> In c (str "0123456789abcdefABCDEF")) -> 0 <= w -> w <= fold_left (fun v c => 16 * v + hex_val c) q w).
    { clear. induction q as [|d q IH]; intros w Hq Hw; cbn [fold_left]; [lia|].
      destruct (hex_digit_is w d) as [R _]; [apply Hq; now left|].
      specialize (IH (16 * w + hex_val d)). etransitivity; [|apply IH; [intros; apply Hq; now right|lia]]. lia. }
    pose proof (M l' (16 * v + hex_val c) (fun c H => Hl c (or_intror H)) ltac:(lia)) as M1.
    unfold int_chk at 1. destruct ((INT_MIN <=? 16 * v) && (16 * v <=? INT_MAX)) eqn:C1; [|unfold INT_MIN, INT_MAX in *; lia].
    cbn [bind]. unfold int_chk at 1. destruct ((INT_MIN <=? 16 * v + hex_val c) && (16 * v + hex_val c <=? INT_MAX)) eqn:C2; [|unfold INT_MIN, INT_MAX in *; lia].
    apply IH; [intros; apply Hl; now right|lia|assumption]. }
  apply G; [exact H|lia|exact L].
Qed.

(* hexadecimal digits of either case that fit in an int are read as their value *)
Theorem C16_ctox_value : forall line s bl ds rest, on_line line s ->
  after s = bl ++ ds ++ rest -> Forall blank bl -> hex_digits ds -> ds <> [] -> ~ begins_hex rest -> hex_value ds <= 2147483647 ->
  exists s', ctox s = Some (hex_value ds, s') /\ ok s' = true /\ on_line line s' /\ past_separators rest (after s').
Proof.
  intros line s bl ds rest Hs Ha Bl Ds Nd Nr Hv. destruct (on_line_vw _ _ Hs) as (r & V).
  rewrite (after_vw _ _ _ V) in Ha.
  assert (Ed : dropbl r = ds ++ rest) by (rewrite Ha, dropbl_app by assumption; now apply hex_visible).
  destruct (hex_take ds rest Ds Nr) as [T1 T2].
  destruct (ctox_vw _ _ _ (hex_value ds) V) as (s' & E & V' & O); [rewrite Ed, T1; now apply hex_fold|]. exists s'. split; [exact E|].
  assert (Er : uns_rest fxdigit r = dropcom rest) by (unfold uns_rest; rewrite Ed, T2; reflexivity).
  rewrite Er in *. split.
  - rewrite O. unfold moved. rewrite Ed. apply negb_true_iff. apply Nat.eqb_neq.
    pose proof (suffix_len _ _ (suffix_eat1b fcomma rest)) as L. fold dropcom in L. rewrite !app_length. destruct ds; [contradiction|cbn; lia].
  - split; [now apply vw_on_line with (dropcom rest)|]. rewrite (after_vw _ _ _ V'). apply dropcom_spec.
Qed.
Print Assumptions C16_ctox_value.
Example C16_ctox_case : hex_digits (str "7fA") /\ hex_value (str "7fA") = 2042 /\
  (let* (v, s) := ctox (cs_string (str " 7fA, z")) in Some (v, after s)) = Some (2042, str "z").
Proof. split; [unfold hex_digits; rewrite Forall_forall; intros c H; cbn in H; repeat destruct H as [<-|H]; try contradiction; cbn; auto 30|]. split; vm_compute; reflexivity. Qed.

(* octal digits that fit in an int are read as their base 8 value (8 and 9 are not rejected) *)
Theorem C16_ctoo_value : forall line s bl ds rest, on_line line s ->
  after s = bl ++ ds ++ rest -> Forall blank bl -> digits ds -> ds <> [] -> ~ begins_digit rest -> octal_value ds <= 2147483647 ->
  exists s', ctoo s = Some (octal_value ds, s') /\ ok s' = true /\ on_line line s' /\ past_separators rest (after s').
Proof.
  intros line s bl ds rest Hs Ha Bl Ds Nd Nr Hv. destruct (on_line_vw _ _ Hs) as (r & V).
  rewrite (after_vw _ _ _ V) in Ha.
  assert (Ed : dropbl r = ds ++ rest) by (rewrite Ha, dropbl_app by assumption; now apply digits_visible).
  destruct (digits_take ds rest Ds Nr) as [T1 T2].
  destruct (ctoo_vw _ _ _ (octal_value ds) V) as (s' & E & V' & O).
  { rewrite Ed, T1. apply (foldo_fits 8 dig); [lia| |lia| |exact Hv].
    - intros. apply int_digit_ok; lia.
    - intros c Hc. unfold digits in Ds. rewrite Forall_forall in Ds. now apply digit_range, Ds. }
  exists s'. split; [exact E|].
  assert (Er : uns_rest fdigit r = dropcom rest) by (unfold uns_rest; rewrite Ed, T2; reflexivity).
  rewrite Er in *. split.
  - rewrite O. unfold moved. rewrite Ed. apply negb_true_iff. apply Nat.eqb_neq.
    pose proof (suffix_len _ _ (suffix_eat1b fcomma rest)) as L. fold dropcom in L. rewrite !app_length. destruct ds; [contradiction|cbn; lia].
  - split; [now apply vw_on_line with (dropcom rest)|]. rewrite (after_vw _ _ _ V'). apply dropcom_spec.
Qed.
Print Assumptions C16_ctoo_value.
Example C16_ctoo_case : octal_value (str "755") = 493 /\
  (let* (v, s) := ctoo (cs_string (str "755 q")) in Some (v, after s)) = Some (493, str "q").
Proof. split; vm_compute; reflexivity. Qed.

(* the words for true and false: mandatory letters, optional letters, meaning *)
Definition bool_words : list (string * string * bool) :=
  [("1", "", true); ("0", "", false); ("t", "rue", true); ("f", "alse", false); ("y", "es", true); ("n", "o", false);
   ("#t", "rue", true); ("#f", "alse", false)]%string.

Lemma umatch_one : forall ci line r s c, plain c -> vw line r s ->
  exists s', umatch ci [c; " "%char] s = Some s' /\
    match wspec ci [c] [] (dropbl r) with
    | Some x => ok s' = true /\ vw line (dropcom (dropbl x)) s'
    | None => ok s' = false /\ cnt s' = cnt s /\ vw line r s' end.
Proof.
  intros ci line r s c Hc V. unfold umatch.
  destruct (skipbl_vw _ _ _ V) as (s1 & E1 & V1 & _). inb E1.
  change (umatch_rounds [c; " "%char]) with 6%nat. rewrite (plain_step ci line (cnt s) 5 c _ false (dropbl r) s1 Hc V1).
  destruct (dropbl r) as [|k q] eqn:Er.
  - assert (F : find_bar c [" "%char] = None) by reflexivity. rewrite F. cbn [bind ok set_ok wspec eat_all].
    eexists. split; [reflexivity|]. split; [reflexivity|]. split; [reflexivity|].
    exact (vw_reset_fail _ _ _ _ _ V V1).
  - unfold wspec. cbn [eat_all]. destruct (sameb ci k c) eqn:Es.
    + assert (V2 : vw line q (skip s1)) by (eapply proj1, skip_vw; exact V1).
      cbn [umatch_loop]. change (Ascii.eqb " " "|") with false. cbv iota. inb (peek_vw _ _ _ V2).
      change (Ascii.eqb " " "{") with false. change (Ascii.eqb " " "}") with false. cbn [negb andb].
      inb (is_term_vw _ _ _ TERM V2). change (Ascii.eqb " " " ") with true. cbn [andb eat_some].
      destruct (fterm TERM (head q)) eqn:Et.
      * destruct (skipbl_vw _ _ _ V2) as (s3 & E3 & V3 & _). inb E3. cbn [bind ok set_ok].
        destruct (skipcom_vw _ _ _ (vw_m _ _ _ (cnt s1) (cnt s3) (vw_ok _ _ _ true V3))) as (s4 & E4 & V4 & _).
        cbn [cnt set_ok]. inb E4. eexists. split; [reflexivity|]. split; [reflexivity|]. exact V4.
      * assert (K : Ascii.eqb (head q) " " = false).
        { destruct (Ascii.eqb_spec (head q) " ") as [E|]; [|reflexivity]. rewrite E in Et. discriminate Et. }
        rewrite K. assert (K2 : ci && Ascii.eqb (to_lower (head q)) (to_lower " ") = false).
        { destruct ci; [|reflexivity]. cbn [andb]. destruct (Ascii.eqb_spec (to_lower (head q)) (to_lower " ")) as [E|]; [|reflexivity].
          exfalso. revert E Et. generalize (head q). intros [[] [] [] [] [] [] [] []]; vm_compute; discriminate. }
        rewrite K2. cbn [find_bar]. change (Ascii.eqb " " "|") with false. cbn [bind ok set_ok].
        eexists. split; [reflexivity|]. split; [reflexivity|]. split; [reflexivity|]. exact (vw_reset_fail _ _ _ _ _ V V2).
    + assert (F : find_bar c [" "%char] = None) by reflexivity. rewrite F. cbn [bind ok set_ok].
      eexists. split; [reflexivity|]. split; [reflexivity|]. split; [reflexivity|]. exact (vw_reset_fail _ _ _ _ _ V V1).
Qed.

(* one entry of the table against the text at the cursor *)
Lemma set_bool_spec : forall ci line r s (m o key : string) v, 
  (pattern (str m) (str o) = str key ++ [" "%char] /\ Forall plain (str m) /\ Forall plain (str o)) \/
    (o = ""%string /\ m = key /\ exists c, str m = [c] /\ plain c) ->
  closed (str key ++ [" "%char]) -> dropbl r = r -> vw line r s ->
  exists s', set_bool ci key v (Some (None, s)) =
     Some (match wspec ci (str m) (str o) r with Some _ => Some v | None => None end, s') /\
     vw line (match wspec ci (str m) (str o) r with Some x => dropcom (dropbl x) | None => r end) s'.
Proof.
  intros ci line r s m o key v K Hc Hr V. unfold set_bool. cbn [bind].
  destruct (umatch_safe ci line r s _ Hc V) as (s1 & r1 & E1 & V1 & _ & F1).
  assert (A : match wspec ci (str m) (str o) r with
     | Some x => ok s1 = true /\ vw line (dropcom (dropbl x)) s1
     | None => ok s1 = false end).
  { destruct K as [(Ep & Hm & Ho)|(-> & -> & c & Ec & Hp)].
    - rewrite <- Ep in E1. destruct (umatch_word ci line r s (str m) (str o) Hm Ho V) as (s' & E & H).
      rewrite E1 in E. injection E as <-. rewrite Hr in H. destruct (wspec ci (str m) (str o) r).
      + destruct H as (H1 & H2 & _). now split.
      + apply H.
    - rewrite Ec in *. destruct (umatch_one ci line r s c Hp V) as (s' & E & H). cbn [app] in E1. rewrite E1 in E. injection E as <-.
      rewrite Hr in H. change (str "") with (@nil ascii). destruct (wspec ci [c] [] r); [exact H|apply H]. }
  rewrite E1. cbn [bind]. destruct (wspec ci (str m) (str o) r) as [x|].
  - destruct A as [-> A]. now exists s1.
  - rewrite A. exists s1. split; [reflexivity|]. rewrite <- (F1 A). exact V1.
Qed.
Lemma set_bool_done : forall ci key v b s, set_bool ci key v (Some (Some b, s)) = Some (Some b, s).
Proof. reflexivity. Qed.

(* the first entry of a table that matches *)
Fixpoint first_word (ci : bool) (t : list (string * string * bool)) (r : list ascii) : option (bool * list ascii) :=
  match t with
  | [] => None
  | (m, o, b) :: t' => match wspec ci (str m) (str o) r with Some x => Some (b, x) | None => first_word ci t' r end
  end.
Lemma ctob_vw : forall ci line r s, vw line r s ->
  exists s', ctob ci s = Some (match first_word ci bool_words (dropbl r) with Some (b, _) => b | None => true end, s') /\
   let r' := dropcom (match first_word ci bool_words (dropbl r) with Some (_, x) => dropcom (dropbl x) | None => dropbl r end) in
   vw line r' s' /\ ok s' = moved r' (dropbl r).
Proof.
  intros ci line r s V. destruct (ctob_safe ci line r s V) as (b0 & s0 & r0 & E0 & V0 & _ & O0).
  unfold ctob in E0 |- *. destruct (skipbl_vw _ _ _ V) as (s1 & E1 & V1 & _). inb E1.
  rewrite E1 in E0. cbn [bind] in E0.
  assert (Hr : dropbl (dropbl r) = dropbl r) by (apply drop_idem; apply dropbl_head). set (q := dropbl r) in *. clearbody q.
  assert (H : exists s2, set_bool ci "#f{alse}" false (set_bool ci "#t{rue}" true
    (set_bool ci "n{o}" false (set_bool ci "y{es}" true
    (set_bool ci "f{alse}" false (set_bool ci "t{rue}" true
    (set_bool ci "0" false (set_bool ci "1" true (Some (None, s1))))))))) =
      Some (match first_word ci bool_words q with Some (b, _) => Some b | None => None end, s2) /\
      vw line (match first_word ci bool_words q with Some (_, x) => dropcom (dropbl x) | None => q end) s2).
  { unfold bool_words. cbn [first_word].
    assert (P : forall l, forallb (fun c => negb (Ascii.eqb c NUL) && negb (in_set (str "\{}| ") c)) l = true -> Forall plain l).
    { intros l H. rewrite Forall_forall. intros c Hc. rewrite forallb_forall in H. specialize (H c Hc). apply andb_true_iff in H. destruct H as [H1 H2].
      apply negb_true_iff in H1, H2. apply Ascii.eqb_neq in H1. split; [exact H1|]. intros I. 
      cbn in I. repeat destruct I as [<-|I]; try discriminate H2. contradiction. }
    destruct (set_bool_spec ci line q s1 "1" "" "1" true) as (t1 & X1 & W1);
     [right; split; [reflexivity|]; split; [reflexivity|]; eexists; split; [reflexivity|]; split; [discriminate|cbn; intuition discriminate]|
      apply closedb_ok; vm_compute; reflexivity|exact Hr|exact V1|].
    rewrite X1. clear X1. destruct (wspec ci (str "1") (str "") q) as [x|]; [rewrite !set_bool_done; exists t1; split; [reflexivity|exact W1]|].
    destruct (set_bool_spec ci line q t1 "0" "" "0" false) as (t2 & X2 & W2);
     [right; split; [reflexivity|]; split; [reflexivity|]; eexists; split; [reflexivity|]; split; [discriminate|cbn; intuition discriminate]|
      apply closedb_ok; vm_compute; reflexivity|exact Hr|exact W1|].
    rewrite X2. clear X2. destruct (wspec ci (str "0") (str "") q) as [x|]; [rewrite !set_bool_done; exists t2; split; [reflexivity|exact W2]|].
    destruct (set_bool_spec ci line q t2 "t" "rue" "t{rue}" true) as (t3 & X3 & W3);
     [left; split; [reflexivity|]; split; apply P; vm_compute; reflexivity|
      apply closedb_ok; vm_compute; reflexivity|exact Hr|exact W2|].
    rewrite X3. clear X3. destruct (wspec ci (str "t") (str "rue") q) as [x|]; [rewrite !set_bool_done; exists t3; split; [reflexivity|exact W3]|].
    destruct (set_bool_spec ci line q t3 "f" "alse" "f{alse}" false) as (t4 & X4 & W4);
     [left; split; [reflexivity|]; split; apply P; vm_compute; reflexivity|
      apply closedb_ok; vm_compute; reflexivity|exact Hr|exact W3|].
    rewrite X4. clear X4. destruct (wspec ci (str "f") (str "alse") q) as [x|]; [rewrite !set_bool_done; exists t4; split; [reflexivity|exact W4]|].
    destruct (set_bool_spec ci line q t4 "y" "es" "y{es}" true) as (t5 & X5 & W5);
     [left; split; [reflexivity|]; split; apply P; vm_compute; reflexivity|
      apply closedb_ok; vm_compute; reflexivity|exact Hr|exact W4|].
    rewrite X5. clear X5. destruct (wspec ci (str "y") (str "es") q) as [x|]; [rewrite !set_bool_done; exists t5; split; [reflexivity|exact W5]|].
    destruct (set_bool_spec ci line q t5 "n" "o" "n{o}" false) as (t6 & X6 & W6);
     [left; split; [reflexivity|]; split; apply P; vm_compute; reflexivity|
      apply closedb_ok; vm_compute; reflexivity|exact Hr|exact W5|].
    rewrite X6. clear X6. destruct (wspec ci (str "n") (str "o") q) as [x|]; [rewrite !set_bool_done; exists t6; split; [reflexivity|exact W6]|].
    destruct (set_bool_spec ci line q t6 "#t" "rue" "#t{rue}" true) as (t7 & X7 & W7);
     [left; split; [reflexivity|]; split; apply P; vm_compute; reflexivity|
      apply closedb_ok; vm_compute; reflexivity|exact Hr|exact W6|].
    rewrite X7. clear X7. destruct (wspec ci (str "#t") (str "rue") q) as [x|]; [rewrite !set_bool_done; exists t7; split; [reflexivity|exact W7]|].
    destruct (set_bool_spec ci line q t7 "#f" "alse" "#f{alse}" false) as (t8 & X8 & W8);
     [left; split; [reflexivity|]; split; apply P; vm_compute; reflexivity|
      apply closedb_ok; vm_compute; reflexivity|exact Hr|exact W7|].
    rewrite X8. clear X8. destruct (wspec ci (str "#f") (str "alse") q) as [x|]; exists t8; (split; [reflexivity|exact W8]). }
  destruct H as (s2 & E2 & V2). rewrite E2 in E0 |- *. cbn [bind] in E0 |- *.
  destruct (skipcom_vw _ _ _ V2) as (s3 & E3 & V3 & _). rewrite E3 in E0 |- *. cbn [bind] in E0 |- *. injection E0 as _ <-.
  eexists. split; [destruct (first_word ci bool_words q) as [[b x]|]; reflexivity|]. cbv zeta. split; [exact V3|].
  rewrite O0. f_equal. apply (after_vw line) in V0. apply (after_vw line) in V3. cbn [set_ok] in V0. 
  etransitivity; [symmetry; exact V0|]. exact V3.
Qed.

Lemma sameb_lower : forall ci k c, sameb ci k c = true -> to_lower k = to_lower c.
Proof. intros ci k c H. apply sameb_ok in H. destruct H as [->|[_ H]]; [reflexivity|exact H]. Qed.
Lemma words_disjoint : forall ci m o b r rest, In (m, o, b) bool_words -> word_at ci (str m) (str o) r rest ->
  wspec ci (str m) (str o) r = Some rest -> first_word ci bool_words r = Some (b, rest).
Proof.
  intros ci m o b r rest H _ Hw.
  assert (N : forall k c q, sameb ci k c = true -> forall d (m o : list ascii), to_lower c <> to_lower d -> wspec ci (d :: m) o (k :: q) = None).
  { intros k c q Hk d m' o' Hn. unfold wspec. cbn [eat_all]. destruct (sameb ci k d) eqn:E; [|reflexivity].
    exfalso. apply Hn. rewrite <- (sameb_lower _ _ _ Hk). now apply sameb_lower with ci. }
  assert (N2 : forall c d (m o : list ascii) q, to_lower c <> to_lower d -> forall k k1 c1, sameb ci k1 c1 = true -> sameb ci k c = true -> wspec ci (c1 :: d :: m) o (k1 :: k :: q) = None).
  { intros c d m' o' q Hn k k1 c1 Hk1 Hk. unfold wspec. cbn [eat_all]. rewrite Hk1. destruct (sameb ci k d) eqn:E; [|reflexivity].
    exfalso. apply Hn. rewrite <- (sameb_lower _ _ _ Hk). now apply sameb_lower with ci. }
  cbn in H.
  assert (D : forall c (m o : list ascii), wspec ci (c :: m) o r = Some rest -> exists k q, r = k :: q /\ sameb ci k c = true).
  { intros c m' o' X. unfold wspec in X. cbn [eat_all] in X. destruct r as [|k q]; [discriminate X|]. destruct (sameb ci k c) eqn:E; [|discriminate X]. now exists k, q. }
  unfold bool_words. cbn [first_word].
  repeat destruct H as [H|H]; try contradiction; injection H as <- <- <-; cbn [str list_ascii_of_string] in *;
    destruct (D _ _ _ Hw) as (k & q & -> & Hk);
    repeat (rewrite (N k _ q Hk) by (vm_compute; discriminate));
    try (rewrite Hw; reflexivity).
  (* "#f" after "#t" *)
  assert (X : exists k2 q2, q = k2 :: q2 /\ sameb ci k2 "f" = true).
  { unfold wspec in Hw. cbn [eat_all] in Hw. rewrite Hk in Hw. destruct q as [|k2 q2]; [discriminate Hw|].
    destruct (sameb ci k2 "f") eqn:E; [|discriminate Hw]. now exists k2, q2. }
  destruct X as (k2 & q2 & -> & Hk2). rewrite (N2 "f"%char "t"%char [] _ q2 ltac:(vm_compute; discriminate) k2 k _ Hk Hk2), Hw. reflexivity.
Qed.
Lemma bool_keyword : forall m o b, In (m, o, b) bool_words -> command_word (str m) (str o).
Proof.
  intros m o b H. cbn in H.
  repeat destruct H as [H|H]; try contradiction; injection H as <- <- <-; (split; [|reflexivity]); (split; [|split]);
   repeat (apply Forall_cons || apply Forall_nil);
   try (split; [discriminate|intros H; cbn in H; intuition discriminate]);
   intros d ci H W;
      (assert (A : isalpha d = true); [destruct H as [->|[_ H]]; [reflexivity|]; revert H; destruct d as [[] [] [] [] [] [] [] []]; vm_compute; intros H; (discriminate H || reflexivity)|]);
      clear H; revert A W; destruct d as [[] [] [] [] [] [] [] []]; intros A W; try discriminate A; cbn in W; destruct W as [W|[W|W]]; try discriminate W; intuition discriminate.
Qed.

(* a word of the table, possibly shortened, gives its meaning *)
Theorem C16_ctob_word : forall ci line s bl word rest m o b, on_line line s -> after s = bl ++ word -> Forall blank bl ->
  In (m, o, b) bool_words -> word_at ci (str m) (str o) word rest ->
  exists s' mid, ctob ci s = Some (b, s') /\ ok s' = true /\ on_line line s' /\ past_separators rest mid /\ past_separators mid (after s').
Proof.
  intros ci line s bl word rest m o b Hs Ha Bl Hi Hw. destruct (on_line_vw _ _ Hs) as (r & V). rewrite (after_vw _ _ _ V) in Ha.
  pose proof (bool_keyword m o b Hi) as K.
  assert (Ed : dropbl r = word).
  { rewrite Ha, dropbl_app by assumption. now apply word_at_visible with ci (str m) (str o) rest. }
  destruct (ctob_vw ci line r s V) as (s' & E & V' & O). rewrite Ed in *.
  rewrite (words_disjoint ci m o b word rest Hi Hw (wspec_complete _ _ _ _ _ (proj1 K) Hw)) in *. cbv zeta in *.
  assert (Hdd : dropcom (dropbl rest) = dropcom rest).
  { unfold dropcom, eat1b. f_equal. f_equal. apply drop_idem, dropbl_head. }
  exists s', (dropcom rest). split; [exact E|]. split; [|split; [|split]].
  - rewrite O, Hdd. unfold moved. apply negb_true_iff, Nat.eqb_neq.
    pose proof (suffix_len _ _ (suffix_eat1b fcomma rest)) as L1. fold dropcom in L1.
    pose proof (suffix_len _ _ (suffix_eat1b fcomma (dropcom rest))) as L2. fold dropcom in L2.
    destruct Hw as (m' & o1 & o2 & o1' & _ & Fm & _ & -> & _). rewrite !app_length. destruct K as [_ K].
    destruct Fm as [|k c ms ml Hk Fm]; [contradiction|]. cbn [List.length]. unfold dropcom in *. lia.
  - now apply vw_on_line with (1 := V').
  - apply dropcom_spec.
  - rewrite (after_vw _ _ _ V'), Hdd. apply dropcom_spec.
Qed.
Print Assumptions C16_ctob_word.

(* anything else is true; it is reported as read only if a comma was there to skip *)
Theorem C16_ctob_other : forall ci line s bl word, on_line line s -> after s = bl ++ word -> Forall blank bl -> ~ begins_blank word ->
  (forall m o b rest, In (m, o, b) bool_words -> ~ word_at ci (str m) (str o) word rest) ->
  exists s', ctob ci s = Some (true, s') /\ (ok s' = true <-> begins_comma word) /\ past_separators word (after s').
Proof.
  intros ci line s bl word Hs Ha Bl Nb Hn. destruct (on_line_vw _ _ Hs) as (r & V). rewrite (after_vw _ _ _ V) in Ha.
  assert (Ed : dropbl r = word).
  { rewrite Ha, dropbl_app by assumption. apply drop_idem. destruct word as [|c q]; [reflexivity|]. unfold head. cbn [hd].
    destruct (fblank c) eqn:E; [|reflexivity]. exfalso. apply Nb. now apply blank_fblank. }
  assert (Ew : dropbl word = word) by (rewrite <- Ed; apply drop_idem, dropbl_head).
  destruct (ctob_vw ci line r s V) as (s' & E & V' & O). rewrite Ed in *.
  assert (F : first_word ci bool_words word = None).
  { assert (G : forall t, (forall m o b rest, In (m, o, b) t -> ~ word_at ci (str m) (str o) word rest) -> first_word ci t word = None).
    { clear. induction t as [|[[m o] b] t IH]; intros H; [reflexivity|]. cbn [first_word].
      destruct (wspec ci (str m) (str o) word) as [x|] eqn:E.
      - exfalso. apply (H m o b x); [now left|]. now apply wspec_sound.
      - apply IH. intros m' o' b' rest I. apply H with b'. now right. }
    now apply G. }
  rewrite F in *. cbv zeta in *. exists s'. split; [exact E|]. split; [|rewrite (after_vw _ _ _ V'); apply dropcom_spec].
  rewrite O. unfold moved. rewrite negb_true_iff, Nat.eqb_neq. unfold dropcom, eat1b. rewrite Ew.
  destruct word as [|c q]; cbn [eat1].
  - cbn. split; [intros H; now elim H|intros []].
  - cbn [begins_comma]. destruct (fcomma c) eqn:Ec.
    + split; [intros _; apply in_set_In in Ec; destruct Ec as [<-|[]]; reflexivity|]. intros _ X.
      pose proof (suffix_len _ _ (suffix_drop fblank q)) as L. fold (dropbl q) in L. cbn [List.length] in X. lia.
    + rewrite Ew. split; [intros H; now elim H|]. intros ->. discriminate Ec.
Qed.
Print Assumptions C16_ctob_other.
Example C16_ctob_case : In ("f", "alse", false)%string bool_words /\ word_at true (str "f") (str "alse") (str "FAL)") (str ")") /\
  (let* (v, s) := ctob true (cs_string (str "  FAL)")) in Some (v, ok s, after s)) = Some (false, true, str ")") /\
  (let* (v, s) := ctob true (cs_string (str "  maybe")) in Some (v, ok s, after s)) = Some (true, false, str "maybe").
Proof.
  split; [cbn; auto 10|]. split.
  { exists (str "F"), (str "al"), (str "se"), (str "AL"). split; [reflexivity|].
    split; [repeat constructor; right; split; reflexivity|]. split; [repeat constructor; right; split; reflexivity|]. split; [reflexivity|].
    cbn. auto 10. }
  split; vm_compute; reflexivity.
Qed.
(* a boolean swallows two commas, not one, so an empty argument after it is lost *)
Theorem C16_ctob_second_comma_refuted : exists s', ctob true (cs_string (str "1,,2")) = Some (true, s') /\ after s' = str "2".
Proof. eexists. split; vm_compute; reflexivity. Qed.
Print Assumptions C16_ctob_second_comma_refuted.
