(* C14: the command scanner stays on its line *)
Require Import ZArith QArith List Ascii String Bool Lia.
Require Import ZifyBool.
Require Import Verif.Loops Verif.Wmatch_Model Verif.CS_Model Verif.CS_Proofs Verif.CS_Ops Verif.CS_Float.
Import ListNotations.
Local Open Scope Z_scope.

(* ---- vocabulary of the statements ---- *)

(* the scanner is on this line and its cursor is inside it (the end included) *)
Definition on_line (line : list ascii) (s : cs) : Prop :=
  cmd s = line /\ len s = Z.of_nat (List.length line) /\ 0 <= cnt s <= Z.of_nat (List.length line).

(* every scanner call; the last two are the guarded single steps callers use, and going back to a
   saved position *)
Inductive op :=
| Skipbl | Skip1c (c : ascii) | Skip1 (t : list ascii) | Skip1bc (c : ascii) | Skip1b (t : list ascii)
| Skipcom | More | Skiparg | Skipto1 (t : list ascii) | Skipto1c (c : ascii)
| Umatch (p : list ascii) | Scan (p : list ascii)
| Ctostr (n : nat) (t : list ascii) | Ctos (t b e : list ascii) | Get_to (t : list ascii)
| Ctob | Ctoi | Ctou | Ctoo | Ctox | Ctof
| Skip_if_more | Ctoc_if_more | Reset (c : Z).

Definition snd' {T} (x : option (T * cs)) : option cs := let* (_, s) := x in Some s.
Definition run (ci : bool) (u : units) (o : op) (s : cs) : option cs :=
  match o with
  | Skipbl => skipbl s | Skip1c c => skip1c c s | Skip1 t => skip1 t s | Skip1bc c => skip1bc c s | Skip1b t => skip1b t s
  | Skipcom => skipcom s | More => snd' (more s) | Skiparg => skiparg s | Skipto1 t => skipto1 t s | Skipto1c c => skipto1c c s
  | Umatch p => umatch ci p s | Scan p => scan ci p s
  | Ctostr n t => snd' (ctostr n t s) | Ctos t b e => snd' (ctos t b e s) | Get_to t => snd' (get_to t s)
  | Ctob => snd' (ctob ci s) | Ctoi => snd' (ctoi s) | Ctou => snd' (ctou s) | Ctoo => snd' (ctoo s) | Ctox => snd' (ctox s)
  | Ctof => snd' (ctof u s)
  | Skip_if_more => let* m := ns_more s in Some (if m then skip s else s)
  | Ctoc_if_more => let* m := ns_more s in if m then snd' (ctoc s) else Some s
  | Reset c => Some (reset c s)
  end.
Fixpoint run_all (ci : bool) (u : units) (os : list op) (s : cs) : option cs :=
  match os with [] => Some s | o :: os' => let* s' := run ci u o s in run_all ci u os' s' end.

(* the number a run of digits denotes *)
Definition number (base : Z) (val : ascii -> Z) (l : list ascii) : Z := fold_left (fun v c => base * v + val c) l 0.
Definition hexval (c : ascii) : Z := if isdigit c then code c - 48 else code (to_lower c) - 87.
(* no run of digits on the line exceeds an int *)
Definition fits (base : Z) (set : string) (val : ascii -> Z) (line : list ascii) : Prop :=
  forall a b c, line = a ++ b ++ c -> Forall (fun x => In x (str set)) b -> number base val b <= 2147483647.

(* what the caller has to observe *)
Definition op_ok (line : list ascii) (o : op) : Prop :=
  match o with
  | Skip1c c | Skip1bc c => c <> NUL
  | Umatch p | Scan p => closed p
  | Ctos _ b e => List.length b = List.length e /\ ~ In NUL e
  | Ctoi | Ctof => fits 10 "0123456789" (fun c => code c - 48) line
  | Ctoo => fits 8 "0123456789" (fun c => code c - 48) line
  | Ctox => fits 16 "0123456789abcdefABCDEF" hexval line
  | Reset c => 0 <= c <= Z.of_nat (List.length line)
  | _ => True
  end.

(* ---- proofs ---- *)
Lemma on_line_vw : forall line s, on_line line s -> exists r, vw line r s.
Proof.
  intros line s (H1 & H2 & H3). exists (skipn (Z.to_nat (cnt s)) line). split; [assumption|]. split; [assumption|].
  exists (firstn (Z.to_nat (cnt s)) line). split; [symmetry; apply firstn_skipn|]. rewrite firstn_length. lia.
Qed.
Lemma vw_on_line : forall line r s, vw line r s -> on_line line s.
Proof. intros line r s V. pose proof (vw_cnt _ _ _ V). pose proof (vw_le _ _ _ V). destruct V as (A & B & _). repeat split; try assumption; lia. Qed.

Lemma in_set_In : forall t c, in_set t c = true -> In c t.
Proof.
  intros t c H. apply andb_true_iff in H. destruct H as [_ H]. apply existsb_exists in H. destruct H as (x & Hx & E).
  apply Ascii.eqb_eq in E. now subst x.
Qed.

Lemma digit_range : forall c, In c (str "0123456789") -> 0 <= dig c <= 9.
Proof. intros c H. cbn in H. repeat destruct H as [<-|H]; try (vm_compute; split; discriminate). contradiction. Qed.
Lemma hex_range : forall c, In c (str "0123456789abcdefABCDEF") -> 0 <= hexval c <= 15.
Proof. intros c H. cbn in H. repeat destruct H as [<-|H]; try (vm_compute; split; discriminate). contradiction. Qed.

Lemma number_app : forall base val l v, fold_left (fun v c => base * v + val c) l v = v * base ^ Z.of_nat (List.length l) + number base val l.
Proof.
  intros base val l. induction l as [|c l IH]; intros v.
  - cbn. unfold number. cbn. lia.
  - cbn [fold_left List.length]. unfold number. cbn [fold_left]. rewrite IH. rewrite (IH (base * 0 + val c)).
    rewrite Nat2Z.inj_succ, Z.pow_succ_r by lia. nia.
Qed.
Lemma number_nonneg : forall base val l, 0 <= base -> (forall c, In c l -> 0 <= val c) -> 0 <= number base val l.
Proof.
  intros base val l Hb. unfold number. assert (G : forall v, 0 <= v -> (forall c, In c l -> 0 <= val c) -> 0 <= fold_left (fun v c => base * v + val c) l v).
  { induction l as [|c l IH]; intros v Hv H; [assumption|]. cbn. apply IH; [|intros; apply H; now right].
    specialize (H c (or_introl eq_refl)). nia. }
  intros H. apply G; [lia|assumption].
Qed.

(* digit loops do not overflow when the whole number fits *)
Lemma foldo_fits : forall base val g, 1 <= base ->
  (forall v c, 0 <= v -> 0 <= val c -> base * v + val c <= INT_MAX -> g v c = Some (base * v + val c)) ->
  forall l v, 0 <= v -> (forall c, In c l -> 0 <= val c) ->
  fold_left (fun v c => base * v + val c) l v <= INT_MAX ->
  foldo g v l = Some (fold_left (fun v c => base * v + val c) l v).
Proof.
  intros base val g Hb Hg l. induction l as [|c l IH]; intros v Hv Hl Hf; [reflexivity|].
  cbn [foldo fold_left] in *. assert (Hc : 0 <= val c) by (apply Hl; now left).
  assert (Hm : base * v + val c <= INT_MAX).
  { rewrite number_app in Hf. assert (0 <= number base val l) by (apply number_nonneg; [lia|intros; apply Hl; now right]).
    assert (1 <= base ^ Z.of_nat (List.length l)) by (assert (0 < base ^ Z.of_nat (List.length l)) by (apply Z.pow_pos_nonneg; lia); lia). nia. }
  rewrite Hg by assumption. cbn [bind]. apply IH; [nia|intros; apply Hl; now right|assumption].
Qed.
Lemma int_digit_ok : forall base v c, 0 <= base -> 0 <= v -> 0 <= dig c -> base * v + dig c <= INT_MAX ->
  int_digit base v c = Some (base * v + dig c).
Proof.
  intros base v c Hb Hv Hc H. unfold int_digit, int_chk, INT_MIN. assert (0 <= base * v) by nia.
  destruct ((-2147483648 <=? base * v) && (base * v <=? INT_MAX)) eqn:E1; [|unfold INT_MAX in *; lia]. cbn [bind].
  destruct ((-2147483648 <=? base * v + dig c) && (base * v + dig c <=? INT_MAX)) eqn:E2; [reflexivity|unfold INT_MAX in *; lia].
Qed.
Lemma hex_digit_ok : forall v c, 0 <= v -> 0 <= hexval c -> 16 * v + hexval c <= INT_MAX ->
  hex_digit v c = Some (16 * v + hexval c).
Proof.
  intros v c Hv Hc H. unfold hex_digit, int_chk, INT_MIN.
  destruct ((-2147483648 <=? 16 * v) && (16 * v <=? INT_MAX)) eqn:E1; [|unfold INT_MAX in *; lia]. cbn [bind].
  replace (if isdigit c then dig c else code (to_lower c) - 97 + 10) with (hexval c) by (unfold hexval, dig; destruct (isdigit c); lia).
  destruct ((-2147483648 <=? 16 * v + hexval c) && (16 * v + hexval c <=? INT_MAX)) eqn:E2; [reflexivity|unfold INT_MAX in *; lia].
Qed.

Lemma fits_dec : forall base line r r', 1 <= base -> vw line r r' -> fits base "0123456789" (fun c => code c - 48) line ->
  forall r2, suffix r2 r -> exists v, foldo (int_digit base) 0 (take_while fdigit r2) = Some v /\ 0 <= v <= INT_MAX.
Proof.
  intros base line r s Hb V Hf r2 [a Ea]. destruct V as (_ & _ & pre & Ep & _).
  assert (All : Forall (fun x => In x (str "0123456789")) (take_while fdigit r2)).
  { eapply Forall_impl; [|apply take_all]. intros x Hx. now apply in_set_In. }
  assert (L : number base (fun c => code c - 48) (take_while fdigit r2) <= INT_MAX).
  { apply (Hf (pre ++ a) _ (drop_while fdigit r2)); [|assumption]. rewrite take_drop, <- app_assoc, <- Ea. exact Ep. }
  assert (P : forall c, In c (take_while fdigit r2) -> 0 <= dig c).
  { intros c Hc. rewrite Forall_forall in All. apply All in Hc. now apply digit_range. }
  exists (number base dig (take_while fdigit r2)). split.
  - apply (foldo_fits base dig); [lia| |lia|assumption|exact L]. intros. apply int_digit_ok; lia.
  - split; [apply number_nonneg; [lia|assumption]|exact L].
Qed.
Lemma fits_hex : forall line r r', vw line r r' -> fits 16 "0123456789abcdefABCDEF" hexval line ->
  forall r2, suffix r2 r -> exists v, foldo hex_digit 0 (take_while fxdigit r2) = Some v.
Proof.
  intros line r s V Hf r2 [a Ea]. destruct V as (_ & _ & pre & Ep & _).
  assert (All : Forall (fun x => In x (str "0123456789abcdefABCDEF")) (take_while fxdigit r2)).
  { eapply Forall_impl; [|apply take_all]. intros x Hx. now apply in_set_In. }
  assert (L : number 16 hexval (take_while fxdigit r2) <= INT_MAX).
  { apply (Hf (pre ++ a) _ (drop_while fxdigit r2)); [|assumption]. rewrite take_drop, <- app_assoc, <- Ea. exact Ep. }
  assert (P : forall c, In c (take_while fxdigit r2) -> 0 <= hexval c).
  { intros c Hc. rewrite Forall_forall in All. apply All in Hc. now apply hex_range. }
  exists (number 16 hexval (take_while fxdigit r2)). apply (foldo_fits 16 hexval); [lia| |lia|assumption|exact L]. intros. apply hex_digit_ok; lia.
Qed.
Lemma int_chk_sign : forall v (b : bool), 0 <= v <= INT_MAX -> int_chk (v * (if b then -1 else 1)) = Some (v * (if b then -1 else 1)).
Proof.
  intros v b H. unfold int_chk, INT_MIN, INT_MAX in *.
  destruct b; match goal with |- (if ?x then _ else _) = _ => destruct x eqn:E; [reflexivity|lia] end.
Qed.

(* a decision procedure for closed *)
Fixpoint aheadb (p : list ascii) : bool :=
  match p with [] => false | c :: p' => if Ascii.eqb c "}" then true else negb (Ascii.eqb c "\") && aheadb p' end.
Fixpoint closedb (p : list ascii) : bool :=
  match p with [] => true | c :: p' => negb (Ascii.eqb c NUL) && (if Ascii.eqb c "{" then aheadb p' else true) && closedb p' end.
Lemma aheadb_ok : forall p, aheadb p = true -> brace_ahead p.
Proof.
  induction p as [|c p IH]; intros H; [discriminate H|]. cbn in H. destruct (Ascii.eqb_spec c "}") as [->|N].
  - exists [], p. split; [reflexivity|intros []].
  - apply andb_true_iff in H. destruct H as [H1 H2]. destruct (IH H2) as (a & d & -> & X). exists (c :: a), d. split; [reflexivity|].
    intros [E|E]; [subst c; discriminate H1|now apply X].
Qed.
Lemma closedb_ok : forall p, closedb p = true -> closed p.
Proof.
  induction p as [|c p IH]; intros H.
  - split; [intros []|]. intros a b E. destruct a; discriminate E.
  - cbn in H. apply andb_true_iff in H. destruct H as [H H3]. apply andb_true_iff in H. destruct H as [H1 H2].
    destruct (IH H3) as [A B]. split.
    + intros [E|E]; [subst c; discriminate H1|now apply A].
    + intros a b E. destruct a as [|x a]; cbn in E; injection E as E1 E2.
      * subst. apply aheadb_ok. exact H2.
      * now apply B with a.
Qed.

Lemma set_bool_safe : forall ci key v line r x, closed (str key ++ [" "%char]) ->
  (exists got s r', x = Some (got, s) /\ vw line r' s /\ suffix r' r) ->
  exists got s r', set_bool ci key v x = Some (got, s) /\ vw line r' s /\ suffix r' r.
Proof.
  intros ci key v line r x Hc (got & s & r' & -> & V & S). unfold set_bool. cbn [bind]. destruct got as [b|].
  - now exists (Some b), s, r'.
  - destruct (umatch_safe ci _ _ _ _ Hc V) as (s1 & r1 & E1 & V1 & S1 & _). inb E1.
    eexists _, s1, r1. split; [reflexivity|]. split; [assumption|]. now apply suffix_trans with r'.
Qed.
Lemma ctob_safe : forall ci line r s, vw line r s ->
  exists b s' r', ctob ci s = Some (b, s') /\ vw line r' s' /\ suffix r' (dropbl r) /\ ok s' = moved r' (dropbl r).
Proof.
  intros ci line r s V. unfold ctob. destruct (skipbl_vw _ _ _ V) as (s1 & E1 & V1 & _). inb E1.
  match goal with |- context [bind ?x _] => set (X := x) end.
  assert (HX : exists got s2 r2, X = Some (got, s2) /\ vw line r2 s2 /\ suffix r2 (dropbl r)).
  { unfold X. repeat (apply set_bool_safe; [apply closedb_ok; vm_compute; reflexivity|]).
    exists None, s1, (dropbl r). split; [reflexivity|]. split; [assumption|apply suffix_refl]. }
  destruct HX as (got & s2 & r2 & E2 & V2 & S2). rewrite E2. cbn [bind].
  destruct (skipcom_vw _ _ _ V2) as (s3 & E3 & V3 & _). inb E3.
  assert (S3 : suffix (dropcom r2) (dropbl r)) by (eapply suffix_trans; [apply suffix_eat1b|assumption]).
  eexists _, _, _. split; [reflexivity|]. split; [exact V3|]. split; [exact S3|]. cbn [ok set_ok]. now apply moved_vw with line.
Qed.

Lemma run_vw : forall ci u line o r s, op_ok line o -> vw line r s ->
  exists s' r', run ci u o s = Some s' /\ vw line r' s' /\ ((forall c, o <> Reset c) -> suffix r' r).
Proof.
  intros ci u line o r s Ho V.
  assert (Bl : suffix (dropbl r) r) by apply suffix_drop.
  destruct o; cbn [run op_ok] in *; unfold snd'.
  - destruct (skipbl_vw _ _ _ V) as (s1 & E1 & V1 & _). exists s1, (dropbl r). auto.
  - destruct (skip1c_vw _ _ _ c Ho V) as (s1 & E1 & V1 & _). eexists _, _. split; [exact E1|]. split; [exact V1|]. intros _. apply suffix_eat1.
  - destruct (skip1_vw _ _ _ t V) as (s1 & E1 & V1 & _). eexists _, _. split; [exact E1|]. split; [exact V1|]. intros _. apply suffix_eat1.
  - destruct (skip1bc_vw _ _ _ c Ho V) as (s1 & E1 & V1 & _). eexists _, _. split; [exact E1|]. split; [exact V1|]. intros _. apply suffix_eat1b.
  - destruct (skip1b_vw _ _ _ t V) as (s1 & E1 & V1 & _). eexists _, _. split; [exact E1|]. split; [exact V1|]. intros _. apply suffix_eat1b.
  - destruct (skipcom_vw _ _ _ V) as (s1 & E1 & V1 & _). eexists _, _. split; [exact E1|]. split; [exact V1|]. intros _. apply suffix_eat1b.
  - destruct (more_vw _ _ _ V) as (s1 & E1 & V1 & _). inb E1. exists s1, (dropbl r). auto.
  - destruct (skiparg_vw _ _ _ V) as (s1 & r1 & E1 & V1 & S1 & _). exists s1, r1. auto.
  - destruct (skipto1_vw _ _ _ t V) as (s1 & r1 & E1 & V1 & S1 & _). exists s1, r1. auto.
  - destruct (skipto1c_vw _ _ _ c V) as (s1 & r1 & E1 & V1 & S1 & _). exists s1, r1. auto.
  - destruct (umatch_safe ci _ _ _ p Ho V) as (s1 & r1 & E1 & V1 & S1 & _). exists s1, r1. auto.
  - destruct (scan_safe ci _ _ _ p Ho V) as (s1 & r1 & E1 & V1 & S1 & _). exists s1, r1. auto.
  - destruct (ctostr_vw _ t n _ _ V) as (d & s1 & r1 & E1 & V1 & S1 & _). inb E1. exists s1, r1. auto.
  - destruct (ctos_safe _ _ _ t b e (proj1 Ho) (proj2 Ho) V) as (d & s1 & r1 & E1 & V1 & S1). inb E1. exists s1, r1. auto.
  - destruct (get_to_vw _ _ _ t V) as (s1 & E1 & V1). inb E1. eexists _, _. split; [reflexivity|]. split; [exact V1|]. intros _. apply suffix_drop.
  - destruct (ctob_safe ci _ _ _ V) as (b & s1 & r1 & E1 & V1 & S1 & _). inb E1. exists s1, r1. split; [reflexivity|]. split; [assumption|].
    intros _. now apply suffix_trans with (dropbl r).
  - destruct (fits_dec 10 _ _ _ ltac:(lia) V Ho (dropsign (dropbl r))) as (v & Ev & Rv); [eapply suffix_trans; [apply suffix_sign|exact Bl]|].
    destruct (ctoi_vw _ _ _ _ _ V Ev (int_chk_sign _ _ Rv)) as (s1 & E1 & V1 & _). inb E1. eexists _, _. split; [reflexivity|]. split; [exact V1|].
    intros _. eapply suffix_trans; [apply suffix_int_rest|exact Bl].
  - destruct (ctou_vw _ _ _ V) as (s1 & E1 & V1 & _). inb E1. eexists _, _. split; [reflexivity|]. split; [exact V1|].
    intros _. eapply suffix_trans; [apply suffix_uns_rest|exact Bl].
  - destruct (fits_dec 8 _ _ _ ltac:(lia) V Ho (dropbl r) Bl) as (v & Ev & Rv).
    destruct (ctoo_vw _ _ _ _ V Ev) as (s1 & E1 & V1 & _). inb E1. eexists _, _. split; [reflexivity|]. split; [exact V1|].
    intros _. eapply suffix_trans; [apply suffix_uns_rest|exact Bl].
  - destruct (fits_hex _ _ _ V Ho (dropbl r) Bl) as (v & Ev).
    destruct (ctox_vw _ _ _ _ V Ev) as (s1 & E1 & V1 & _). inb E1. eexists _, _. split; [reflexivity|]. split; [exact V1|].
    intros _. eapply suffix_trans; [apply suffix_uns_rest|exact Bl].
  - destruct (ffloat (head (dropbl r))) eqn:Ef.
    + set (r3 := drop_while fdigit (eat1 fdot (drop_while fdigit (dropsign (dropbl r))))).
      assert (S3 : suffix r3 r).
      { eapply suffix_trans; [apply suffix_drop|]. eapply suffix_trans; [apply suffix_eat1|].
        eapply suffix_trans; [apply suffix_drop|]. eapply suffix_trans; [apply suffix_sign|exact Bl]. }
      assert (T : exists q r5, scale_of u r3 = Some (q, r5)).
      { unfold scale_of. destruct (in_set (str "eE") (head r3)).
        - destruct (fits_dec 10 _ _ _ ltac:(lia) V Ho (dropsign (tl r3))) as (v & Ev & Rv).
          { eapply suffix_trans; [apply suffix_sign|]. eapply suffix_trans; [apply suffix_tl|exact S3]. }
          cbv zeta. rewrite Ev. cbn [bind]. eauto.
        - destruct u; [eauto|]. destruct (in_set (str "mM") (head r3)); [|eauto]. cbv zeta.
          destruct (in_set (str "eE") (head (tl r3))); [eauto|]. destruct (in_set (str "iI") (head (tl r3))); eauto. }
      destruct T as (q & r5 & Et). destruct (ctof_vw _ u _ _ q r5 V Ef Et) as (s1 & E1 & V1 & _). inb E1.
      eexists _, _. split; [reflexivity|]. split; [exact V1|]. intros _.
      eapply suffix_trans; [apply suffix_eat1b|]. eapply suffix_trans; [apply suffix_drop|].
      eapply suffix_trans; [|exact S3]. eapply scale_suffix. exact Et.
    + destruct (ctof_no _ u _ _ V Ef) as (s1 & E1 & V1 & _). inb E1. eexists _, _. split; [reflexivity|]. split; [exact V1|].
      intros _. eapply suffix_trans; [apply suffix_eat1b|exact Bl].
  - inb (ns_more_vw _ _ _ V). destruct (Ascii.eqb_spec (head r) NUL) as [E|N]; cbn [negb].
    + exists s, r. split; [reflexivity|]. split; [assumption|]. intros _. apply suffix_refl.
    + destruct (head_cons _ N) as (c & q & -> & _). exists (skip s), q. split; [reflexivity|]. split; [now apply (skip_vw _ _ _ _ V)|].
      intros _. now exists [c].
  - inb (ns_more_vw _ _ _ V). destruct (Ascii.eqb_spec (head r) NUL) as [E|N]; cbn [negb].
    + exists s, r. split; [reflexivity|]. split; [assumption|]. intros _. apply suffix_refl.
    + destruct (head_cons _ N) as (c & q & -> & _). destruct (ctoc_vw _ _ _ _ V) as (s1 & E1 & V1 & _). inb E1.
      exists s1, q. split; [reflexivity|]. split; [assumption|]. intros _. now exists [c].
  - destruct (on_line_vw line (reset c s)) as (r' & V').
    { destruct V as (A & B & _). repeat split; try assumption; cbn; lia. }
    exists (reset c s), r'. split; [reflexivity|]. split; [exact V'|]. intros X. now elim (X c).
Qed.

Lemma run_all_vw : forall ci u line os r s, Forall (op_ok line) os -> vw line r s ->
  exists s' r', run_all ci u os s = Some s' /\ vw line r' s'.
Proof.
  intros ci u line os. induction os as [|o os IH]; intros r s H V; [exists s, r; auto|].
  inversion H; subst. destruct (run_vw ci u line o r s) as (s1 & r1 & E1 & V1 & _); try assumption.
  cbn [run_all]. inb E1. now apply IH with r1.
Qed.

(* ---- the theorems ---- *)

(* any sequence of calls on any line: defined (no read outside the text, no endless loop, no failed
   assertion), and the cursor stays on the line *)
Theorem C14_cursor_stays_on_line : forall ci u line os, Forall (op_ok line) os ->
  exists s', run_all ci u os (cs_string line) = Some s' /\ on_line line s'.
Proof.
  intros ci u line os H. destruct (run_all_vw ci u line os line (cs_string line) H (vw_start line)) as (s' & r' & E & V).
  exists s'. split; [assumption|]. now apply vw_on_line with r'.
Qed.
Print Assumptions C14_cursor_stays_on_line.

(* no call except reset moves the cursor back *)
Theorem C14_never_backwards : forall ci u line o s, op_ok line o -> (forall c, o <> Reset c) -> on_line line s ->
  exists s', run ci u o s = Some s' /\ on_line line s' /\ cnt s <= cnt s'.
Proof.
  intros ci u line o s Ho Hr Hs. destruct (on_line_vw _ _ Hs) as (r & V).
  destruct (run_vw ci u line o r s Ho V) as (s' & r' & E & V' & S). exists s'. split; [exact E|]. split; [now apply vw_on_line with r'|].
  rewrite (vw_cnt _ _ _ V), (vw_cnt _ _ _ V'). specialize (S Hr). apply suffix_len in S. lia.
Qed.
Print Assumptions C14_never_backwards.

(* matching calls that report failure consume nothing *)
Definition matching (o : op) : Prop :=
  match o with Umatch _ | Scan _ | Skip1 _ | Skip1c _ | Skiparg => True | _ => False end.
Theorem C14_failed_match_consumes_nothing : forall ci u line o s s', op_ok line o -> matching o -> on_line line s ->
  run ci u o s = Some s' -> ok s' = false -> cnt s' = cnt s.
Proof.
  intros ci u line o s s' Ho Hm Hs E F. destruct (on_line_vw _ _ Hs) as (r & V).
  destruct o; try contradiction; cbn [run op_ok] in *.
  - destruct (skip1c_vw _ _ _ c Ho V) as (s1 & E1 & V1 & O1 & _ & F1). rewrite E in E1. injection E1 as <-.
    rewrite F in O1. rewrite (F1 (eq_sym O1)). reflexivity.
  - destruct (skip1_vw _ _ _ t V) as (s1 & E1 & V1 & O1 & _ & F1). rewrite E in E1. injection E1 as <-.
    rewrite F in O1. rewrite (F1 (eq_sym O1)). reflexivity.
  - destruct (skiparg_vw _ _ _ V) as (s1 & r1 & E1 & V1 & S1 & O1 & _). rewrite E in E1. injection E1 as <-.
    rewrite F in O1. apply (vw_same_cnt _ _ _ _ _ V V1). apply suffix_same; [assumption|].
    destruct (Nat.eqb_spec (List.length r1) (List.length r)); [assumption|discriminate O1].
  - destruct (umatch_safe ci _ _ _ p Ho V) as (s1 & r1 & E1 & V1 & _ & F1). rewrite E in E1. injection E1 as <-.
    apply (vw_same_cnt _ _ _ _ _ V V1). now apply F1.
  - destruct (scan_safe ci _ _ _ p Ho V) as (s1 & r1 & E1 & V1 & _ & F1). rewrite E in E1. injection E1 as <-.
    apply (vw_same_cnt _ _ _ _ _ V V1). now apply F1.
Qed.
Print Assumptions C14_failed_match_consumes_nothing.

(* the calls that skip blanks first, when they fail, have skipped exactly the blanks: everything
   passed over is blank and the cursor is on a non-blank or at the end *)
Definition blank_first (o : op) : Prop :=
  match o with Skip1b _ | Skip1bc _ | Skipcom | Ctob | Ctoi | Ctou | Ctoo | Ctox => True | _ => False end.
Definition blank (c : ascii) : Prop := c <> NUL /\ isgraph c = false.
Theorem C14_failed_conversion_skips_blanks : forall ci u line o s s', op_ok line o -> blank_first o -> on_line line s ->
  run ci u o s = Some s' -> ok s' = false ->
  exists a b c, line = a ++ b ++ c /\ cnt s = Z.of_nat (List.length a) /\ cnt s' = Z.of_nat (List.length (a ++ b)) /\
    Forall blank b /\ (match c with [] => True | x :: _ => ~ blank x end).
Proof.
  intros ci u line o s s' Ho Hm Hs E F. destruct (on_line_vw _ _ Hs) as (r & V).
  assert (Fin : vw line (dropbl r) s' -> exists a b c, line = a ++ b ++ c /\ cnt s = Z.of_nat (List.length a) /\ cnt s' = Z.of_nat (List.length (a ++ b)) /\
    Forall blank b /\ (match c with [] => True | x :: _ => ~ blank x end)).
  { intros V'. destruct V as (A & B & pre & Ep & Ec). exists pre, (take_while fblank r), (dropbl r).
    assert (El : line = pre ++ take_while fblank r ++ dropbl r) by (unfold dropbl; rewrite take_drop; exact Ep).
    split; [exact El|]. split; [exact Ec|]. split.
    - rewrite (vw_cnt _ _ _ V'). rewrite El at 1. rewrite !app_length. lia.
    - split.
      + eapply Forall_impl; [|apply take_all]. intros x Hx. apply andb_true_iff in Hx. destruct Hx as [H1 H2]. split.
        * intros ->. discriminate H1.
        * now destruct (isgraph x).
      + pose proof (dropbl_head r) as D. destruct (dropbl r) as [|x q]; [exact I|]. unfold head in D. cbn in D. intros [H1 H2].
        unfold fblank in D. rewrite H2 in D. destruct (Ascii.eqb_spec x NUL); [contradiction|discriminate D]. }
  assert (Mv : forall r1, suffix r1 (dropbl r) -> moved r1 (dropbl r) = false -> r1 = dropbl r).
  { intros r1 S M. apply suffix_same; [assumption|]. unfold moved in M. destruct (Nat.eqb_spec (List.length r1) (List.length (dropbl r))); [assumption|discriminate M]. }
  assert (B1 : forall f, f NUL = false -> f (head (dropbl r)) = false -> eat1b f r = dropbl r).
  { intros f Hn H. unfold eat1b. rewrite eat1_id by assumption. unfold dropbl at 1. apply drop_idem. apply dropbl_head. }
  destruct o; try contradiction; cbn [run op_ok] in *; unfold snd' in E; apply Fin.
  - destruct (skip1bc_vw _ _ _ c Ho V) as (s1 & E1 & V1 & _ & O1). rewrite E in E1. injection E1 as <-. rewrite F in O1.
    rewrite B1 in V1; [exact V1| |now symmetry]. destruct (Ascii.eqb_spec NUL c); [now elim Ho|reflexivity].
  - destruct (skip1b_vw _ _ _ t V) as (s1 & E1 & V1 & _ & O1). rewrite E in E1. injection E1 as <-. rewrite F in O1.
    rewrite B1 in V1; [exact V1|reflexivity|now symmetry].
  - destruct (skipcom_vw _ _ _ V) as (s1 & E1 & V1 & _ & O1). rewrite E in E1. injection E1 as <-. rewrite F in O1.
    unfold dropcom in V1. rewrite B1 in V1; [exact V1|reflexivity|now symmetry].
  - destruct (ctob_safe ci _ _ _ V) as (b & s1 & r1 & E1 & V1 & S1 & O1). revert E. inb E1. intros E. injection E as <-. rewrite F in O1.
    rewrite (Mv r1 S1 (eq_sym O1)) in V1. exact V1.
  - destruct (fits_dec 10 _ _ _ ltac:(lia) V Ho (dropsign (dropbl r))) as (v & Ev & Rv); [eapply suffix_trans; [apply suffix_sign|apply suffix_drop]|].
    destruct (ctoi_vw _ _ _ _ _ V Ev (int_chk_sign _ _ Rv)) as (s1 & E1 & V1 & O1). revert E. inb E1. intros E. injection E as <-. rewrite F in O1.
    rewrite (Mv _ (suffix_int_rest r) (eq_sym O1)) in V1. exact V1.
  - destruct (ctou_vw _ _ _ V) as (s1 & E1 & V1 & O1). revert E. inb E1. intros E. injection E as <-. rewrite F in O1.
    rewrite (Mv _ (suffix_uns_rest _ r) (eq_sym O1)) in V1. exact V1.
  - destruct (fits_dec 8 _ _ _ ltac:(lia) V Ho (dropbl r) (suffix_drop _ _)) as (v & Ev & Rv).
    destruct (ctoo_vw _ _ _ _ V Ev) as (s1 & E1 & V1 & O1). revert E. inb E1. intros E. injection E as <-. rewrite F in O1.
    rewrite (Mv _ (suffix_uns_rest _ r) (eq_sym O1)) in V1. exact V1.
  - destruct (fits_hex _ _ _ V Ho (dropbl r) (suffix_drop _ _)) as (v & Ev).
    destruct (ctox_vw _ _ _ _ V Ev) as (s1 & E1 & V1 & O1). revert E. inb E1. intros E. injection E as <-. rewrite F in O1.
    rewrite (Mv _ (suffix_uns_rest _ r) (eq_sym O1)) in V1. exact V1.
Qed.
Print Assumptions C14_failed_conversion_skips_blanks.

(* a line and a sequence of calls meeting the hypotheses, with both outcomes *)
Lemma short_fits : forall line, (List.length line <= 9)%nat -> fits 10 "0123456789" (fun c => code c - 48) line.
Proof.
  intros line L a b c E H. assert (Lb : (List.length b <= 9)%nat) by (rewrite E, !app_length in L; lia). clear E L.
  assert (B : number 10 (fun c => code c - 48) b <= 10 ^ Z.of_nat (List.length b) - 1).
  { clear Lb. induction H as [|x l Hx Hl IH]; [vm_compute; discriminate|]. unfold number. cbn [fold_left List.length]. rewrite number_app.
    apply digit_range in Hx. unfold dig in Hx. rewrite Nat2Z.inj_succ, Z.pow_succ_r by lia. nia. }
  assert (10 ^ Z.of_nat (List.length b) <= 10 ^ 9) by (apply Z.pow_le_mono_r; lia). lia.
Qed.
Definition demo_line := str " tr 10u,z".
Definition demo_ops := [Umatch (str "op "); Umatch (str "tr{ansient} |tran "); Ctof; Skip1c "x"%char; Skip1bc "z"%char; Ctou; Skiparg].
Example C14_case : Forall (op_ok demo_line) demo_ops /\
  (let* s := run_all true uSPICE demo_ops (cs_string demo_line) in Some (cnt s)) = Some 9 /\
  (let* s := run true uSPICE (Umatch (str "op ")) (cs_string demo_line) in Some (ok s, cnt s)) = Some (false, 0) /\
  (let* s := run true uSPICE Ctou (cs_string demo_line) in Some (ok s, cnt s)) = Some (false, 1).
Proof.
  split; [|repeat split; vm_compute; reflexivity].
  repeat apply Forall_cons; try apply Forall_nil; cbn [op_ok]; try exact I; try discriminate; try (apply closedb_ok; reflexivity).
  apply short_fits. vm_compute. lia.
Qed.

(* ---- where the claim fails ---- *)

(* CS::check on a comment that is all there is leaves the cursor beyond the text; any later read is
   outside the string *)
Theorem C14_check_leaves_the_line_refuted : exists line s', on_line line (cs_string line) /\
  check true (cs_string line) = Some s' /\ ~ on_line line s' /\ peek s' = None.
Proof.
  exists (str "//"). eexists. split; [repeat split; vm_compute; congruence|]. split; [vm_compute; reflexivity|].
  split; [|reflexivity]. intros (_ & _ & H). vm_compute in H. destruct H as [_ H]. now elim H.
Qed.
Print Assumptions C14_check_leaves_the_line_refuted.

(* ctof on something that is not a number reports failure but swallows a comma *)
Theorem C14_ctof_failure_eats_comma_refuted : exists line q s', ctof uSPICE (cs_string line) = Some (q, s') /\
  ok s' = false /\ cnt s' = 1 /\ nth_error line 0 = Some ","%char.
Proof. exists (str ",x"). eexists _, _. split; [vm_compute; reflexivity|]. repeat split. Qed.
Print Assumptions C14_ctof_failure_eats_comma_refuted.

(* skipto1 that finds nothing goes back but reports success *)
Theorem C14_skipto_failure_reported_as_success_refuted : forall line s c, on_line line s -> ~ In c line ->
  exists s', skipto1c c s = Some s' /\ cnt s' = cnt s /\ ok s' = true.
Proof.
  intros line s c Hs Hn. destruct (on_line_vw _ _ Hs) as (r & V).
  destruct (skipto1c_vw _ _ _ c V) as (s1 & r1 & E1 & V1 & S1 & F1 & O1). exists s1. split; [exact E1|]. split; [|exact O1].
  destruct (Ascii.eqb_spec (head r1) c) as [Ec|Nc].
  - assert (r1 = [] \/ In (head r1) line).
    { destruct r1 as [|x q]; [now left|]. right. unfold head. cbn. destruct V1 as (_ & _ & pre & -> & _). apply in_or_app. right. now left. }
    destruct H as [->|H]; [|rewrite Ec in H; contradiction].
    (* at the end of the text, c is NUL: the loop stops there and goes back *)
    unfold skipto1c in E1.
    destruct (skip_while_vw line (fun s => let* m := ns_more s in if m then let* b := match1c c s in Some (negb b) else Some false)
     (fun x => negb (Ascii.eqb x NUL) && negb (Ascii.eqb x c)) eq_refl) with (r := r) (s := s) as (s2 & E2 & V2 & _); [|exact V|].
    { intros r0 s0 V0. inb (ns_more_vw _ _ _ V0). destruct (Ascii.eqb (head r0) NUL); cbn [negb andb]; [reflexivity|].
      now rewrite (match1c_vw _ _ _ _ V0). }
    revert E1. inb E2. inb (ns_more_vw _ _ _ V2). cbn [ok set_ok].
    destruct (Ascii.eqb (head _) NUL) eqn:En; cbn [negb]; intros E1; injection E1 as <-; [reflexivity|].
    exfalso. pose proof (vw_fun _ _ _ _ V1 V2) as Ez. rewrite <- Ez in En. discriminate En.
  - apply (vw_same_cnt _ _ _ _ _ V V1). now apply F1.
Qed.
Print Assumptions C14_skipto_failure_reported_as_success_refuted.
