(* C73: modify changes the elements named, fault does so until unfault, and sweep goes from start to last. *)
Require Import String Ascii List Bool ZArith QArith Lia Lqa ZifyBool.
Require Import Verif.Loops Verif.CS_Model Verif.Wmatch_Model Verif.CS_Proofs Verif.CS_Ops Verif.CS_Float Verif.Fault_Model Verif.Fault_Proofs Verif.Fault_Text.
Import ListNotations.
Open Scope Z_scope.
Open Scope list_scope.

(* ---- the text of a command: items "name=12.5 " or, in a sweep, "name=12.5 17.0 " *)
Definition code (c : ascii) : Z := Z.of_nat (nat_of_ascii c).
Definition letter (c : ascii) : Prop := 65 <= code c <= 90 \/ 97 <= code c <= 122.
Definition printable (c : ascii) : Prop := 33 <= code c <= 126.
Definition digit (c : ascii) : Prop := 48 <= code c <= 57.
Definition plain_name (n : list ascii) : Prop :=
  (exists c n', n = c :: n' /\ letter c) /\ (forall c, In c n -> printable c /\ ~ In c (str ",=()[].")) /\ (List.length n <= 256)%nat.
Definition number : Type := list ascii * list ascii.
Definition number_ok (x : number) : Prop := (forall c, In c (fst x) -> digit c) /\ (forall c, In c (snd x) -> digit c).
Definition number_text (x : number) : list ascii := fst x ++ "."%char :: snd x ++ [" "%char].
(* the digits as an integer, and the number *)
Definition digits_on (n : Z) (l : list ascii) : Z := fold_left (fun n c => 10 * n + (code c - 48)) l n.
Definition whole (l : list ascii) : Z := digits_on 0 l.
Definition decimal (x : number) : Q := (inject_Z (whole (fst x ++ snd x)) / inject_Z (10 ^ Z.of_nat (List.length (snd x))))%Q.
Record item := Item { i_name : list ascii; i_start : number; i_last : option number }.
Definition item_text (it : item) : list ascii :=
  i_name it ++ "="%char :: number_text (i_start it) ++ match i_last it with Some x => number_text x | None => [] end.
Definition item_ok (it : item) : Prop :=
  plain_name (i_name it) /\ number_ok (i_start it) /\ match i_last it with Some x => number_ok x | None => True end.
Definition line_of (items : list item) : list ascii := List.concat (map item_text items).

(* ---- characters *)
Lemma letter_alpha : forall c, letter c -> falpha c = true.
Proof. intros [[] [] [] [] [] [] [] []] H; vm_compute in H; try reflexivity; exfalso; destruct H as [[A B]|[A B]]; try (now elim A); now elim B. Qed.
Lemma printable_plain : forall c, printable c -> ~ In c (str ",=()[].") -> fblank c = false /\ fterm TOKENTERM c = false /\ Ascii.eqb c "." = false.
Proof.
  intros c P N. assert (G : fblank c = false /\ isspace c = false /\ c <> NUL).
  { revert P. clear. destruct c as [[] [] [] [] [] [] [] []]; intros H; vm_compute in H; try (split; [reflexivity|split; [reflexivity|discriminate]]); exfalso; destruct H as [A B]; try (now elim A); now elim B. }
  destruct G as (B & S & Z0). split; [exact B|]. split.
  - unfold fterm. rewrite S. destruct (Ascii.eqb_spec c NUL); [contradiction|]. cbn [orb]. unfold in_set. destruct (Ascii.eqb_spec c NUL); [contradiction|]. cbn [negb andb].
    destruct (mem c TOKENTERM) eqn:M; [|reflexivity]. exfalso. apply N. unfold mem in M. apply existsb_exists in M. destruct M as (x & I & E). apply Ascii.eqb_eq in E. subst x.
    cbn in I |- *. intuition.
  - destruct (Ascii.eqb_spec c "."); [|reflexivity]. exfalso. apply N. subst c. cbn. intuition.
Qed.
Lemma digit_char : forall c, digit c -> fdigit c = true /\ fblank c = false /\ ffloat c = true /\ dig c = code c - 48 /\ in_set (str "+-") c = false /\ fcomma c = false /\ falpha c = false.
Proof. intros [[] [] [] [] [] [] [] []] H; vm_compute in H; try (repeat split; reflexivity); exfalso; destruct H as [A B]; try (now elim A); now elim B. Qed.

(* ---- reading *)
Definition raw (x : number) : Q :=
  let vp := fold_left frac_step (snd x) (qdigits 0%Q (fst x), 1%Q) in (inject_Z 1 * fst vp * (snd vp * 1))%Q.
Lemma qdigits_whole : forall l v n, (forall c, In c l -> digit c) -> (v == inject_Z n)%Q ->
  (qdigits v l == inject_Z (digits_on n l))%Q.
Proof.
  induction l as [|c l IH]; intros v n D E; [exact E|]. unfold qdigits, digits_on in *. cbn [fold_left]. apply IH; [intros; apply D; now right|].
  destruct (digit_char c (D c (or_introl eq_refl))) as (_ & _ & _ & -> & _). rewrite E, inject_Z_plus, inject_Z_mult. reflexivity.
Qed.
Lemma frac_whole : forall l v p n, (forall c, In c l -> digit c) -> (v == inject_Z n)%Q ->
  (fst (fold_left frac_step l (v, p)) == inject_Z (digits_on n l))%Q /\
  (snd (fold_left frac_step l (v, p)) * inject_Z (10 ^ Z.of_nat (List.length l)) == p)%Q.
Proof.
  induction l as [|c l IH]; intros v p n D E; [split; [exact E|]; cbn [fold_left snd List.length]; change (10 ^ Z.of_nat 0) with 1; ring|]. cbn [fold_left digits_on]. change (digits_on n (c :: l)) with (digits_on (10 * n + (code c - 48)) l). change (frac_step (v, p) c) with ((10 * v + inject_Z (dig c))%Q, (p * (1 # 10))%Q).
  destruct (IH (10 * v + inject_Z (dig c))%Q (p * (1 # 10))%Q (10 * n + (code c - 48))) as [A B]; [intros; apply D; now right| |].
  - destruct (digit_char c (D c (or_introl eq_refl))) as (_ & _ & _ & -> & _). rewrite E, inject_Z_plus, inject_Z_mult. reflexivity.
  - split; [exact A|]. cbn [List.length]. rewrite Nat2Z.inj_succ, Z.pow_succ_r by lia. rewrite inject_Z_mult.
    clear A. revert B. generalize (snd (fold_left frac_step l ((10 * v + inject_Z (dig c))%Q, (p * (1 # 10))%Q))). generalize (inject_Z (10 ^ Z.of_nat (List.length l))).
    intros P X B. change (inject_Z 10) with 10%Q. lra.
Qed.
Lemma raw_decimal : forall x, number_ok x -> (raw x == decimal x)%Q.
Proof.
  intros [a b] [Da Db]. cbn [fst snd] in *. unfold raw, decimal, whole. cbn [fst snd].
  destruct (frac_whole b (qdigits 0 a) 1 (digits_on 0 a) Db) as [A B]; [apply qdigits_whole; [exact Da|reflexivity]|].
  replace (digits_on 0 (a ++ b)) with (digits_on (digits_on 0 a) b) by (unfold digits_on; now rewrite fold_left_app). rewrite A. set (P := inject_Z (10 ^ Z.of_nat (List.length b))) in *. set (N := inject_Z _) in *. set (q := snd _) in *.
  assert (NZ : ~ (P == 0)%Q) by (intros Hz; rewrite Hz in B; lra). change (inject_Z 1) with 1%Q.
  assert (Eq : (q == 1 / P)%Q) by (apply Qmult_inj_r with P; [exact NZ|]; rewrite B; field; exact NZ). rewrite Eq. field. exact NZ.
Qed.
Lemma scale_blank : forall u r, scale_of u (" "%char :: r) = Some (1%Q, " "%char :: r).
Proof. intros []; reflexivity. Qed.
(* what may come after a blank *)
Definition clean (r : list ascii) : Prop := fblank (head r) = false /\ fcomma (head r) = false.
Lemma dropcom_blank : forall r, clean r -> dropcom (" "%char :: r) = r.
Proof.
  intros r [B C]. unfold dropcom, eat1b. change (dropbl (" "%char :: r)) with (dropbl r). rewrite (drop_idem fblank r B : dropbl r = r).
  destruct r as [|c r]; [reflexivity|]. change (head (c :: r)) with c in *. cbn [eat1]. rewrite C. apply drop_idem. exact B.
Qed.
Lemma all_fdigit : forall l, (forall c, In c l -> digit c) -> Forall (fun c => fdigit c = true) l.
Proof. intros l H. apply Forall_forall. intros c I. now apply digit_char, H. Qed.
Lemma number_head : forall x r, number_ok x -> let c := head (number_text x ++ r) in fblank c = false /\ ffloat c = true /\ fminus c = false /\ fplus c = false /\ fcomma c = false.
Proof.
  intros [[|c a] b] r [Da _]; unfold number_text; cbn [fst snd app]; [repeat split; reflexivity|]. change (head ((c :: a) ++ _)) with c. cbn zeta.
  destruct (digit_char c (Da c (or_introl eq_refl))) as (_ & B & F & _ & S & C & _). repeat split; auto; unfold in_set, fminus, fplus in *; revert S; clear; destruct c as [[] [] [] [] [] [] [] []]; vm_compute; auto; discriminate.
Qed.
Lemma read_number : forall u line x r s, number_ok x -> clean r -> vw line (number_text x ++ r) s ->
  exists s', ctof u s = Some (raw x, s') /\ vw line r s'.
Proof.
  intros u line x r s K C V. destruct (number_head x r K) as (B & F & M & P & _). set (t := number_text x ++ r) in *.
  assert (D : dropbl t = t) by now apply drop_idem.
  assert (Sg : dropsign t = t). { unfold dropsign, sign_neg. rewrite M. destruct t as [|c t']; [reflexivity|]. change (head (c :: t')) with c in P. cbn [eat1]. now rewrite P. }
  destruct K as [Ka Kb]. destruct x as [a b]. cbn [fst snd] in *.
  assert (Et : t = a ++ "."%char :: b ++ " "%char :: r). { unfold t, number_text. cbn [fst snd]. rewrite <- app_assoc. cbn [app]. now rewrite <- app_assoc. }
  assert (T1 : take_while fdigit t = a). { rewrite Et, (take_app fdigit a _ (all_fdigit a Ka)). cbn. now rewrite app_nil_r. }
  assert (T2 : eat1 fdot (drop_while fdigit t) = b ++ " "%char :: r). { rewrite Et, (drop_app fdigit a _ (all_fdigit a Ka)). reflexivity. }
  assert (T3 : take_while fdigit (b ++ " "%char :: r) = b). { rewrite (take_app fdigit b _ (all_fdigit b Kb)). cbn. now rewrite app_nil_r. }
  assert (T4 : drop_while fdigit (b ++ " "%char :: r) = " "%char :: r). { rewrite (drop_app fdigit b _ (all_fdigit b Kb)). reflexivity. }
  pose proof (ctof_vw line u t s 1%Q (" "%char :: r) V) as H. rewrite D, Sg in H. specialize (H F). cbv zeta in H. rewrite T1, T2, T3, T4 in H.
  destruct (H (scale_blank u r)) as (s' & E & V' & _). exists s'. split.
  - rewrite E. unfold sign_neg. rewrite M. reflexivity.
  - change (drop_while falpha (" "%char :: r)) with (" "%char :: r) in V'. now rewrite (dropcom_blank r C) in V'.
Qed.
Lemma ctostr_loop_all : forall line t name l acc r s, Forall (fun c => fterm t c = false) name -> fterm t (head r) = true -> (List.length name <= l)%nat -> vw line (name ++ r) s ->
  exists s', ctostr_loop l t acc s = Some (acc ++ name, s') /\ vw line r s'.
Proof.
  intros line t name. induction name as [|c name IH]; intros l acc r s A T L V.
  - rewrite app_nil_r. destruct l as [|l]; cbn [ctostr_loop]; [now exists s|]. inb (is_term_vw _ _ _ t V). cbn [app] in *. rewrite T. now exists s.
  - destruct l as [|l]; [cbn in L; lia|]. cbn [ctostr_loop]. inb (is_term_vw _ _ _ t V). inversion A as [|? ? A1 A2]; subst. cbn [app] in V. change (head ((c :: name) ++ r)) with c. rewrite A1.
    destruct (ctoc_vw _ _ _ _ V) as (s1 & E1 & V1 & _). inb E1. destruct (IH l (acc ++ [c]) r s1 A2 T) as (s' & E & V'); [cbn in L; lia|exact V1|].
    exists s'. split; [|exact V']. rewrite E. now rewrite <- app_assoc.
Qed.
Lemma read_name : forall line name r s, plain_name name -> vw line (name ++ "="%char :: r) s ->
  exists s1, ctostr BUFLEN TOKENTERM s = Some (name, s1) /\ vw line ("="%char :: r) s1.
Proof.
  intros line name r s ((c & n' & En & L) & P & Ln) V. unfold ctostr.
  assert (Dn : dropbl (name ++ "="%char :: r) = name ++ "="%char :: r).
  { apply drop_idem. rewrite En. change (head ((c :: n') ++ _)) with c. destruct (P c) as [P1 P2]; [rewrite En; now left|]. now apply printable_plain. }
  destruct (skipbl_vw _ _ _ V) as (s1 & E1 & V1 & _). rewrite Dn in V1. inb E1.
  assert (F : Forall (fun c => fterm TOKENTERM c = false) name). { apply Forall_forall. intros x I. destruct (P x I). now apply printable_plain. }
  destruct (ctostr_loop_all line TOKENTERM name BUFLEN [] ("="%char :: r) s1 F eq_refl Ln V1) as (s2 & E2 & V2). inb E2. cbn [app].
  destruct (skip_while_vw line (fun s => let* e := is_term TOKENTERM s in Some (negb e)) (fun c => negb (fterm TOKENTERM c)) eq_refl) with (r := "="%char :: r) (s := s2) as (s3 & E3 & V3 & _); [|exact V2|].
  { intros r0 s0 V0. now inb (is_term_vw _ _ _ TOKENTERM V0). }
  inb E3. change (drop_while (fun c0 : ascii => negb (fterm TOKENTERM c0)) ("="%char :: r)) with ("="%char :: r) in V3.
  destruct (skipcom_vw _ _ _ V3) as (s4 & E4 & V4 & _). inb E4. exists s4. split; [reflexivity|]. exact V4.
Qed.
Lemma plain_nodot : forall name, plain_name name -> cut_last name = None.
Proof.
  intros name (_ & P & _). revert P. induction name as [|c name IH]; intros P; [reflexivity|]. cbn [Fault_Model.cut_last]. rewrite IH by (intros; apply P; now right).
  destruct (P c (or_introl eq_refl)) as [P1 P2]. destruct (printable_plain c P1 P2) as (_ & _ & ->). reflexivity.
Qed.
Lemma plain_clean : forall name r, plain_name name -> clean (name ++ r) /\ falpha (head (name ++ r)) = true /\ ffloat (head (name ++ r)) = false.
Proof.
  intros name r ((c & n' & -> & L) & P & _). change (head ((c :: n') ++ r)) with c. destruct (P c (or_introl eq_refl)) as [P1 P2].
  split; [|split; [now apply letter_alpha|]].
  - split; change (head ((c :: n') ++ r)) with c; [now apply printable_plain|]. revert L. clear. destruct c as [[] [] [] [] [] [] [] []]; intros H; vm_compute in H; try reflexivity; exfalso; destruct H as [[A B]|[A B]]; try (now elim A); now elim B.
  - revert L. clear. destruct c as [[] [] [] [] [] [] [] []]; intros H; vm_compute in H; try reflexivity; exfalso; destruct H as [[A B]|[A B]]; try (now elim A); now elim B.
Qed.

(* ---- commands: their options, their scope and their items *)
Record cmdline := Cmd { c_fault : bool; c_steps : Z; c_count : Z; c_log : bool; c_scope : list card; c_items : list item }.
Definition run1 (ci : bool) (u : units) (pow : Q -> Q -> Q) (c : cmdline) (w : world) : outcome world :=
  command ci u pow (c_steps c) (c_count c) (c_log c) (c_fault c) (c_scope c) (cs_string (line_of (c_items c))) w.
Fixpoint run (ci : bool) (u : units) (pow : Q -> Q -> Q) (l : list cmdline) (w : world) : outcome world :=
  match l with [] => Done w | c :: l' => obind (run1 ci u pow c w) (run ci u pow l') end.
(* the value an item stands for: the number written, or in a sweep the point between the two *)
Definition value (c : cmdline) (it : item) : Q :=
  match i_last it with
  | None => decimal (i_start it)
  | Some l => (decimal (i_start it) + (decimal l - decimal (i_start it)) * (inject_Z (c_count c) / inject_Z (c_steps c)))%Q
  end.
Definition hits (ci : bool) (scope : list card) (it : item) : list card := filter (fun k => wmatch ci (label k) (i_name it)) scope.
(* a command that can be carried out: every item names elements, and only a linear sweep has a second number *)
Definition cmd_ok (ci : bool) (ids : list Z) (c : cmdline) : Prop :=
  forall it, In it (c_items c) ->
    item_ok it /\ (i_last it = None \/ (c_fault c = true /\ c_steps c <> 0 /\ c_log c = false)) /\
    hits ci (c_scope c) it <> [] /\
    forall k, In k (hits ci (c_scope c) it) -> kind k = Element /\ sub k = None /\ In (ident k) ids.
(* every assignment the commands ask for: is it a fault, to which element, what value *)
Definition assignments (ci : bool) (l : list cmdline) : list (bool * Z * Q) :=
  flat_map (fun c => flat_map (fun it => map (fun k => (c_fault c, ident k, value c it)) (hits ci (c_scope c) it)) (c_items c)) l.
(* the last assignment of an element; what it is without the faults: modifications count until it is first faulted *)
Fixpoint value_now (i : Z) (l : list (bool * Z * Q)) (e : elem) : elem :=
  match l with [] => e | (_, j, v) :: l' => value_now i l' (if j =? i then Elem v HASH None else e) end.
Fixpoint value_unfaulted (i : Z) (l : list (bool * Z * Q)) (e : elem) : elem :=
  match l with
  | [] => e
  | (true, j, v) :: l' => if j =? i then e else value_unfaulted i l' e
  | (false, j, v) :: l' => value_unfaulted i l' (if j =? i then Elem v HASH None else e)
  end.
Definition elem_eq (a b : elem) : Prop := (e_val a == e_val b)%Q /\ e_text a = e_text b /\ e_common a = e_common b.

Definition rawvalue (c : cmdline) (it : item) : Q :=
  match i_last it with None => raw (i_start it) | Some l => (raw (i_start it) + (raw l - raw (i_start it)) * (inject_Z (c_count c) / inject_Z (c_steps c)))%Q end.
Lemma rawvalue_eq : forall c it, item_ok it -> (rawvalue c it == value c it)%Q.
Proof.
  intros c it (_ & S & L). unfold rawvalue, value. destruct (i_last it) as [l|]; rewrite (raw_decimal _ S); [|reflexivity]. rewrite (raw_decimal _ L). reflexivity.
Qed.
Lemma line_clean : forall items, (forall it, In it items -> item_ok it) -> clean (line_of items) /\ ffloat (head (line_of items)) = false.
Proof.
  intros [|it items] H; [repeat split; reflexivity|]. unfold line_of. cbn [map List.concat]. unfold item_text. rewrite <- app_assoc.
  destruct (H it (or_introl eq_refl)) as (P & _). destruct (plain_clean (i_name it) (("="%char :: number_text (i_start it) ++ match i_last it with Some x => number_text x | None => [] end) ++ List.concat (map item_text items)) P) as (A & _ & B). now split.
Qed.
Lemma read_item : forall u pow line c it r s, item_ok it -> (i_last it = None \/ (c_fault c = true /\ c_steps c <> 0 /\ c_log c = false)) ->
  clean r -> ffloat (head r) = false ->
  vw line (number_text (i_start it) ++ (match i_last it with Some x => number_text x | None => [] end) ++ r) s ->
  exists s', reader u pow (c_steps c) (c_count c) (c_log c) (c_fault c) s = Done (rawvalue c it, s') /\ vw line r s'.
Proof.
  intros u pow line c it r s (_ & Ks & Kl) Al C F V. unfold rawvalue.
  assert (C1 : clean (match i_last it with Some x => number_text x | None => [] end ++ r)).
  { destruct (i_last it) as [l|]; [|exact C]. destruct (number_head l r Kl) as (A & _ & _ & _ & B). now split. }
  destruct (read_number u line (i_start it) _ s Ks C1 V) as (s1 & E1 & V1). unfold reader. destruct (c_fault c) eqn:Ef.
  - unfold sweep_fix. rewrite E1. cbn [txt obind]. destruct (Z.eqb_spec (c_steps c) 0) as [Z0|NZ].
    + destruct Al as [Al|(_ & Al & _)]; [|contradiction]. rewrite Al in *. now exists s1.
    + unfold is_float. rewrite (match1_vw _ _ _ (str "+-.0123456789") V1). fold ffloat. cbn [txt obind]. destruct (i_last it) as [l|].
      * destruct (number_head l r Kl) as (_ & A & _). rewrite A. destruct (read_number u line l r s1 Kl C V1) as (s2 & E2 & V2). rewrite E2. cbn [txt obind].
        destruct Al as [Al|(_ & _ & Al)]; [discriminate Al|]. unfold sweep_value. rewrite Al. cbn [obind]. now exists s2.
      * cbn [app] in V1 |- *. rewrite F. now exists s1.
  - destruct Al as [Al|(Al & _)]; [|discriminate Al]. rewrite Al in *. rewrite E1. cbn [txt]. now exists s1.
Qed.
Definition changes1 (ci : bool) (c : cmdline) (items : list item) : list change :=
  flat_map (fun it => map (mk (c_fault c) (rawvalue c it)) (hits ci (c_scope c) it)) items.
Lemma scope_weight : forall l, (List.length l <= weights l)%nat.
Proof. induction l as [|k l IH]; [cbn; lia|]. rewrite weights_cons. pose proof (weight_pos k). cbn [List.length]. lia. Qed.
Lemma run_items : forall ci u pow c line items n s w w',
  (forall it, In it items -> item_ok it /\ (i_last it = None \/ (c_fault c = true /\ c_steps c <> 0 /\ c_log c = false)) /\ hits ci (c_scope c) it <> []) ->
  vw line (line_of items) s -> (List.length (line_of items) < n)%nat -> apply (changes1 ci c items) w = Done w' ->
  modify_fault ci u pow (c_steps c) (c_count c) (c_log c) n (c_fault c) (c_scope c) s w = Done w'.
Proof.
  intros ci u pow c line items. induction items as [|it items IH]; intros n s w w' H V L A; (destruct n as [|n]; [lia|]); cbn [modify_fault]; rewrite (is_alpha_vw _ _ _ V).
  { cbn [changes1 flat_map apply] in A. injection A as <-. reflexivity. }
  destruct (H it (or_introl eq_refl)) as (Kit & Al & Hh). pose proof Kit as (P & Ks & Kl).
  destruct (line_clean items) as [Cl Fl]; [intros x I; now apply H; right|].
  set (tail := match i_last it with Some x => number_text x | None => [] end) in *.
  assert (Et : line_of (it :: items) = i_name it ++ "="%char :: number_text (i_start it) ++ tail ++ line_of items).
  { unfold line_of. cbn [map List.concat]. unfold item_text. fold tail. rewrite <- app_assoc. cbn [app]. now rewrite <- app_assoc. }
  rewrite Et in *. set (r1 := number_text (i_start it) ++ tail ++ line_of items) in *.
  destruct (plain_clean (i_name it) ("="%char :: r1) P) as (_ & Ah & _). rewrite Ah. cbn [txt obind]. cbv zeta.
  assert (Hn : forall s, vw line (i_name it ++ "="%char :: r1) s -> exists s1, ctostr BUFLEN TOKENTERM s = Some (i_name it, s1) /\ vw line ("="%char :: r1) s1) by (intros; now apply read_name).
  assert (E1b : eat1b (fun c => Ascii.eqb c "=") ("="%char :: r1) = r1).
  { unfold eat1b. change (dropbl ("="%char :: r1)) with ("="%char :: r1). cbn [eat1]. change (Ascii.eqb "=" "=") with true. cbv iota. apply drop_idem. now apply (number_head (i_start it)). }
  assert (Hv : forall s, vw line (eat1b (fun c => Ascii.eqb c "=") ("="%char :: r1)) s ->
     exists s3, reader u pow (c_steps c) (c_count c) (c_log c) (c_fault c) s = Done (rawvalue c it, s3) /\ vw line (line_of items) s3).
  { intros s0 V0. rewrite E1b in V0. now apply read_item. }
  destruct (Hn s V) as (s1 & E1 & V1). destruct (skip1bc_vw line _ s1 "=" ltac:(discriminate) V1) as (s2 & E2 & V2 & _). destruct (Hv s2 V2) as (s3 & E3 & V3).
  cbn [changes1 flat_map] in A. fold (changes1 ci c items) in A. rewrite apply_app in A.
  destruct (apply (map (mk (c_fault c) (rawvalue c it)) (hits ci (c_scope c) it)) w) as [w1| | |] eqn:A1; try discriminate A. cbn [obind] in A.
  assert (NE : i_name it <> []) by (destruct P as ((x & n' & -> & _) & _); discriminate).
  destruct (each_match_vw ci u pow (c_steps c) (c_count c) (c_log c) line (c_fault c) (i_name it) (rawvalue c it) _ _ _ s1 s3 s NE (plain_nodot _ P) Hn Hv V V1 V3
     (Datatypes.S (weights (c_scope c))) (c_scope c) (cnt s) s w w1) as (s4 & (r4 & V4) & E4).
  { pose proof (scope_weight (c_scope c)). lia. } { now exists (i_name it ++ "="%char :: r1). } { exact A1. }
  rewrite E4. cbn [obind]. unfold hits in Hh. change (fun k => wmatch ci (label k) (i_name it)) with (hit ci (i_name it)) in Hh. destruct (filter (hit ci (i_name it)) (c_scope c)); [congruence|].
  pose proof (vw_cnt _ _ _ V) as C0. pose proof (vw_cnt _ _ _ V1) as C1. pose proof (vw_cnt _ _ _ V3) as C3.
  rewrite !app_length in *. cbn [List.length] in *. unfold r1 in *. rewrite !app_length in *.
  assert (Ln : (0 < List.length (i_name it))%nat) by (destruct (i_name it); [congruence|cbn; lia]).
  replace (Z.max (Z.max (Z.max (cnt s) (cnt s1)) (cnt s3)) (cnt s)) with (cnt s3) by lia.
  destruct (Z.eqb_spec (cnt s) (cnt s3)); [lia|]. cbn [obind]. apply IH; [intros x I; apply H; now right|now apply vw_reset with r4|lia|exact A].
Qed.
Definition changes (ci : bool) (l : list cmdline) : list change := flat_map (fun c => changes1 ci c (c_items c)) l.
Lemma changes_known : forall ci ids l, (forall c, In c l -> cmd_ok ci ids c) -> forall ch, In ch (changes ci l) -> known ids ch.
Proof.
  intros ci ids l H ch I. unfold changes, changes1 in I. apply in_flat_map in I. destruct I as (c & Ic & I). apply in_flat_map in I. destruct I as (it & Ii & I).
  apply in_map_iff in I. destruct I as (k & <- & I). destruct (H c Ic it Ii) as (_ & _ & _ & K). destruct (K k I) as (A & B & C). destruct (c_fault c); cbn; auto.
Qed.
Lemma run_changes : forall ci u pow ids l w, sane ids w -> (forall c, In c l -> cmd_ok ci ids c) -> run ci u pow l w = apply (changes ci l) w.
Proof.
  intros ci u pow ids l. induction l as [|c l IH]; intros w S H; [reflexivity|]. cbn [run changes flat_map]. rewrite apply_app. fold (changes ci l).
  destruct (run_ok ids (changes1 ci c (c_items c)) w S) as (w1 & E1 & S1 & _).
  { intros ch I. apply (changes_known ci ids [c]); [intros x [<-|[]]; apply H; now left|]. unfold changes. cbn [flat_map]. now rewrite app_nil_r. }
  rewrite E1. cbn [obind]. unfold run1, command.
  rewrite (run_items ci u pow c (line_of (c_items c)) (c_items c) _ _ w w1); [cbn [obind]; apply IH; [exact S1|intros; apply H; now right]| |apply vw_start|cbn; lia|exact E1].
  intros it I. destruct (H c (or_introl eq_refl) it I) as (A & B & C & _). auto.
Qed.
Definition matches (ch : change) (a : bool * Z * Q) : Prop :=
  let '(f, i, v) := a in (match ch with Faulted _ _ => true | Modified _ _ => false end) = f /\ target ch = i /\ (given ch == v)%Q.
Lemma changes_match : forall ci ids l, (forall c, In c l -> cmd_ok ci ids c) -> Forall2 matches (changes ci l) (assignments ci l).
Proof.
  intros ci ids l H. induction l as [|c l IH]; [constructor|]. cbn [changes assignments flat_map]. apply Forall2_app; [|apply IH; intros; apply H; now right]. clear IH.
  pose proof (H c (or_introl eq_refl)) as K. clear H. unfold cmd_ok in K. revert K. unfold changes1. induction (c_items c) as [|it items IHi]; intros K; [constructor|]. cbn [flat_map].
  apply Forall2_app; [|apply IHi; intros x I; apply K; now right]. destruct (K it (or_introl eq_refl)) as (Kit & _). pose proof (rawvalue_eq c it Kit) as R. clear - R.
  induction (hits ci (c_scope c) it) as [|k ks IHk]; constructor; [|exact IHk]. unfold matches. destruct (c_fault c); cbn; auto.
Qed.
Lemma now_match : forall i a b, Forall2 matches a b -> forall e e', elem_eq e e' -> elem_eq (now i a e) (value_now i b e').
Proof.
  intros i a b M. induction M as [|ch [[f j] v] a b (F & T & G) M IH]; intros e e' E; [exact E|]. cbn [now value_now]. apply IH. rewrite T. destruct (j =? i); [|exact E]. now repeat split.
Qed.
Lemma settled_match : forall i a b, Forall2 matches a b -> forall e e', elem_eq e e' -> elem_eq (settled i a e) (value_unfaulted i b e').
Proof.
  intros i a b M. induction M as [|ch [[f j] v] a b (F & T & G) M IH]; intros e e' E; [exact E|]. cbn [settled value_unfaulted]. destruct ch as [k x|k x]; subst f; cbn [target given] in *; rewrite T.
  - destruct (j =? i); [exact E|now apply IH].
  - apply IH. destruct (j =? i); [|exact E]. now repeat split.
Qed.
Lemma elem_eq_refl : forall e, elem_eq e e. Proof. repeat split; reflexivity. Qed.

(* ---- the theorems *)
(* any modify and fault commands whose items name elements are carried out: each element has the value last written for
   it, and an element not named keeps everything.  unfault then gives every element what it had when it was first
   faulted, value, text and common, and leaves the modifications of the others; no common is lost or freed early *)
Theorem C73_session : forall ci u pow ids cmds w, sane ids w -> w_stack w = [] -> (forall c, In c cmds -> cmd_ok ci ids c) ->
  exists w1 w2, run ci u pow cmds w = Done w1 /\ unfault w1 = Done w2 /\ w_stack w2 = [] /\
    (forall i, elem_eq (w_elem w1 i) (value_now i (assignments ci cmds) (w_elem w i))) /\
    (forall i, elem_eq (w_elem w2 i) (value_unfaulted i (assignments ci cmds) (w_elem w i))) /\
    (forall i, ~ In i (map (fun a => snd (fst a)) (assignments ci cmds)) -> w_elem w1 i = w_elem w i /\ w_elem w2 i = w_elem w i) /\
    (forall k, w_cnt w1 k - num k (held ids w1) = w_cnt w k - num k (held ids w)) /\
    (forall k, w_cnt w2 k - num k (held ids w2) = w_cnt w k - num k (held ids w)).
Proof.
  intros ci u pow ids cmds w S K H. rewrite (run_changes ci u pow ids cmds w S H).
  destruct (run_ok ids (changes ci cmds) w S (changes_known ci ids cmds H)) as (w1 & E1 & S1 & L1 & B1 & O1 & C1).
  destruct (unfault_ok ids (w_stack w1) w1 S1 eq_refl) as (w2 & E2 & S2 & K2 & L2 & B2 & C2).
  pose proof (changes_match ci ids cmds H) as M. exists w1, w2. split; [exact E1|]. split; [exact E2|]. split; [exact K2|].
  assert (Q2 : forall i, w_elem w2 i = settled i (changes ci cmds) (w_elem w i)) by (intros i; rewrite B2, O1, K; reflexivity).
  split; [intros i; rewrite B1; apply now_match; [exact M|apply elem_eq_refl]|].
  split; [intros i; rewrite Q2; apply settled_match; [exact M|apply elem_eq_refl]|]. split; [|split; [exact C1|intros k; rewrite C2; apply C1]].
  intros i N. rewrite B1, Q2. clear - M N. generalize (w_elem w i) as e. induction M as [|ch [[f j] v] a b (F & T & G) M IH]; intros e; [now split|].
  cbn [map fst snd] in N. assert (NJ : j <> i) by (intros ->; apply N; now left). assert (N' : ~ In i (map (fun a : bool * Z * Q => snd (fst a)) b)) by (intros I; apply N; now right).
  specialize (IH N'). cbn [now settled]. rewrite T. destruct (Z.eqb_spec j i); [congruence|]. destruct ch as [k x|k x]; cbn [target] in T; rewrite T; (destruct (Z.eqb_spec j i); [congruence|]); apply IH.
Qed.

(* any fault commands at all, whatever they say and wherever they look: if they are carried out then unfault is too and
   puts everything back: values, texts, commons, counts *)
Inductive faults : world -> world -> Prop :=
| f_none : forall w, faults w w
| f_more : forall ci u pow steps count lg scope s w w1 w2,
    command ci u pow steps count lg true scope s w = Done w1 -> faults w1 w2 -> faults w w2.
Theorem C73_unfault : forall w w1, faults w w1 -> w_stack w = [] ->
  exists w2, unfault w1 = Done w2 /\ (forall i, w_live w2 i = w_live w i) /\ (forall i, w_elem w2 i = w_elem w i) /\ (forall k, w_cnt w2 k = w_cnt w k) /\ w_stack w2 = [].
Proof.
  intros w w1 F K. assert (G : oweq (unfault w1) (unfault w)).
  { clear K. induction F as [w|ci u pow steps count lg scope s w wa wb E F IH]; [apply oweq_refl|].
    eapply oweq_trans; [exact IH|]. destruct (command_changes _ _ _ _ _ _ _ _ _ _ _ E) as (l & A & P). apply faults_undone with l; [|exact A].
    intros ch I. destruct (P ch I) as ((v & c & ->) & _). now exists c, v. }
  unfold unfault in G at 2. rewrite K in G. cbn [unfault_loop] in G. destruct (oweq_done _ _ G) as (w2 & E & A & B & C & D). exists w2. rewrite K in D. auto.
Qed.

(* a command ends, whatever its text *)
Theorem C73_ends : forall ci u pow steps count lg fault scope line w, command ci u pow steps count lg fault scope (cs_string line) w <> NoEnd.
Proof. intros. apply command_ends. Qed.

(* a command changes only elements of its scope, or of subcircuits in it; modify leaves the stack of faults alone, fault
   only adds to it *)
Lemma apply1_other : forall ch w w' i, apply1 ch w = Done w' -> target ch <> i -> w_elem w' i = w_elem w i.
Proof.
  assert (SV : forall j v c w w' i, set_value j v c w = Done w' -> j <> i -> w_elem w' i = w_elem w i).
  { intros j v c w w' i H N. unfold set_value in H. destruct (w_live w j); [|discriminate H]. cbv zeta in H.
    assert (D : forall c w w1, detach c w = Done w1 -> w_elem w1 i = w_elem w i) by (intros [k|] a b E; cbn [detach] in E; [destruct (0 <? w_cnt a k); [|discriminate E]|]; injection E as <-; reflexivity).
    assert (A : forall c w w1, attach c w = Done w1 -> w_elem w1 i = w_elem w i) by (intros [k|] a b E; cbn [attach] in E; [destruct (0 <? w_cnt a k); [|discriminate E]|]; injection E as <-; reflexivity).
    destruct (same_ptr c (e_common (w_elem w j))); cbn [obind] in H.
    - injection H as <-. cbn. destruct (Z.eqb_spec i j); [congruence|reflexivity].
    - destruct (detach (e_common (w_elem w j)) w) as [w1| | |] eqn:E1; try discriminate H. cbn [obind] in H. destruct (attach c w1) as [w2| | |] eqn:E2; try discriminate H. cbn [obind] in H.
      injection H as <-. cbn. destruct (Z.eqb_spec i j); [congruence|]. rewrite (A _ _ _ E2). now apply D with (e_common (w_elem w j)). }
  intros [c v|c v] w w' i H N; cbn [apply1 target] in *.
  - pose proof H as H0. destruct (fault_inv _ _ _ _ H) as [->|(K & S & L & U)]; [reflexivity|]. destruct c as [l j k s]. cbn [kind sub ident] in *. subst k s.
    pose proof (fault_shape l j v w L U) as F. rewrite H0 in F. destruct F as (_ & B & _). rewrite B. cbn. destruct (Z.eqb_spec i j); [congruence|reflexivity].
  - unfold modifybranch in H. destruct (kind c); try discriminate H. now apply SV with (ident c) v None.
Qed.
Theorem C73_scope : forall ci u pow steps count lg fault scope s w w', command ci u pow steps count lg fault scope s w = Done w' ->
  forall i, (forall c, inside scope c -> ident c <> i) -> w_elem w' i = w_elem w i.
Proof.
  intros ci u pow steps count lg fault scope s w w' H i N. destruct (command_changes _ _ _ _ _ _ _ _ _ _ _ H) as (l & A & P). clear H. revert w A.
  induction l as [|ch l IH]; intros w A; cbn [apply] in A; [now injection A as <-|]. destruct (apply1 ch w) as [w1| | |] eqn:E; try discriminate A. cbn [obind] in A.
  rewrite (IH (fun x I => P x (or_intror I)) w1 A). apply apply1_other with ch; [exact E|]. destruct (P ch (or_introl eq_refl)) as (_ & J). specialize (N _ J). now destruct ch.
Qed.

(* the search: a name with dots means the card named by the part before the last dot, inside a card of this list named
   by the part after it *)
Inductive reached (ci : bool) : list ascii -> list card -> card -> Prop :=
| r_simple : forall name l c, name <> [] -> ~ In "."%char name -> In c l -> wmatch ci (label c) name = true -> reached ci name l c
| r_dotted : forall a b l k m c, ~ In "."%char b -> In k l -> wmatch ci (label k) b = true -> sub k = Some m -> reached ci a m c ->
    reached ci (a ++ "."%char :: b) l c.
Lemma cut_none : forall d, cut_last d = None <-> ~ In "."%char d.
Proof.
  induction d as [|c d IH]; [cbn; tauto|]. cbn [Fault_Model.cut_last In]. destruct (cut_last d) as [[a b]|] eqn:E.
  - split; [discriminate|]. intros N. exfalso. assert (In "."%char d -> False) by tauto. destruct IH as [_ IH]. specialize (IH H). discriminate IH.
  - destruct IH as [IH _]. specialize (IH eq_refl). destruct (Ascii.eqb_spec c "."); split; intros H; try discriminate H; try reflexivity; try tauto.
Qed.
Lemma cut_some : forall d a b, cut_last d = Some (a, b) <-> d = a ++ "."%char :: b /\ ~ In "."%char b.
Proof.
  induction d as [|c d IH]; intros a b; cbn [Fault_Model.cut_last]; [split; [discriminate|intros [E _]; now destruct a]|].
  destruct (cut_last d) as [[a' b']|] eqn:E.
  - destruct (IH a' b') as [IH1 _]. destruct (IH1 eq_refl) as [-> N']. split.
    + intros [= <- <-]. now split.
    + intros [G N]. destruct a as [|x a]; cbn [app] in G; injection G as G1 G.
      * exfalso. apply N. rewrite <- G. apply in_or_app. right. now left.
      * destruct (IH a b) as [_ IH2]. specialize (IH2 (conj G N)). injection IH2 as <- <-. now subst.
  - apply cut_none in E. destruct (Ascii.eqb_spec c "."); split.
    + intros [= <- <-]. subst c. now split.
    + intros [G N]. destruct a as [|x a]; cbn [app] in G; injection G as G1 G; [now subst|]. exfalso. apply E. rewrite G. apply in_or_app. right. now left.
    + discriminate.
    + intros [G N]. destruct a as [|x a]; cbn [app] in G; injection G as G1 G; [congruence|]. exfalso. apply E. rewrite G. apply in_or_app. right. now left.
Qed.
Lemma reached_inv : forall ci name l c, reached ci name l c ->
  (name <> [] /\ ~ In "."%char name /\ In c l /\ wmatch ci (label c) name = true) \/
  (exists a b k m, name = a ++ "."%char :: b /\ ~ In "."%char b /\ In k l /\ wmatch ci (label k) b = true /\ sub k = Some m /\ reached ci a m c).
Proof. intros ci name l c R. destruct R as [name l c N D I W|a b l k m c N I W S R]; [left; auto|right; exists a, b, k, m; repeat split; auto]. Qed.
Lemma findbranch_spec : forall ci n name here, (List.length name < n)%nat ->
  match findbranch ci n name here with
  | [] => forall c, ~ reached ci name here c
  | k :: _ => reached ci name here k
  end.
Proof.
  intros ci n. induction n as [|n IH]; intros name here L; [lia|]. cbn [findbranch]. destruct name as [|c0 name].
  { intros c R. destruct (reached_inv _ _ _ _ R) as [(N & _)|(a & b & k & m & E & _)]; [congruence|now destruct a]. }
  destruct (cut_last (c0 :: name)) as [[a b]|] eqn:E.
  - apply cut_some in E. destruct E as [E Nb]. rewrite E in *. assert (La : (List.length a < n)%nat) by (rewrite app_length in L; cbn in L; lia). clear E.
    induction here as [|k rest IHr].
    { intros c R. destruct (reached_inv _ _ _ _ R) as [(N & D & I & W)|(a' & b' & k' & m & E' & N & I & _)]; destruct I. }
    assert (Up : forall x, reached ci (a ++ "."%char :: b) rest x -> reached ci (a ++ "."%char :: b) (k :: rest) x).
    { intros x R. destruct (reached_inv _ _ _ _ R) as [(N & D & I & W)|(a' & b' & k' & m & E' & N & I & W & S & R')]; [elim D; apply in_or_app; right; now left|]. rewrite E'. apply r_dotted with k' m; auto. now right. }
    assert (Down : forall x, reached ci (a ++ "."%char :: b) (k :: rest) x -> reached ci (a ++ "."%char :: b) rest x \/ (wmatch ci (label k) b = true /\ exists m, sub k = Some m /\ reached ci a m x)).
    { intros x R. destruct (reached_inv _ _ _ _ R) as [(N & D & I & W)|(a' & b' & k' & m & E' & N & I & W & S & R')]; [elim D; apply in_or_app; right; now left|].
      assert (EE : a' = a /\ b' = b).
      { assert (X1 : cut_last (a' ++ "."%char :: b') = Some (a', b')) by now apply cut_some. assert (X2 : cut_last (a ++ "."%char :: b) = Some (a, b)) by now apply cut_some. rewrite <- E' in X1. rewrite X1 in X2. injection X2 as <- <-. now split. }
      destruct EE as [-> ->]. destruct I as [->|I]; [right; split; [exact W|eauto]|]. left. now apply r_dotted with k' m. }
    destruct (wmatch ci (label k) b) eqn:W.
    + destruct (sub k) as [m|] eqn:S.
      * specialize (IH a m La). destruct (findbranch ci n a m) as [|y ys].
        -- match goal with |- match ?f with _ => _ end => destruct f eqn:Ef end.
           ++ intros c R. destruct (Down c R) as [R'|(_ & m' & [= <-] & R')]; [now apply (IHr c)|now apply (IH c)].
           ++ apply Up. exact IHr.
        -- apply r_dotted with k m; auto. now left.
      * match goal with |- match ?f with _ => _ end => destruct f eqn:Ef end.
        -- intros c R. destruct (Down c R) as [R'|(_ & m' & E' & R')]; [now apply (IHr c)|discriminate E'].
        -- apply Up. exact IHr.
    + match goal with |- match ?f with _ => _ end => destruct f eqn:Ef end.
      * intros c R. destruct (Down c R) as [R'|(W' & _)]; [now apply (IHr c)|congruence].
      * apply Up. exact IHr.
  - apply cut_none in E. induction here as [|k rest IHr].
    { intros c R. destruct (reached_inv _ _ _ _ R) as [(N & D & I & W)|(a' & b' & k' & m & E' & N & I & _)]; destruct I. }
    destruct (wmatch ci (label k) (c0 :: name)) eqn:W; [apply r_simple; auto; [discriminate|now left]|].
    match goal with |- match ?f with _ => _ end => destruct f eqn:Ef end.
    + intros c R. destruct (reached_inv _ _ _ _ R) as [(N & D & I & W')|(a' & b' & k' & m & E' & N & I & W' & S & R')].
      * destruct I as [->|I]; [congruence|]. apply (IHr c). now apply r_simple.
      * apply E. rewrite E'. apply in_or_app. right. now left.
    + destruct (reached_inv _ _ _ _ IHr) as [(N & D & I & W')|(a' & b' & k' & m & E' & N & I & W' & S & R')]; [apply r_simple; auto; now right|]. elim E. rewrite E'. apply in_or_app. right. now left.
Qed.
Theorem C73_find : forall ci name here,
  match find ci name here with
  | [] => forall c, ~ reached ci name here c
  | k :: _ => reached ci name here k
  end.
Proof. intros. apply findbranch_spec. lia. Qed.

(* sweep: n steps (n > 1) go from start to last, evenly spaced, or by equal factors *)
Theorem C73_sweep : forall pow n start last, 1 < n ->
  (forall k, exists v, sweep_value pow (sweep_intervals n) k false start last = Done v /\
     (v == start + (last - start) * (inject_Z k / inject_Z (n - 1)))%Q /\ (k = 0 -> (v == start)%Q) /\ (k = n - 1 -> (v == last)%Q)) /\
  ((forall x, pow x 0%Q == 1)%Q -> (forall x, pow x 1%Q == x)%Q -> (forall x a b, a == b -> pow x a == pow x b)%Q -> ~ (start == 0)%Q ->
   forall k, exists v, sweep_value pow (sweep_intervals n) k true start last = Done v /\ (k = 0 -> (v == start)%Q) /\ (k = n - 1 -> (v == last)%Q) /\
     (v == start * pow (last / start) (inject_Z k / inject_Z (n - 1)))%Q) /\
  ((start == 0)%Q -> forall k, sweep_value pow (sweep_intervals n) k true start last = Throw).
Proof.
  intros pow n start last N. unfold sweep_intervals. destruct (Z.eqb_spec n 0); [lia|].
  assert (NZ : ~ (inject_Z (n - 1) == 0)%Q) by (intros H; unfold Qeq in H; cbn in H; lia).
  assert (K0 : (inject_Z 0 / inject_Z (n - 1) == 0)%Q) by (change (inject_Z 0) with 0%Q; field; exact NZ).
  assert (K1 : (inject_Z (n - 1) / inject_Z (n - 1) == 1)%Q) by (field; exact NZ).
  split; [|split].
  - intros k. eexists. split; [reflexivity|]. split; [reflexivity|]. split; intros ->; [rewrite K0; ring|rewrite K1; ring].
  - intros P0 P1 Pe S k. unfold sweep_value. destruct (Qeq_bool start 0) eqn:Z0; [apply Qeq_bool_iff in Z0; contradiction|]. eexists. split; [reflexivity|].
    split; [|split; [|reflexivity]]; intros ->; [rewrite (Pe _ _ _ K0), P0; ring|rewrite (Pe _ _ _ K1), P1; field; exact S].
  - intros S k. unfold sweep_value. apply Qeq_bool_iff in S. now rewrite S.
Qed.

(* ---- a circuit: r1 and r2 share common 7, c1 has none; x1 and x2 have a resistor each; d1 is no ELEMENT *)
Definition sr1 := Card (str "r1") 1 Element None.
Definition sr2 := Card (str "r2") 2 Element None.
Definition sc1 := Card (str "c1") 3 Element None.
Definition sx1 := Card (str "x1") 10 Device (Some [Card (str "r1") 11 Element None]).
Definition sx2 := Card (str "x2") 20 Device (Some [Card (str "r1") 21 Element None]).
Definition sd1 := Card (str "d1") 30 Device None.
Definition circuit := [sr1; sr2; sc1; sx1; sx2; sd1].
Definition start_elem (i : Z) : elem := Elem (inject_Z (100 * i)) (str "rval") (if (i =? 1) || (i =? 2) then Some 7 else None).
Definition w0 : world := World (fun _ => true) start_elem (fun k => if k =? 7 then 2 else 0) [].
Definition dec (a b : string) : number := (str a, str b).
Definition mod1 := Cmd false 0 0 false circuit [Item (str "r*") (dec "47" "5") None].
Definition flt1 := Cmd true 4 1 false circuit [Item (str "r2") (dec "1" "") (Some (dec "3" "0")); Item (str "c1") (dec "" "25") None].
Definition mod2 := Cmd false 0 0 false circuit [Item (str "r2") (dec "8" "0") None].
Definition plain_nameb (n : list ascii) : bool :=
  match n with c :: _ => ((65 <=? code c) && (code c <=? 90)) || ((97 <=? code c) && (code c <=? 122)) | [] => false end &&
  forallb (fun c => (33 <=? code c) && (code c <=? 126) && negb (mem c (str ",=()[]."))) n && (List.length n <=? 256)%nat.
Lemma plain_nameb_ok : forall n, plain_nameb n = true -> plain_name n.
Proof.
  intros n H. unfold plain_nameb in H. apply andb_true_iff in H. destruct H as [H L]. apply andb_true_iff in H. destruct H as [H F]. split; [|split].
  - destruct n as [|c n]; [discriminate H|]. exists c, n. split; [reflexivity|]. unfold letter. lia.
  - intros c I. rewrite forallb_forall in F. specialize (F c I). apply andb_true_iff in F. destruct F as [F N]. split; [unfold printable; lia|].
    intros J. unfold mem in N. assert (X : existsb (Ascii.eqb c) (str ",=()[].") = true); [|rewrite X in N; discriminate N]. apply existsb_exists. exists c. split; [exact J|apply Ascii.eqb_refl].
  - apply Nat.leb_le in L. exact L.
Qed.
Lemma sane_w0 : sane [1; 2; 3] w0.
Proof.
  split; [repeat constructor; cbn; lia|]. split; [reflexivity|]. split; [intros st []|]. intros k. change (held [1; 2; 3] w0) with [Some 7; Some 7; None]. rewrite !num_cons. rewrite dec_none. cbn [w0 w_cnt].
  destruct (Z.eqb_spec k 7) as [->|N]; [rewrite dec_same; cbn; lia|]. destruct (opt_dec (Some 7) (Some k)); [congruence|]. cbn. lia.
Qed.
Ltac digits := intros c I; cbn in I; repeat (destruct I as [<-|I]; [unfold digit, code; cbn; lia|]); destruct I.
Example C73_session_case :
  sane [1; 2; 3] w0 /\ w_stack w0 = [] /\ (forall c, In c [mod1; flt1; mod2] -> cmd_ok true [1; 2; 3] c) /\
  line_of (c_items flt1) = str "r2=1. 3.0 c1=.25 " /\
  (value_now 1 (assignments true [mod1; flt1; mod2]) (start_elem 1) = Elem (value mod1 (Item (str "r*") (dec "47" "5") None)) HASH None) /\
  (e_val (value_now 1 (assignments true [mod1; flt1; mod2]) (start_elem 1)) == 95 # 2)%Q /\
  (e_val (value_now 2 (assignments true [mod1; flt1]) (start_elem 2)) == 3 # 2)%Q /\
  (e_val (value_now 2 (assignments true [mod1; flt1; mod2]) (start_elem 2)) == 8)%Q /\
  (e_val (value_unfaulted 2 (assignments true [mod1; flt1; mod2]) (start_elem 2)) == 95 # 2)%Q /\
  value_unfaulted 3 (assignments true [mod1; flt1; mod2]) (start_elem 3) = start_elem 3 /\
  (e_val (value_now 3 (assignments true [mod1; flt1; mod2]) (start_elem 3)) == 1 # 4)%Q.
Proof.
  split; [exact sane_w0|]. split; [reflexivity|]. split; [|vm_compute; repeat split].
  intros c [<-|[<-|[<-|[]]]] it I; cbn [c_items mod1 mod2 flt1] in I; cbn in I;
   repeat (destruct I as [<-|I]; [split; [split; [apply plain_nameb_ok; reflexivity|split; [split; digits|cbn; auto; split; digits]]|
     split; [cbn; (left; reflexivity) || (right; repeat split; discriminate)|split; [discriminate|vm_compute; intros k J; repeat (destruct J as [<-|J]; [repeat split; cbn; lia|]); destruct J]]]|]); destruct I.
Qed.

(* a fault with a sweep on a resistor of a subcircuit, and one that names nothing *)
Definition pow0 (x y : Q) : Q := x.
Definition after (x : outcome world) (w : world) : world := match x with Done a => a | _ => w end.
Definition wf1 := after (command true uSI pow0 0 0 false true circuit (cs_string (str "r1.x1=5 r2=3k, zz 4")) w0) w0.
Example C73_unfault_case : faults w0 wf1 /\ (e_val (w_elem wf1 11) == 5)%Q /\ (e_val (w_elem wf1 2) == 3000)%Q /\ w_elem wf1 1 = start_elem 1 /\ List.length (w_stack wf1) = 2%nat /\ w_cnt wf1 7 = 2.
Proof.
  split; [|vm_compute; repeat split]. apply f_more with true uSI pow0 0 0 false circuit (cs_string (str "r1.x1=5 r2=3k, zz 4")) wf1; [|constructor].
  unfold wf1. destruct (command true uSI pow0 0 0 false true circuit (cs_string (str "r1.x1=5 r2=3k, zz 4")) w0) eqn:E; [reflexivity| | |]; exfalso; vm_compute in E; discriminate E.
Qed.
Example C73_scope_case : (forall c, inside circuit c -> ident c <> 99) /\
  exists w', command true uSI pow0 0 0 false true circuit (cs_string (str "r*=5")) w0 = Done w' /\ (e_val (w_elem w' 1) == 5)%Q /\ (e_val (w_elem w' 2) == 5)%Q /\ w_elem w' 3 = start_elem 3.
Proof.
  split.
  - intros c I. inversion I as [l k J|l k m x J S I']; subst.
    + cbn in J. repeat (destruct J as [<-|J]; [discriminate|]). destruct J.
    + cbn in J. repeat (destruct J as [<-|J]; [cbn in S; try discriminate S; injection S as <-; inversion I' as [l' k' J'|l' k' m' x' J' S' I'']; subst; (destruct J' as [<-|[]]; discriminate)|]). destruct J.
  - eexists. split; [vm_compute; reflexivity|]. vm_compute. repeat split.
Qed.
Example C73_ends_case : exists w', command true uSI pow0 0 0 false false circuit (cs_string (str "q! ,, r2 = 7 = ((")) w0 = Done w' /\ w_elem w' 2 = start_elem 2.
Proof. eexists. split; vm_compute; reflexivity. Qed.
Example C73_find_case : reached true (str "r1.x2") circuit (Card (str "r1") 21 Element None) /\ find true (str "r1.x2") circuit = [Card (str "r1") 21 Element None] /\ find true (str "c1.x2") circuit = [].
Proof.
  split; [|split; reflexivity]. apply (r_dotted true (str "r1") (str "x2") circuit sx2 [Card (str "r1") 21 Element None]); [cbn; intuition discriminate|cbn; auto 10|reflexivity|reflexivity|].
  apply r_simple; [discriminate|cbn; intuition discriminate|now left|reflexivity].
Qed.
Example C73_sweep_case : sweep_intervals 5 = 4 /\ exists v, sweep_value pow0 4 3 false 10 30 = Done v /\ (v == 25)%Q.
Proof. split; [reflexivity|]. eexists. split; [reflexivity|]. vm_compute. reflexivity. Qed.

(* ---- what is not so *)
(* "every item of a command is carried out": after a name that is not found the rest of the line is dropped *)
Theorem C73_unknown_name_refuted : exists scope w w' k, In k scope /\ wmatch true (label k) (str "r1") = true /\ kind k = Element /\
  command true uSI pow0 0 0 false false scope (cs_string (str "zz=1.0 r1=5.0 ")) w = Done w' /\ w_elem w' (ident k) = w_elem w (ident k) /\ ~ (e_val (w_elem w (ident k)) == 5)%Q.
Proof. exists circuit, w0. eexists. exists sr1. split; [now left|]. split; [reflexivity|]. split; [reflexivity|]. split; [vm_compute; reflexivity|]. split; [reflexivity|]. vm_compute. discriminate. Qed.
(* "an element changes only if a value is written": modify with the bare name makes the value zero *)
Theorem C73_no_value_refuted : exists scope w w' k, In k scope /\ ~ (e_val (w_elem w (ident k)) == 0)%Q /\
  command true uSI pow0 0 0 false false scope (cs_string (str "r1")) w = Done w' /\ (e_val (w_elem w' (ident k)) == 0)%Q.
Proof. exists circuit, w0. eexists. exists sr1. split; [now left|]. split; [vm_compute; discriminate|]. split; [vm_compute; reflexivity|]. vm_compute. reflexivity. Qed.
(* "a name changes every card it names": with dots only those in the first subcircuit that has one *)
Theorem C73_dotted_refuted : exists scope w w' k1 k2, reached true (str "r1.x*") scope k1 /\ reached true (str "r1.x*") scope k2 /\
  command true uSI pow0 0 0 false false scope (cs_string (str "r1.x*=5.0 ")) w = Done w' /\ (e_val (w_elem w' (ident k1)) == 5)%Q /\
  w_elem w' (ident k2) = w_elem w (ident k2) /\ ~ (e_val (w_elem w (ident k2)) == 5)%Q.
Proof.
  exists circuit, w0. eexists. exists (Card (str "r1") 11 Element None), (Card (str "r1") 21 Element None).
  split; [apply (r_dotted true (str "r1") (str "x*") circuit sx1 [Card (str "r1") 11 Element None]); [cbn; intuition discriminate|cbn; auto 10|reflexivity|reflexivity|]; apply r_simple; [discriminate|cbn; intuition discriminate|now left|reflexivity]|].
  split; [apply (r_dotted true (str "r1") (str "x*") circuit sx2 [Card (str "r1") 21 Element None]); [cbn; intuition discriminate|cbn; auto 10|reflexivity|reflexivity|]; apply r_simple; [discriminate|cbn; intuition discriminate|now left|reflexivity]|].
  split; [vm_compute; reflexivity|]. split; [vm_compute; reflexivity|]. split; [reflexivity|]. vm_compute. discriminate.
Qed.
(* "unfault can always be given after fault": not once the element is gone, as every element of a subcircuit is when the
   circuit is expanded again before the next analysis *)
Theorem C73_deleted_refuted : exists scope w w', command true uSI pow0 0 0 false true scope (cs_string (str "r1.x1=5.0 ")) w = Done w' /\
  unfault (delete_elems [11] w') = Undef.
Proof. exists circuit, w0. eexists. split; vm_compute; reflexivity. Qed.
(* "modify and fault refuse what they cannot change": a device that is no ELEMENT is a failed cast, and so is modify of a
   subcircuit instance *)
Theorem C73_not_element_refuted : exists scope w,
  command true uSI pow0 0 0 false false scope (cs_string (str "x1=5.0 ")) w = Undef /\ command true uSI pow0 0 0 false true scope (cs_string (str "d1=5.0 ")) w = Undef /\
  command true uSI pow0 0 0 false true scope (cs_string (str "x1=5.0 ")) w = Done w.
Proof. exists circuit, w0. repeat split; vm_compute; reflexivity. Qed.

Print Assumptions C73_session.
Print Assumptions C73_unfault.
Print Assumptions C73_ends.
Print Assumptions C73_scope.
Print Assumptions C73_find.
Print Assumptions C73_sweep.
Print Assumptions C73_unknown_name_refuted.
Print Assumptions C73_no_value_refuted.
Print Assumptions C73_dotted_refuted.
Print Assumptions C73_deleted_refuted.
Print Assumptions C73_not_element_refuted.
