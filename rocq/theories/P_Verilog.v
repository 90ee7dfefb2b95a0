(* C63: instance lines in verilog form. *)
Require Import ZArith List Ascii String Bool Lia.
Require Import Verif.Loops Verif.Wmatch_Model Verif.CS_Model Verif.CS_Proofs Verif.CS_Ops Verif.CS_Word Verif.Quote_Proofs Verif.Parse_Model Verif.Parse_Scan.
Require Import Verif.P_Scanner Verif.P_Keyword Verif.P_Quote Verif.Verilog_Model Verif.Verilog_Proofs.
Import ListNotations.
Local Open Scope Z_scope.

(* ---- the texts of an instance line, and what they say ----
   From Verilog_Proofs.v: spaces (white space only), sep (white space, or a comma between white space),
   attribute and groups (attribute texts between their marks), joined (the texts with ", " between). *)
Definition visible (w : text) : Prop := forall c, In c w -> isgraph c = true.
Definition simple (stop w : text) : Prop := visible w /\ forall c, In c w -> ~ In c stop.
(* a type or a label *)
Definition name (w : text) : Prop := w <> [] /\ simple (str ",=(){};") w /\ ~ In (head w) [DQ; "'"%char].
(* the name of a port or node: as it is, or behind a backslash and up to a blank; the backslash belongs
   to the name unless all is letters and digits *)
Inductive ident (stop : text) : text -> text -> Prop :=
  | id_plain n : simple stop n -> head n <> "\"%char -> ident stop n n
  | id_esc_plain n e : n <> [] -> (forall c, In c n -> isalnum c = true) -> In e [" "%char; ascii_of_nat 9; ascii_of_nat 12] -> ident stop ("\"%char :: n ++ [e]) n
  | id_esc n e c : visible n -> In c n -> isalnum c = false -> In e [" "%char; ascii_of_nat 9; ascii_of_nat 12] -> ident stop ("\"%char :: n ++ [e]) ("\"%char :: n).

(* parameters by name; a closing parenthesis inside a value has a backslash in front unless it belongs to a pair *)
Inductive args_named : list call -> text -> Prop :=
  | an_nil : args_named [] []
  | an_cons gs tg b1 n b2 tv v sp l t : groups gs tg -> spaces b1 -> simple (str "(") n -> spaces b2 -> stands "(" ")" tv v -> sep sp -> args_named l t ->
      args_named (SetParam n v (joined [] gs) :: l) (tg ++ "."%char :: b1 ++ n ++ b2 ++ "("%char :: tv ++ ")"%char :: sp ++ t).
(* parameters by order; k of them came before *)
Inductive args_ordered : nat -> list call -> text -> Prop :=
  | ao_nil k : args_ordered k [] []
  | ao_cons k gs tg v sp l t : groups gs tg -> simple (str ",)") v -> (isalnum (head v) = true \/ In (head v) (str "+-")) -> sep sp -> (sp <> [] \/ t = []) ->
      args_ordered (S k) l t -> args_ordered k (SetParamAt k v (joined [] gs) :: l) (tg ++ v ++ sp ++ t).
Inductive arguments : list call -> text -> Prop :=
  | ar_none : arguments [] []
  | ar_named b1 l t b2 : spaces b1 -> args_named l t -> l <> [] -> spaces b2 -> arguments l (str "#(" ++ b1 ++ t ++ ")"%char :: b2)
  | ar_ordered b1 l t b2 : spaces b1 -> args_ordered 0 l t -> spaces b2 -> arguments l (str "#(" ++ b1 ++ t ++ ")"%char :: b2).

(* ports by name and by order *)
Inductive ports_named : list call -> text -> Prop :=
  | pn_nil : ports_named [] []
  | pn_cons gs tg b1 tn n b2 b3 tv v b4 sp l t : groups gs tg -> spaces b1 -> ident (str "(") tn n -> spaces b2 -> spaces b3 -> ident (str ")") tv v -> spaces b4 ->
      sep sp -> ports_named l t ->
      ports_named (SetPort n v (joined [] gs) :: l) (tg ++ "."%char :: b1 ++ tn ++ b2 ++ "("%char :: b3 ++ tv ++ b4 ++ ")"%char :: sp ++ t).
Inductive ports_ordered : nat -> list call -> text -> Prop :=
  | po_nil k : ports_ordered k [GroundFrom k] []
  | po_cons k gs tg tv v sp l t : groups gs tg -> ident (str ",)") tv v -> (isalnum (head tv) = true \/ head tv = "\"%char) -> sep sp -> (sp <> [] \/ t = []) ->
      ports_ordered (S k) l t -> ports_ordered k (SetPortAt k v (joined [] gs) :: l) (tg ++ tv ++ sp ++ t).
Inductive ports : list call -> text -> Prop :=
  | po_named l t : ports_named l t -> l <> [] -> ports (l ++ [GroundOpen]) t
  | po_ordered l t : ports_ordered 0 l t -> ports l t.

Inductive instance_line : list call -> text -> Prop :=
  | il b0 gs tg ty b1 args ta lab b2 b3 pts tp b4 b5 : spaces b0 -> groups gs tg -> name ty -> spaces b1 -> b1 <> [] -> arguments args ta -> name lab ->
      (ta = [] -> head lab <> "#"%char) -> spaces b2 -> spaces b3 -> ports pts tp -> spaces b4 -> spaces b5 ->
      instance_line (Attributes (joined [] gs) :: SetType ty :: args ++ SetLabel lab :: pts)
        (b0 ++ tg ++ ty ++ b1 ++ ta ++ lab ++ b2 ++ "("%char :: b3 ++ tp ++ ")"%char :: b4 ++ ";"%char :: b5).

(* ---- lemmas ---- *)
Lemma graph_nul : forall c, isgraph c = true -> c <> NUL. Proof. intros c H ->. discriminate H. Qed.
Lemma graph_space : forall c, isgraph c = true -> isspace c = false.
Proof. intros c. destruct c as [[] [] [] [] [] [] [] []]; vm_compute; congruence. Qed.
Lemma alnum_graph : forall c, isalnum c = true -> isgraph c = true.
Proof. intros c. destruct c as [[] [] [] [] [] [] [] []]; vm_compute; congruence. Qed.
Lemma alnum_ascii : forall c, isgraph c = true -> toascii c = c.
Proof. intros c. destruct c as [[] [] [] [] [] [] [] []]; vm_compute; congruence. Qed.
Lemma graph_low : forall c, isgraph c = true -> (code c <? 128) = true.
Proof. intros c. destruct c as [[] [] [] [] [] [] [] []]; vm_compute; congruence. Qed.
Lemma In_in_set : forall t c, c <> NUL -> In c t -> in_set t c = true.
Proof.
  intros t c N I. unfold in_set. destruct (Ascii.eqb_spec c NUL); [contradiction|]. cbn. unfold mem. apply existsb_exists. exists c. split; [exact I|apply Ascii.eqb_refl].
Qed.
Lemma notin_set : forall t c, ~ In c t -> in_set t c = false.
Proof. intros t c N. destruct (in_set t c) eqn:E; [|reflexivity]. apply in_set_In in E. contradiction. Qed.
Lemma simple_fterm : forall stop w, simple stop w -> Forall (fun c => fterm stop c = false) w.
Proof.
  intros stop w [V N]. apply Forall_forall. intros c I. unfold fterm. rewrite (graph_space c (V c I)), (notin_set stop c (N c I)).
  destruct (Ascii.eqb_spec c NUL) as [E|_]; [now elim (graph_nul c (V c I))|reflexivity].
Qed.
Lemma fterm_space : forall t c, space c -> fterm t c = true.
Proof. intros t c E. unfold fterm. rewrite E. now rewrite orb_true_r. Qed.
Lemma fterm_in : forall t c, isgraph c = true -> In c t -> fterm t c = true.
Proof. intros t c G I. unfold fterm. rewrite (In_in_set t c (graph_nul c G) I). apply orb_true_r. Qed.
Lemma fterm_after : forall t b c q, spaces b -> isgraph c = true -> In c t -> fterm t (head (b ++ c :: q)) = true.
Proof. intros t [|d b] c q B G I; [now apply fterm_in|]. inversion_clear B. now apply fterm_space. Qed.
Lemma plain_cons : forall c q, isgraph c = true -> c <> ","%char -> c <> "("%char -> plain_next (c :: q).
Proof. intros c q G N P. split; [now apply firm_cons|]. intros y E. injection E as E _. contradiction. Qed.
Lemma plain_nil : plain_next []. Proof. split; [intros c q [=]|intros y [=]]. Qed.
Lemma nil_sp : spaces []. Proof. apply Forall_nil. Qed.
#[local] Hint Resolve nil_sp : core.

(* a word that ends where its stop or a blank is *)
Lemma word_vw : forall line stop w b b' c q s, simple stop w -> spaces b -> spaces b' -> isgraph c = true -> c <> ","%char -> In c stop ->
  vw line (b ++ w ++ b' ++ c :: q) s ->
  exists s', ctos stop [] [] s = Some (w, s') /\ vw line (c :: q) s'.
Proof.
  intros line stop w b b' c q s S B B' G Nc I V. destruct w as [|d w].
  - cbn [app] in V. destruct (ctos_plain line stop [] [] [] (c :: q) _ s eq_refl V) as (s' & E & V' & _).
    + rewrite app_assoc, dropbl_bl; [reflexivity|now apply Forall_app|now apply firm_cons].
    + constructor.
    + now apply fterm_in.
    + now right.
    + exists s'. split; [exact E|]. rewrite dropcom_firm in V' by (now apply firm_cons). exact V'.
  - destruct (ctos_plain line stop [] [] (d :: w) (b' ++ c :: q) _ s eq_refl V) as (s' & E & V' & _).
    + rewrite (dropbl_app b _ (space_blank _ B)). cbn [app]. apply dropbl_graph. apply S. now left.
    + now apply simple_fterm.
    + now apply fterm_after.
    + now right.
    + exists s'. split; [exact E|]. rewrite dropcom_bl in V'; [exact V'|assumption|now apply firm_cons].
Qed.

Lemma all_alnum_ok : forall id, visible id -> all_alnum id = Some (forallb isalnum id).
Proof.
  induction id as [|c id IH]; intros V; [reflexivity|]. cbn [all_alnum forallb]. unfold isalnum_of. rewrite (graph_low c) by (apply V; now left). cbn [bind].
  destruct (isalnum c); [|reflexivity]. apply IH. intros d I. apply V. now right.
Qed.
(* a backslash, a name and the blank that ends it *)
Lemma esc_vw : forall line stop n e b x s, visible n -> n <> [] -> In e [" "%char; ascii_of_nat 9; ascii_of_nat 12] -> spaces b ->
  vw line (b ++ ("\"%char :: n ++ [e]) ++ x) s ->
  exists s', get_identifier stop s = Some (if forallb isalnum n then n else "\"%char :: n, s') /\ vw line x s'.
Proof.
  intros line stop n e b x s Vn Ne Ie B V. unfold get_identifier. destruct (skipbl_vw _ _ _ V) as (s1 & E1 & V1 & _). inb E1.
  rewrite (dropbl_app b _ (space_blank _ B)) in V1. cbn [app] in V1. rewrite dropbl_graph in V1 by reflexivity. rewrite <- app_assoc in V1. cbn [app] in V1.
  assert (Ee : Ascii.eqb e NUL = false) by (destruct Ie as [<-|[<-|[<-|[]]]]; reflexivity).
  (* n need not be firm (it may begin with a comma), so the step over the backslash is done by hand *)
  destruct (skip1bc_vw _ _ _ "\"%char ltac:(discriminate) V1) as (s2 & E2 & V2 & _ & O2). inb E2.
  unfold eat1b in V2. rewrite dropbl_graph in V2, O2 by reflexivity. cbn [eat1] in V2. unfold head in O2. cbn [hd] in O2.
  replace (Ascii.eqb "\" "\") with true in V2, O2 by reflexivity. rewrite O2.
  assert (D : dropbl (n ++ e :: x) = n ++ e :: x).
  { destruct n as [|c n]; [now elim Ne|]. cbn [app]. apply dropbl_graph. apply Vn. now left. }
  rewrite D in V2. destruct (get_to_vw line _ s2 [" "%char; ascii_of_nat 9; ascii_of_nat 12] V2) as (s3 & E3 & V3). inb E3.
  assert (Fn : Forall (fun c => negb (Ascii.eqb c NUL) && negb (in_set [" "%char; ascii_of_nat 9; ascii_of_nat 12] c) = true) n).
  { apply Forall_forall. intros c I. pose proof (Vn c I) as G. destruct (Ascii.eqb_spec c NUL) as [E|_]; [now elim (graph_nul c G)|].
    rewrite notin_set; [reflexivity|]. intros [<-|[<-|[<-|[]]]]; discriminate G. }
  assert (Fe : negb (Ascii.eqb (head (e :: x)) NUL) && negb (in_set [" "%char; ascii_of_nat 9; ascii_of_nat 12] (head (e :: x))) = false).
  { unfold head. cbn [hd]. rewrite In_in_set; [apply andb_false_r| |exact Ie]. intros ->. discriminate Ee. }
  rewrite take_app, (take_stop _ (e :: x) Fe), app_nil_r by exact Fn. rewrite drop_app, (drop_idem _ (e :: x) Fe) in V3 by exact Fn.
  inb (all_alnum_ok n Vn). destruct (skip_vw _ _ _ _ V3) as [V4 _]. eexists. split; [reflexivity|exact V4].
Qed.
Lemma ident_esc : forall stop t n, ident stop t n -> (t = n /\ simple stop n /\ head n <> "\"%char) \/
  exists m e, m <> [] /\ visible m /\ In e [" "%char; ascii_of_nat 9; ascii_of_nat 12] /\ t = "\"%char :: m ++ [e] /\ n = (if forallb isalnum m then m else "\"%char :: m).
Proof.
  intros stop t n [n' S H|m e Nm Am Ie|m e c Vm Ic Ac Ie]; [left; auto| |]; right; exists m, e.
  - split; [exact Nm|]. split; [intros c I; now apply alnum_graph, Am|]. split; [exact Ie|]. split; [reflexivity|].
    assert (forallb isalnum m = true) as -> by (now apply forallb_forall). reflexivity.
  - split; [intros ->; destruct Ic|]. split; [exact Vm|]. split; [exact Ie|]. split; [reflexivity|].
    destruct (forallb isalnum m) eqn:E; [|reflexivity]. rewrite forallb_forall in E. rewrite (E c Ic) in Ac. discriminate Ac.
Qed.
(* the step of get_identifier that looks for a backslash, where there is none *)
Lemma no_bs : forall line stop r s, vw line r s -> head (dropbl r) <> "\"%char ->
  exists s', vw line (dropbl r) s' /\ get_identifier stop s = ctos stop [] [] s'.
Proof.
  intros line stop r s V N. unfold get_identifier. destruct (skipbl_vw _ _ _ V) as (s1 & E1 & V1 & _). inb E1.
  destruct (skip1bc_vw _ _ _ "\"%char ltac:(discriminate) V1) as (s2 & E2 & V2 & _ & O2). inb E2.
  assert (D : dropbl (dropbl r) = dropbl r) by (apply drop_idem, dropbl_head). rewrite D in O2.
  assert (Q : Ascii.eqb (head (dropbl r)) "\" = false) by (now destruct (Ascii.eqb_spec (head (dropbl r)) "\")).
  unfold eat1b in V2. rewrite D, eat1_id, D in V2 by exact Q. rewrite O2, Q. exists s2. now split.
Qed.
Lemma ident_vw : forall line stop t n b b' c q s, ident stop t n -> spaces b -> spaces b' -> isgraph c = true -> c <> ","%char -> c <> "\"%char -> In c stop ->
  vw line (b ++ t ++ b' ++ c :: q) s ->
  exists s' b2, get_identifier stop s = Some (n, s') /\ spaces b2 /\ vw line (b2 ++ c :: q) s'.
Proof.
  intros line stop t n b b' c q s H B B' G Nc Nb I V. destruct (ident_esc stop t n H) as [(-> & S & Hh)|(m & e & Nm & Vm & Ie & -> & ->)].
  - assert (D : dropbl (b ++ n ++ b' ++ c :: q) = match n with [] => c :: q | _ => n ++ b' ++ c :: q end).
    { rewrite (dropbl_app b _ (space_blank _ B)). destruct n as [|d n]; [cbn [app]; apply dropbl_bl; [assumption|now apply firm_cons]|].
      cbn [app]. apply dropbl_graph. apply S. now left. }
    destruct (no_bs line stop _ s V) as (s1 & V1 & ->); [rewrite D; destruct n; assumption|]. rewrite D in V1.
    destruct (word_vw line stop n [] (match n with [] => [] | _ => b' end) c q s1) as (s2 & E2 & V2); try assumption; try apply nil_sp.
    + destruct n; [apply nil_sp|assumption].
    + destruct n; exact V1.
    + exists s2, []. auto.
  - destruct (esc_vw line stop m e b (b' ++ c :: q) s Vm Nm Ie B V) as (s' & E & V'). exists s', b'. auto.
Qed.
Lemma sep_head : forall sp c q, sep sp -> (sp <> [] \/ c = ")"%char) -> fterm (str ",)") (head (sp ++ c :: q)) = true.
Proof.
  intros [|d sp] c q S H.
  - destruct H as [N| ->]; [now elim N|reflexivity].
  - destruct S as [B|(b1 & b2 & B1 & B2 & E)]; [inversion_clear B; now apply fterm_space|]. destruct b1 as [|k b1]; injection E as -> _; [reflexivity|].
    inversion_clear B1. now apply fterm_space.
Qed.
Lemma ident_sep : forall line t n sp c q s, ident (str ",)") t n -> (isalnum (head t) = true \/ head t = "\"%char) -> sep sp -> (sp <> [] \/ c = ")"%char) ->
  isgraph c = true -> c <> ","%char -> vw line (t ++ sp ++ c :: q) s ->
  exists s1 s', get_identifier (str ",)") s = Some (n, s1) /\ skip1bc "," s1 = Some s' /\ vw line (c :: q) s'.
Proof.
  intros line t n sp c q s H Hh S Hs G Nc V. assert (F : firm (c :: q)) by (now apply firm_cons).
  destruct (ident_esc _ t n H) as [(-> & Sn & Hb)|(m & e & Nm & Vm & Ie & -> & ->)].
  - destruct n as [|d n]; [destruct Hh as [Hh|Hh]; discriminate Hh|].
    assert (D : dropbl ((d :: n) ++ sp ++ c :: q) = (d :: n) ++ sp ++ c :: q) by (cbn [app]; apply dropbl_graph; apply Sn; now left).
    destruct (no_bs line (str ",)") _ s V) as (s1 & V1 & ->); [rewrite D; exact Hb|]. rewrite D in V1.
    destruct (ctos_plain line (str ",)") [] [] (d :: n) (sp ++ c :: q) _ s1 eq_refl V1 D) as (s2 & E2 & V2 & _).
    + now apply simple_fterm.
    + now apply sep_head.
    + now right.
    + rewrite (dropcom_sep sp _ S F) in V2. destruct (nochar_vw line "," _ s2 ltac:(discriminate) F Nc V2) as (s3 & E3 & V3 & _).
      exists s2, s3. auto.
  - destruct (esc_vw line (str ",)") m e [] (sp ++ c :: q) s Vm Nm Ie nil_sp V) as (s1 & E1 & V1).
    destruct (skip1bc_vw _ _ _ ","%char ltac:(discriminate) V1) as (s2 & E2 & V2 & _). rewrite (eat_comma sp _ S F) in V2.
    exists s1, s2. auto.
Qed.

Lemma char_bl : forall line b c r s, isgraph c = true -> spaces b -> vw line (b ++ c :: r) s ->
  exists s', skip1bc c s = Some s' /\ vw line (dropbl r) s' /\ ok s' = true.
Proof.
  intros line b c r s G B V. destruct (skip1bc_vw _ _ _ c (graph_nul c G) V) as (s' & E & V' & _ & O). exists s'. split; [exact E|].
  unfold eat1b in V'. rewrite (dropbl_app b _ (space_blank _ B)), (dropbl_graph c _ G) in V', O. cbn [eat1] in V'. unfold head in O. cbn [hd] in O.
  rewrite Ascii.eqb_refl in V', O. now split.
Qed.
Lemma lead : forall b n b' c q, spaces b -> spaces b' -> isgraph c = true -> (n = [] \/ isgraph (head n) = true) ->
  exists b2, spaces b2 /\ dropbl (b ++ n ++ b' ++ c :: q) = n ++ b2 ++ c :: q.
Proof.
  intros b n b' c q B B' G H. rewrite (dropbl_app b _ (space_blank _ B)). destruct n as [|d n].
  - exists []. split; [auto|]. cbn [app]. rewrite (dropbl_app b' _ (space_blank _ B')). now apply dropbl_graph.
  - exists b'. split; [auto|]. cbn [app]. apply dropbl_graph. destruct H as [H|H]; [discriminate H|exact H].
Qed.
Lemma visible_head : forall n, visible n -> n = [] \/ isgraph (head n) = true.
Proof. intros [|c n] V; [now left|right; apply V; now left]. Qed.
Lemma ident_head : forall stop t n, ident stop t n -> t = [] \/ isgraph (head t) = true.
Proof.
  intros stop t n H. destruct (ident_esc stop t n H) as [(-> & S & _)|(m & e & _ & _ & _ & -> & _)]; [apply visible_head, S|right; reflexivity].
Qed.
Lemma groups_plain : forall gs t c q, groups gs t -> isgraph c = true -> c <> ","%char -> firm (t ++ c :: q).
Proof. intros gs t c q H G N. apply (groups_firm gs t _ H). now apply firm_cons. Qed.

Definition PAREN := ")"%char.
Lemma paren_plain : forall q, plain_next (")"%char :: q). Proof. intros q. now apply plain_cons. Qed.
Lemma mark_paren : marks (str "(") (str ")") "(" ")".
Proof. split; [reflexivity|]. split; [|repeat split; discriminate]. exists [], [], [], []. repeat split. intros []. Qed.

(* ---- parameters ---- *)
Lemma args_named_firm : forall l t x, args_named l t -> firm (t ++ ")"%char :: x).
Proof.
  intros l t x [|gs tg b1 n b2 tv v sp l' t' Hg _ _ _ _ _ _]; [now apply firm_cons|]. rewrite <- app_assoc. cbn [app]. now apply (groups_plain gs).
Qed.
Lemma args_named_vw : forall ci line x l t, args_named l t -> forall n s, (List.length l < n)%nat -> vw line (t ++ ")"%char :: x) s ->
  exists att s1 s', parse_attributes ci s = Some (att, s1) /\ named_args ci n att s1 = Some (l, s') /\ vw line (")"%char :: x) s' /\
    (l <> [] -> exists q, vw line ("."%char :: q) s1).
Proof.
  intros ci line x l t H. induction H as [|gs tg b1 n b2 tv v sp l t Hg B1 Sn B2 St Sp H IH]; intros k s Hk V.
  - destruct (no_groups ci line _ s (paren_plain x) V) as (s1 & E1 & V1). destruct k as [|k]; [cbn in Hk; lia|].
    destruct (nochar_vw line "." _ s1 ltac:(discriminate) (proj1 (paren_plain x)) ltac:(discriminate) V1) as (s2 & E2 & V2 & O2).
    exists [], s1, s2. split; [exact E1|]. split; [cbn [named_args]; inb E2; now rewrite O2|]. split; [exact V2|]. intros N. now elim N.
  - destruct k as [|k]; [cbn in Hk; lia|]. rewrite <- app_assoc in V. cbn [app] in V.
    destruct (attributes_vw ci line _ gs tg s Hg (plain_cons "." _ eq_refl ltac:(discriminate) ltac:(discriminate)) V) as (s1 & E1 & V1).
    exists (joined [] gs), s1. cbn [named_args].
    destruct (char_bl line [] "." _ s1 eq_refl nil_sp V1) as (s2 & E2 & V2 & O2). inb E2. rewrite O2.
    repeat (rewrite <- app_assoc in V2; cbn [app] in V2).
    destruct (lead b1 n b2 "(" (tv ++ ")"%char :: sp ++ t ++ ")"%char :: x) B1 B2 eq_refl (visible_head n (proj1 Sn))) as (b3 & B3 & D).
    rewrite D in V2. destruct (word_vw line (str "(") n [] b3 "(" _ s2 Sn nil_sp B3 eq_refl ltac:(discriminate) (or_introl eq_refl) V2) as (s3 & E3 & V3). inb E3.
    destruct (marks_ctos line (str ",)") (str "(") (str ")") "(" ")" _ s3 mark_paren V3) as (s4 & E4 & V4).
    assert (U : unq "(" ")" 1 (tv ++ ")"%char :: sp ++ t ++ ")"%char :: x) = (v, sp ++ t ++ ")"%char :: x)).
    { rewrite (unq_stands "(" ")" ltac:(discriminate) ltac:(discriminate) ltac:(discriminate) ltac:(discriminate) tv v St 1 _ ltac:(lia)). cbn. now rewrite app_nil_r. }
    rewrite U in E4, V4. cbn [fst snd] in E4, V4. inb E4. pose proof (args_named_firm l t x H) as F. rewrite (dropcom_sep sp _ Sp F) in V4.
    assert (F0 : head (t ++ ")"%char :: x) <> ","%char) by (pose proof (firm_nc _ F) as Q; intros Q'; rewrite Q' in Q; discriminate Q).
    destruct (nochar_vw line "," _ s4 ltac:(discriminate) F F0 V4) as (s5 & E5 & V5 & _). inb E5.
    destruct (IH k s5 ltac:(cbn in Hk; lia) V5) as (att & s6 & s' & E6 & E7 & V7 & _). inb E6. inb E7.
    exists s'. split; [exact E1|]. split; [reflexivity|]. split; [exact V7|]. intros _. eexists. exact V1.
Qed.

Lemma is_alnum_vw : forall line r s, vw line r s -> is_alnum s = Some (isalnum (toascii (head r))).
Proof. intros line r s V. unfold is_alnum. now inb (peek_vw _ _ _ V). Qed.
Lemma alnum_not : forall c, isalnum c = true -> c <> ","%char /\ c <> "("%char /\ c <> "."%char /\ isgraph c = true /\ toascii c = c.
Proof.
  intros c A. pose proof (alnum_graph c A) as G. repeat split; try (intros ->; discriminate A); [exact G|now apply alnum_ascii].
Qed.
Lemma value_start : forall c, isalnum c = true \/ In c (str "+-") ->
  c <> ","%char /\ c <> "("%char /\ c <> "."%char /\ isgraph c = true /\ isalnum (toascii c) || in_set (str "+-.") c = true.
Proof.
  intros c [A|I].
  - destruct (alnum_not c A) as (N1 & N2 & N3 & G & T). rewrite T, A. auto.
  - destruct I as [<-|[<-|[]]]; repeat split; discriminate.
Qed.
Lemma args_ordered_firm : forall k l t x, args_ordered k l t -> firm (t ++ ")"%char :: x).
Proof.
  intros k l t x [|k' gs tg v sp l' t' Hg _ Hv _ _ _]; [now apply firm_cons|]. rewrite <- app_assoc. destruct v as [|c v]; [destruct Hv as [Hv|[Hv|[Hv|[]]]]; discriminate Hv|].
  destruct (value_start c Hv) as (N1 & N2 & _ & G & _). cbn [app]. now apply (groups_plain gs).
Qed.
Lemma firm_split : forall r, firm r -> r <> [] -> exists c q, r = c :: q /\ isgraph c = true /\ c <> ","%char.
Proof. intros [|c q] F N; [now elim N|]. exists c, q. split; [reflexivity|]. now apply (F c q). Qed.
Lemma app_cons_nil : forall (t : text) c x, t ++ c :: x <> []. Proof. intros [|d t] c x; discriminate. Qed.
Lemma args_ordered_vw : forall ci line x k l t, args_ordered k l t -> forall n s, (List.length l < n)%nat -> vw line (t ++ ")"%char :: x) s ->
  exists att s1 s' r, parse_attributes ci s = Some (att, s1) /\ ordered_args ci n k att s1 = Some (l, s') /\ vw line (")"%char :: x) s' /\
    vw line r s1 /\ head r <> "."%char.
Proof.
  intros ci line x k l t H. induction H as [k|k gs tg v sp l t Hg Sv Hv Sp Hs H IH]; intros n s Hn V.
  - destruct (no_groups ci line _ s (paren_plain x) V) as (s1 & E1 & V1). destruct n as [|n]; [cbn in Hn; lia|].
    exists [], s1, s1, (")"%char :: x). split; [exact E1|]. split; [|split; [exact V1|split; [exact V1|discriminate]]].
    cbn [ordered_args]. inb (is_alnum_vw _ _ _ V1). now rewrite (match1_vw _ _ _ (str "+-.") V1).
  - destruct n as [|n]; [cbn in Hn; lia|]. destruct v as [|c v]; [destruct Hv as [Hv|[Hv|[Hv|[]]]]; discriminate Hv|].
    change (head (c :: v)) with c in Hv. destruct (value_start c Hv) as (N1 & N2 & N3 & G & A).
    repeat (rewrite <- app_assoc in V; cbn [app] in V).
    destruct (attributes_vw ci line _ gs tg s Hg (plain_cons c _ G N1 N2) V) as (s1 & E1 & V1).
    exists (joined [] gs), s1. cbn [ordered_args]. inb (is_alnum_vw _ _ _ V1). rewrite (match1_vw _ _ _ (str "+-.") V1). cbn [bind].
    change (head (c :: v ++ sp ++ t ++ ")"%char :: x)) with c. rewrite A. pose proof (args_ordered_firm _ l t x H) as F.
    destruct (ctos_plain line (str ",)") [] [] (c :: v) (sp ++ t ++ ")"%char :: x) _ s1 eq_refl V1) as (s2 & E2 & V2 & _).
    + now apply dropbl_graph.
    + now apply simple_fterm.
    + destruct (firm_split _ F (app_cons_nil _ _ _)) as (d & q & Ed & _). rewrite Ed. apply sep_head; [assumption|].
      destruct Hs as [Hs| ->]; [now left|right]. now injection Ed as <- _.
    + now right.
    + inb E2. rewrite (dropcom_sep sp _ Sp F) in V2.
      destruct (IH n s2 ltac:(cbn in Hn; lia) V2) as (att & s6 & s' & r & E6 & E7 & V7 & _). inb E6. inb E7.
      eexists s', _. split; [exact E1|]. split; [reflexivity|]. split; [exact V7|]. split; [exact V1|exact N3].
Qed.
Lemma args_named_len : forall l t, args_named l t -> (List.length l <= List.length t)%nat.
Proof. intros l t H. induction H; [reflexivity|]. repeat (rewrite app_length; cbn [List.length]). lia. Qed.
Lemma args_ordered_len : forall k l t, args_ordered k l t -> (List.length l <= List.length t)%nat.
Proof.
  intros k l t H. induction H as [|k gs tg v sp l t _ _ Hv _ _ _ IH]; [cbn; lia|]. destruct v as [|c v]; [destruct Hv as [Hv|[Hv|[Hv|[]]]]; discriminate Hv|].
  repeat (rewrite app_length; cbn [List.length]). lia.
Qed.

(* x is what follows the parameters *)
Lemma parse_args_vw : forall ci line x l t s, arguments l t -> firm x -> (t = [] -> head x <> "#"%char \/ forall y, x <> str "#(" ++ y) -> vw line (t ++ x) s ->
  exists s', parse_args ci s = Some (l, s') /\ vw line x s'.
Proof.
  intros ci line x l t s H F Hx V. unfold parse_args. destruct H as [|b1 l t b2 B1 H Nl B2|b1 l t b2 B1 H B2].
  - cbn [app] in V. destruct (lit_miss ci line (str "#(") _ s hash_ops V) as (s1 & E1 & O1 & V1).
    { intros y. rewrite (dropbl_firm x F). destruct (Hx eq_refl) as [N|N]; [|apply N]. intros ->. now elim N. }
    inb E1. rewrite O1. exists s1. auto.
  - repeat (rewrite <- app_assoc in V; cbn [app] in V). pose proof (args_named_firm l t (b2 ++ x) H) as F1.
    destruct (lit_hit ci line (str "#(") _ [] b1 s hash_ops ltac:(intros ? ? [= <- _]; reflexivity) ltac:(discriminate) nil_sp B1 F1 V) as (s1 & E1 & O1 & V1).
    inb E1. rewrite O1.
    assert (Hn : forall s2 r, vw line r s2 -> (List.length l < rounds s2)%nat).
    { intros s2 r V2. rewrite (vw_rounds _ _ _ V2). pose proof (vw_le _ _ _ V1) as Q. rewrite app_length in Q. pose proof (args_named_len _ _ H). lia. }
    destruct (args_named_vw ci line (b2 ++ x) l t H (rounds s1) s1 (Hn _ _ V1) V1) as (att & s2 & s3 & E2 & E3 & V3 & Hd). inb E2.
    destruct (Hd Nl) as (q & V2). rewrite (match1c_vw _ _ _ "."%char V2). cbn [bind]. change (head ("."%char :: q)) with "."%char.
    replace (Ascii.eqb "." ".") with true by reflexivity. cbv iota.
    assert (rounds s2 = rounds s1) as -> by (rewrite (vw_rounds _ _ _ V2), (vw_rounds _ _ _ V1); reflexivity). inb E3.
    destruct (char_vw line [] ")" b2 x s3 eq_refl nil_sp B2 F V3) as (s4 & E4 & V4 & _). inb E4. exists s4. auto.
  - repeat (rewrite <- app_assoc in V; cbn [app] in V). pose proof (args_ordered_firm 0 l t (b2 ++ x) H) as F1.
    destruct (lit_hit ci line (str "#(") _ [] b1 s hash_ops ltac:(intros ? ? [= <- _]; reflexivity) ltac:(discriminate) nil_sp B1 F1 V) as (s1 & E1 & O1 & V1).
    inb E1. rewrite O1.
    assert (Hn : forall s2 r, vw line r s2 -> (List.length l < rounds s2)%nat).
    { intros s2 r V2. rewrite (vw_rounds _ _ _ V2). pose proof (vw_le _ _ _ V1) as Q. rewrite app_length in Q. pose proof (args_ordered_len _ _ _ H). lia. }
    destruct (args_ordered_vw ci line (b2 ++ x) 0 l t H (rounds s1) s1 (Hn _ _ V1) V1) as (att & s2 & s3 & r & E2 & E3 & V3 & V2 & Hd). inb E2.
    rewrite (match1c_vw _ _ _ "."%char V2). cbn [bind]. destruct (Ascii.eqb_spec (head r) "."); [contradiction|].
    assert (rounds s2 = rounds s1) as -> by (rewrite (vw_rounds _ _ _ V2), (vw_rounds _ _ _ V1); reflexivity). inb E3.
    destruct (char_vw line [] ")" b2 x s3 eq_refl nil_sp B2 F V3) as (s4 & E4 & V4 & _). inb E4. exists s4. auto.
Qed.

(* ---- ports ---- *)
Lemma ports_named_firm : forall l t x, ports_named l t -> firm (t ++ ")"%char :: x).
Proof.
  intros l t x [|gs tg b1 tn n b2 b3 tv v b4 sp l' t' Hg _ _ _ _ _ _ _ _]; [now apply firm_cons|]. rewrite <- app_assoc. cbn [app]. now apply (groups_plain gs).
Qed.
Lemma ports_named_len : forall l t, ports_named l t -> (List.length l <= List.length t)%nat.
Proof. intros l t H. induction H; [reflexivity|]. repeat (rewrite app_length; cbn [List.length]). lia. Qed.
Lemma ports_named_vw : forall ci line x l t, ports_named l t -> forall n s, (List.length l < n)%nat -> vw line (t ++ ")"%char :: x) s ->
  exists att s1 s', parse_attributes ci s = Some (att, s1) /\ named_ports ci n att s1 = Some (l ++ [GroundOpen], s') /\ vw line (")"%char :: x) s' /\
    (l <> [] -> exists q, vw line ("."%char :: q) s1).
Proof.
  intros ci line x l t H. induction H as [|gs tg b1 tn n b2 b3 tv v b4 sp l t Hg B1 Sn B2 B3 Sv B4 Sp H IH]; intros k s Hk V.
  - destruct (no_groups ci line _ s (paren_plain x) V) as (s1 & E1 & V1). destruct k as [|k]; [cbn in Hk; lia|].
    destruct (nochar_vw line "." _ s1 ltac:(discriminate) (proj1 (paren_plain x)) ltac:(discriminate) V1) as (s2 & E2 & V2 & O2).
    exists [], s1, s2. split; [exact E1|]. split; [cbn [named_ports]; inb E2; now rewrite O2|]. split; [exact V2|]. intros N. now elim N.
  - destruct k as [|k]; [cbn in Hk; lia|]. rewrite <- app_assoc in V. cbn [app] in V.
    destruct (attributes_vw ci line _ gs tg s Hg (plain_cons "." _ eq_refl ltac:(discriminate) ltac:(discriminate)) V) as (s1 & E1 & V1).
    exists (joined [] gs), s1. cbn [named_ports].
    destruct (char_bl line [] "." _ s1 eq_refl nil_sp V1) as (s2 & E2 & V2 & O2). inb E2. rewrite O2.
    repeat (rewrite <- app_assoc in V2; cbn [app] in V2). pose proof (ports_named_firm l t x H) as F.
    destruct (lead b1 tn b2 "(" (b3 ++ tv ++ b4 ++ ")"%char :: sp ++ t ++ ")"%char :: x) B1 B2 eq_refl (ident_head _ tn n Sn)) as (b5 & B5 & D).
    rewrite D in V2. destruct (ident_vw line (str "(") tn n [] b5 "(" _ s2 Sn nil_sp B5 eq_refl ltac:(discriminate) ltac:(discriminate) (or_introl eq_refl) V2) as (s3 & b6 & E3 & B6 & V3). inb E3.
    destruct (char_bl line b6 "(" _ s3 eq_refl B6 V3) as (s4 & E4 & V4 & O4). inb E4. rewrite O4. clear D.
    destruct (lead b3 tv b4 ")" (sp ++ t ++ ")"%char :: x) B3 B4 eq_refl (ident_head _ tv v Sv)) as (b7 & B7 & D). rewrite D in V4.
    destruct (ident_vw line (str ")") tv v [] b7 ")" _ s4 Sv nil_sp B7 eq_refl ltac:(discriminate) ltac:(discriminate) (or_introl eq_refl) V4) as (s5 & b8 & E5 & B8 & V5). inb E5.
    destruct (char_bl line b8 ")" _ s5 eq_refl B8 V5) as (s6 & E6 & V6 & O6). inb E6.
    destruct (skip1bc_vw _ _ _ ","%char ltac:(discriminate) V6) as (s7 & E7 & V7 & _). inb E7.
    assert (Dc : eat1b (fun c => Ascii.eqb c ",") (dropbl (sp ++ t ++ ")"%char :: x)) = t ++ ")"%char :: x).
    { rewrite <- (eat_comma sp _ Sp F) at 2. unfold eat1b. f_equal. f_equal. apply drop_idem, dropbl_head. }
    rewrite Dc in V7. destruct (IH k s7 ltac:(cbn in Hk; lia) V7) as (att & s8 & s' & E8 & E9 & V9 & _). inb E8. inb E9.
    exists s'. split; [exact E1|]. split; [reflexivity|]. split; [exact V9|]. intros _. eexists. exact V1.
Qed.

Lemma port_start : forall c, isalnum c = true \/ c = "\"%char -> c <> ","%char /\ c <> "("%char /\ c <> "."%char /\ isgraph c = true /\ isalnum (toascii c) || Ascii.eqb c "\" = true.
Proof.
  intros c [A| ->]; [|repeat split; discriminate]. destruct (alnum_not c A) as (N1 & N2 & N3 & G & T). rewrite T, A. auto.
Qed.
Lemma ports_ordered_firm : forall k l t x, ports_ordered k l t -> firm (t ++ ")"%char :: x).
Proof.
  intros k l t x [|k' gs tg tv v sp l' t' Hg _ Hv _ _ _]; [now apply firm_cons|]. rewrite <- app_assoc. destruct tv as [|c tv]; [destruct Hv as [Hv|Hv]; discriminate Hv|].
  destruct (port_start c Hv) as (N1 & N2 & _ & G & _). cbn [app]. now apply (groups_plain gs).
Qed.
Lemma ports_ordered_len : forall k l t, ports_ordered k l t -> (List.length l <= S (List.length t))%nat.
Proof.
  intros k l t H. induction H as [|k gs tg tv v sp l t _ _ Hv _ _ _ IH]; [cbn; lia|]. destruct tv as [|c tv]; [destruct Hv as [Hv|Hv]; discriminate Hv|].
  repeat (rewrite app_length; cbn [List.length]). lia.
Qed.
Lemma ports_ordered_vw : forall ci line x k l t, ports_ordered k l t -> forall n s, (List.length l <= n)%nat -> vw line (t ++ ")"%char :: x) s ->
  exists att s1 s' r, parse_attributes ci s = Some (att, s1) /\ ordered_ports ci n k att s1 = Some (l, s') /\ vw line (")"%char :: x) s' /\
    vw line r s1 /\ head r <> "."%char.
Proof.
  intros ci line x k l t H. induction H as [k|k gs tg tv v sp l t Hg Sv Hv Sp Hs H IH]; intros n s Hn V.
  - destruct (no_groups ci line _ s (paren_plain x) V) as (s1 & E1 & V1). destruct n as [|n]; [cbn in Hn; lia|].
    exists [], s1, s1, (")"%char :: x). split; [exact E1|]. split; [|split; [exact V1|split; [exact V1|discriminate]]].
    cbn [ordered_ports]. inb (is_alnum_vw _ _ _ V1). now rewrite (match1c_vw _ _ _ "\"%char V1).
  - destruct n as [|n]; [cbn in Hn; lia|]. destruct tv as [|c tv]; [destruct Hv as [Hv|Hv]; discriminate Hv|].
    change (head (c :: tv)) with c in Hv. pose proof Hv as Hv'. destruct (port_start c Hv) as (N1 & N2 & N3 & G & A).
    repeat (rewrite <- app_assoc in V; cbn [app] in V).
    destruct (attributes_vw ci line _ gs tg s Hg (plain_cons c _ G N1 N2) V) as (s1 & E1 & V1).
    exists (joined [] gs), s1. cbn [ordered_ports]. inb (is_alnum_vw _ _ _ V1). rewrite (match1c_vw _ _ _ "\"%char V1). cbn [bind].
    change (head (c :: tv ++ sp ++ t ++ ")"%char :: x)) with c. rewrite A. pose proof (ports_ordered_firm _ l t x H) as F.
    destruct (firm_split _ F (app_cons_nil _ _ _)) as (d & q & Ed & Gd & Nd).
    destruct (ident_sep line (c :: tv) v sp d q s1 Sv Hv' Sp) as (s2 & s3 & E2 & E3 & V3); try assumption.
    + destruct Hs as [Hs| ->]; [now left|right]. now injection Ed as <- _.
    + rewrite <- Ed. exact V1.
    + inb E2. inb E3. rewrite <- Ed in V3. destruct (IH n s3 ltac:(cbn in Hn; lia) V3) as (att & s6 & s' & r & E6 & E7 & V7 & _). inb E6. inb E7.
      eexists s', _. split; [exact E1|]. split; [reflexivity|]. split; [exact V7|]. split; [exact V1|exact N3].
Qed.
Lemma parse_ports_vw : forall ci line b b1 x l t b2 s, ports l t -> spaces b -> spaces b1 -> spaces b2 -> firm x -> vw line (b ++ "("%char :: b1 ++ t ++ ")"%char :: b2 ++ x) s ->
  exists s', parse_ports ci s = Some (l, s') /\ vw line x s'.
Proof.
  intros ci line b b1 x l t b2 s H B B1 B2 F V. unfold parse_ports. destruct H as [l t H Nl|l t H].
  - pose proof (ports_named_firm l t (b2 ++ x) H) as F1. destruct (char_vw line b "(" b1 _ s eq_refl B B1 F1 V) as (s1 & E1 & V1 & O1). inb E1. rewrite O1.
    assert (Hn : (List.length l < rounds s1)%nat).
    { rewrite (vw_rounds _ _ _ V1). pose proof (vw_le _ _ _ V1) as Q. rewrite app_length in Q. pose proof (ports_named_len _ _ H). lia. }
    destruct (ports_named_vw ci line (b2 ++ x) l t H (rounds s1) s1 Hn V1) as (att & s2 & s3 & E2 & E3 & V3 & Hd). inb E2.
    destruct (Hd Nl) as (q & V2). rewrite (match1c_vw _ _ _ "."%char V2). cbn [bind]. change (head ("."%char :: q)) with "."%char.
    replace (Ascii.eqb "." ".") with true by reflexivity. cbv iota.
    assert (rounds s2 = rounds s1) as -> by (rewrite (vw_rounds _ _ _ V2), (vw_rounds _ _ _ V1); reflexivity). inb E3.
    destruct (char_vw line [] ")" b2 x s3 eq_refl nil_sp B2 F V3) as (s4 & E4 & V4 & _). inb E4. exists s4. auto.
  - pose proof (ports_ordered_firm 0 l t (b2 ++ x) H) as F1. destruct (char_vw line b "(" b1 _ s eq_refl B B1 F1 V) as (s1 & E1 & V1 & O1). inb E1. rewrite O1.
    assert (Hn : (List.length l <= rounds s1)%nat).
    { rewrite (vw_rounds _ _ _ V1). pose proof (vw_le _ _ _ V1) as Q. rewrite app_length in Q. pose proof (ports_ordered_len _ _ _ H). lia. }
    destruct (ports_ordered_vw ci line (b2 ++ x) 0 l t H (rounds s1) s1 Hn V1) as (att & s2 & s3 & r & E2 & E3 & V3 & V2 & Hd). inb E2.
    rewrite (match1c_vw _ _ _ "."%char V2). cbn [bind]. destruct (Ascii.eqb_spec (head r) "."); [contradiction|].
    assert (rounds s2 = rounds s1) as -> by (rewrite (vw_rounds _ _ _ V2), (vw_rounds _ _ _ V1); reflexivity). inb E3.
    destruct (char_vw line [] ")" b2 x s3 eq_refl nil_sp B2 F V3) as (s4 & E4 & V4 & _). inb E4. exists s4. auto.
Qed.

(* ---- the line ---- *)
Lemma name_vw : forall line w b x s, name w -> spaces b -> fterm TERM (head x) = true -> vw line (b ++ w ++ x) s ->
  exists s', word s = Some (w, s') /\ vw line (dropcom x) s' /\ ok s' = true.
Proof.
  intros line w b x s (Nw & S & Q) B Hx V. unfold word.
  destruct (ctos_plain line TERM [DQ; "'"%char; "{"%char] [DQ; "'"%char; "}"%char] w x _ s eq_refl V) as (s' & E & V' & O).
  - rewrite (dropbl_app b _ (space_blank _ B)). destruct w as [|c w]; [now elim Nw|]. cbn [app]. apply dropbl_graph. apply S. now left.
  - now apply simple_fterm.
  - exact Hx.
  - right. destruct w as [|c w]; [now elim Nw|]. change (head ((c :: w) ++ x)) with c. change (head (c :: w)) with c in Q. cbn [find_pos].
    destruct (Ascii.eqb_spec c DQ) as [->|_]; [elim Q; now left|]. destruct (Ascii.eqb_spec c "'") as [->|_]; [elim Q; right; now left|].
    destruct (Ascii.eqb_spec c "{") as [->|_]; [|reflexivity]. destruct S as [_ S]. elim (S "{"%char); [now left|]. cbn. auto 8.
  - exists s'. split; [exact E|]. split; [exact V'|]. rewrite O. now destruct w.
Qed.
Lemma name_firm : forall w x, name w -> firm (w ++ x) /\ plain_next (w ++ x).
Proof.
  intros [|c w] x (N & [V S] & _); [now elim N|]. assert (I : In c (c :: w)) by now left. specialize (V c I). specialize (S c I).
  assert (Nc : c <> ","%char) by (intros ->; apply S; now left). assert (Np : c <> "("%char) by (intros ->; apply S; cbn; auto 8).
  split; [now apply firm_cons|now apply plain_cons].
Qed.

(* Every line of that form is read as the calls it stands for, in order, to the end of the line and
   without complaint, from wherever the cursor was *)
Theorem C63_read : forall ci calls t s, instance_line calls t -> on_line t s ->
  exists s', parse_instance ci s = Some (calls, s') /\ on_line t s' /\ after s' = [] /\ ok s' = true.
Proof.
  intros ci calls t s H Hs. destruct (on_line_vw _ _ Hs) as (r0 & V0).
  assert (V : vw t t (reset 0 s)). { destruct V0 as (E1 & E2 & _). split; [exact E1|]. split; [exact E2|]. exists []. split; reflexivity. }
  clear r0 V0 Hs. unfold parse_instance. generalize dependent (reset 0 s). clear s. intros s V.
  destruct H as [b0 gs tg ty b1 args ta lab b2 b3 pts tp b4 b5 B0 Hg Hty B1 Nb1 Har Hlab Hh B2 B3 Hp B4 B5].
  set (line := b0 ++ _) in V at 1. assert (El : line = b0 ++ tg ++ ty ++ b1 ++ ta ++ lab ++ b2 ++ "("%char :: b3 ++ tp ++ ")"%char :: b4 ++ ";"%char :: b5) by reflexivity.
  rewrite <- El. clearbody line. clear El.
  destruct (attributes_sp ci line _ gs tg b0 s Hg (proj2 (name_firm ty _ Hty)) B0 V) as (s1 & b0' & E1 & B0' & _ & V1). inb E1.
  assert (T1 : forall y, fterm TERM (head (b1 ++ y)) = true) by (intros y; destruct b1 as [|c b1]; [now elim Nb1|]; inversion_clear B1; now apply fterm_space).
  destruct (name_vw line ty b0' _ s1 Hty B0' (T1 _) V1) as (s2 & E2 & V2 & _). inb E2.
  assert (Fl : firm (lab ++ b2 ++ "("%char :: b3 ++ tp ++ ")"%char :: b4 ++ ";"%char :: b5)) by (now apply name_firm).
  assert (Fa : firm (ta ++ lab ++ b2 ++ "("%char :: b3 ++ tp ++ ")"%char :: b4 ++ ";"%char :: b5)) by (destruct Har; [exact Fl|now apply firm_cons|now apply firm_cons]).
  rewrite (dropcom_bl b1 _ B1 Fa) in V2.
  assert (Hx : forall y, ta = [] -> head (lab ++ y) <> "#"%char \/ forall z, lab ++ y <> str "#(" ++ z).
  { intros y Ea. left. destruct Hlab as (Nl & _). destruct lab as [|c lab]; [now elim Nl|]. exact (Hh Ea). }
  destruct (parse_args_vw ci line _ args ta s2 Har Fl (Hx _) V2) as (s3 & E3 & V3). inb E3.
  assert (T2 : forall y, fterm TERM (head (b2 ++ "("%char :: y)) = true) by (intros y; apply fterm_after; [assumption|reflexivity|cbn; auto 8]).
  destruct (name_vw line lab [] _ s3 Hlab nil_sp (T2 _) V3) as (s4 & E4 & V4 & O4).
  rewrite (dropcom_bl b2 _ B2) in V4 by (now apply firm_cons). unfold parse_label. inb E4. rewrite O4.
  assert (Fs : firm (";"%char :: b5)) by (now apply firm_cons).
  destruct (parse_ports_vw ci line [] b3 (";"%char :: b5) pts tp b4 s4 Hp nil_sp B3 B4 Fs V4) as (s5 & E5 & V5). inb E5.
  destruct (char_bl line [] ";" _ s5 eq_refl nil_sp V5) as (s6 & E6 & V6 & O6). inb E6.
  rewrite <- (app_nil_r b5), (dropbl_app b5 [] (space_blank _ B5)) in V6. change (dropbl []) with (@nil ascii) in V6.
  unfold check. destruct (skipbl_vw _ _ _ V6) as (s7 & E7 & V7 & _). inb E7. change (dropbl []) with (@nil ascii) in V7. inb (peek_vw _ _ _ V7).
  change (head []) with NUL. replace (Ascii.eqb NUL "/") with false by reflexivity. replace (Ascii.eqb NUL ";" || Ascii.eqb NUL "'") with false by reflexivity.
  replace (Ascii.eqb NUL NUL) with true by reflexivity. cbn [bind].
  exists (set_ok s7 true). split; [reflexivity|]. split; [apply vw_on_line with []; exact V7|]. split; [now apply after_vw with line|reflexivity].
Qed.
Print Assumptions C63_read.

(* Reading is settled by the text alone, so no text stands for two different instances *)
Theorem C63_unambiguous : forall c1 c2 t, instance_line c1 t -> instance_line c2 t -> c1 = c2.
Proof.
  intros c1 c2 t H1 H2. assert (L : on_line t (cs_string t)) by (apply vw_on_line with t, vw_start).
  destruct (C63_read false c1 t _ H1 L) as (s1 & E1 & _). destruct (C63_read false c2 t _ H2 L) as (s2 & E2 & _). congruence.
Qed.
Print Assumptions C63_unambiguous.

(* ---- what is printed ---- *)
(* a parameter value as it is printed: the parentheses in it are in pairs, there is no backslash *)
Inductive balanced : text -> Prop :=
  | bal_nil : balanced []
  | bal_char c t : c <> NUL -> c <> "("%char -> c <> ")"%char -> c <> "\"%char -> balanced t -> balanced (c :: t)
  | bal_pair t1 t2 : balanced t1 -> balanced t2 -> balanced ("("%char :: t1 ++ ")"%char :: t2).
(* the name of a port or node: a name that begins with a digit is all letters and digits; one that begins
   with a backslash has something else in it *)
Definition node_name (stop n : text) : Prop :=
  (simple stop n /\ isdigit (head n) = false /\ head n <> "\"%char) \/
  (isdigit (head n) = true /\ forall c, In c n -> isalnum c = true) \/
  (exists m c, n = "\"%char :: m /\ visible m /\ In c m /\ isalnum c = false).
Definition printable (x : inst) : Prop :=
  attribute (i_attr x) /\ name (i_type x) /\ name (i_label x) /\
  Forall (fun p => let '(n, v, a) := p in simple (str "(") n /\ balanced v /\ attribute a) (i_args x) /\
  Forall (fun p => let '(n, v, a) := p in node_name (str "(") n /\ node_name (str ")") v /\ attribute a) (i_ports x).
Definition says (x : inst) : list call :=
  Attributes (i_attr x) :: SetType (i_type x) :: map (fun p => let '(n, v, a) := p in SetParam n v a) (i_args x) ++ SetLabel (i_label x) ::
  match i_ports x with [] => [GroundFrom 0] | l => map (fun p => let '(n, v, a) := p in SetPort n v a) l ++ [GroundOpen] end.

Lemma balanced_stands : forall v, balanced v -> stands "(" ")" v v.
Proof.
  intros v H. induction H as [|c t N1 N2 N3 N4 _ IH|t1 t2 _ IH1 _ IH2]; [constructor| |apply st_pair; [discriminate|assumption|assumption]].
  constructor; [|exact IH]. intros [E|[E|[E|[E|[]]]]]; congruence.
Qed.
Lemma mangle_ident : forall stop n, node_name stop n -> ident stop (mangle n) n.
Proof.
  intros stop n [(S & D & B)|[(D & A)|(m & c & -> & V & I & A)]].
  - replace (mangle n) with n; [now constructor|]. destruct n as [|c n]; [reflexivity|]. change (head (c :: n)) with c in *. cbn [mangle]. rewrite D.
    now destruct (Ascii.eqb_spec c "\").
  - destruct n as [|c n]; [discriminate D|]. change (head (c :: n)) with c in *. cbn [mangle]. rewrite D. apply (id_esc_plain stop (c :: n) " "); [discriminate|exact A|now left].
  - change (mangle ("\"%char :: m)) with ("\"%char :: m ++ [" "%char]). apply (id_esc stop m " " c); try assumption. now left.
Qed.
Lemma attr_groups : forall a, attribute a -> exists gs, groups gs (attr_text a) /\ joined [] gs = a.
Proof.
  intros [|c a] H; [exists []; split; [constructor|reflexivity]|]. exists [c :: a]. split; [|cbn; now rewrite app_nil_r].
  change (attr_text (c :: a)) with (OPEN ++ str " " ++ (c :: a) ++ str " *) "). change (str " *) ") with (str " " ++ CLOSE ++ str " " ++ []).
  assert (S : spaces (str " ")) by (repeat constructor). now apply gr_cons; [| | | |constructor].
Qed.
Lemma sep_nil : sep []. Proof. left. apply nil_sp. Qed.
Lemma sep_comma : sep (str ","). Proof. right. exists [], []. auto. Qed.
Lemma printed_args : forall l, Forall (fun p => let '(n, v, a) := p in simple (str "(") n /\ balanced v /\ attribute a) l ->
  exists t, args_named (map (fun p => let '(n, v, a) := p in SetParam n v a) l) t /\ (forall sp, items (fun n => n) sp l = match l with [] => [] | _ => sp ++ t end).
Proof.
  intros l H. induction H as [|[[n v] a] l (Sn & Bv & Ha) _ (t & H & E)]; [exists []; split; [constructor|reflexivity]|].
  destruct (attr_groups a Ha) as (gs & Hg & Ej). exists (attr_text a ++ "."%char :: n ++ "("%char :: v ++ ")"%char :: items (fun n => n) (str ",") l). split; [|reflexivity].
  cbn [map]. rewrite <- Ej at 1. rewrite E. apply balanced_stands in Bv.
  destruct l as [|p l].
  - inversion H. subst t. exact (an_cons gs (attr_text a) [] n [] v v [] [] [] Hg nil_sp Sn nil_sp Bv sep_nil an_nil).
  - exact (an_cons gs (attr_text a) [] n [] v v (str ",") _ t Hg nil_sp Sn nil_sp Bv sep_comma H).
Qed.
Lemma printed_ports : forall l, Forall (fun p => let '(n, v, a) := p in node_name (str "(") n /\ node_name (str ")") v /\ attribute a) l ->
  exists t, ports_named (map (fun p => let '(n, v, a) := p in SetPort n v a) l) t /\ (forall sp, items mangle sp l = match l with [] => [] | _ => sp ++ t end).
Proof.
  intros l H. induction H as [|[[n v] a] l (Sn & Sv & Ha) _ (t & H & E)]; [exists []; split; [constructor|reflexivity]|].
  destruct (attr_groups a Ha) as (gs & Hg & Ej). exists (attr_text a ++ "."%char :: mangle n ++ "("%char :: mangle v ++ ")"%char :: items mangle (str ",") l). split; [|reflexivity].
  cbn [map]. rewrite <- Ej at 1. rewrite E. apply mangle_ident in Sn. apply mangle_ident in Sv.
  destruct l as [|p l].
  - inversion H. subst t. exact (pn_cons gs (attr_text a) [] _ n [] [] _ v [] [] [] [] Hg nil_sp Sn nil_sp nil_sp Sv nil_sp sep_nil pn_nil).
  - exact (pn_cons gs (attr_text a) [] _ n [] [] _ v [] (str ",") _ t Hg nil_sp Sn nil_sp nil_sp Sv nil_sp sep_comma H).
Qed.

(* A printed instance is a line of that form, so it is read back as the instance it was printed for *)
Theorem C63_print_read : forall ci x, printable x -> instance_line (says x) (print_instance x) /\
  exists s', parse_instance ci (cs_string (print_instance x)) = Some (says x, s') /\ after s' = [] /\ ok s' = true.
Proof.
  intros ci x H. assert (L : instance_line (says x) (print_instance x)).
  - destruct x as [a ty l lab p]. destruct H as (Ha & Hty & Hlab & Hl & Hp). cbn [i_attr i_type i_args i_label i_ports] in *. unfold says, print_instance. cbn [i_attr i_type i_args i_label i_ports].
    destruct (attr_groups a Ha) as (gs & Hg & Ej). destruct (printed_args l Hl) as (ta & Ta & Ea). destruct (printed_ports p Hp) as (tp & Tp & Ep).
    rewrite Ea, Ep.
    assert (S1 : spaces (str " ")) by (repeat constructor).
    assert (A : arguments (map (fun p => let '(n, v, a) := p in SetParam n v a) l) (str "#(" ++ [] ++ match l with [] => [] | _ :: _ => [] ++ ta end ++ ")"%char :: str " ")).
    { destruct l as [|q l]; [apply ar_ordered; [apply nil_sp|constructor|exact S1]|]. apply ar_named; [apply nil_sp|exact Ta|discriminate|exact S1]. }
    assert (P : ports (match p with [] => [GroundFrom 0] | _ => map (fun p => let '(n, v, a) := p in SetPort n v a) p ++ [GroundOpen] end) (match p with [] => [] | _ => [] ++ tp end)).
    { destruct p as [|q p]; [apply po_ordered; constructor|]. apply po_named; [exact Tp|discriminate]. }
    pose proof (il [] gs (attr_text a) ty (str " ") _ _ lab (str " ") [] _ _ [] [] nil_sp Hg Hty S1 ltac:(discriminate) A Hlab ltac:(discriminate) S1 nil_sp P nil_sp nil_sp) as Z.
    rewrite Ej in Z. revert Z. match goal with |- instance_line ?c ?u -> instance_line ?c' ?v => replace u with v end; [now destruct p|].
    clear. destruct l as [|q l], p as [|q' p]; simpl; repeat (rewrite <- app_assoc; simpl); reflexivity.
  - split; [exact L|]. destruct (C63_read ci _ _ (cs_string (print_instance x)) L) as (s' & E & _ & A & O); [apply vw_on_line with (print_instance x), vw_start|].
    now exists s'.
Qed.
Print Assumptions C63_print_read.

(* ---- a case ---- *)
Definition demo : inst := mkinst (str "desc=left arm") (str "resistor") [(str "r", str "1k*(2+x)", []); (str "tc1", str "2", str "cal")] (str "Rin")
  [(str "p", str "1", []); (str "n", str "\a*b", str "ref")].
Lemma attr_by_check : forall a, forallb isgraph (firstn 1 a) && negb (existsb (Ascii.eqb ",") (firstn 1 a)) && forallb isgraph (firstn 1 (rev a)) && negb (existsb (Ascii.eqb NUL) a) && negb (existsb (Ascii.eqb "*") a) = true -> attribute a.
Proof.
  intros a H. repeat (apply andb_prop in H; destruct H as [H ?]).
  assert (Nn : forall z, negb (existsb (Ascii.eqb z) a) = true -> ~ In z a).
  { intros z Hz I. apply negb_true_iff in Hz. assert (existsb (Ascii.eqb z) a = true) by (apply existsb_exists; exists z; split; [exact I|apply Ascii.eqb_refl]). congruence. }
  split; [|split; [|split; [now apply Nn|]]].
  - intros c q ->. cbn in *. rewrite andb_true_r in *. split; [assumption|]. intros ->. cbn in *. discriminate.
  - intros p c ->. rewrite rev_unit in *. cbn in *. now rewrite andb_true_r in *.
  - intros p q E. apply (Nn "*"%char ltac:(assumption)). rewrite E. apply in_or_app. right. now left.
Qed.
Lemma vis_by_check : forall stop w, forallb isgraph w && forallb (fun c => negb (mem c stop)) w = true -> simple stop w.
Proof.
  intros stop w H. apply andb_prop in H. destruct H as [H1 H2]. rewrite forallb_forall in H1, H2. split; [exact H1|]. intros c I J. specialize (H2 c I).
  apply negb_true_iff in H2. assert (mem c stop = true) by (apply existsb_exists; exists c; split; [exact J|apply Ascii.eqb_refl]). congruence.
Qed.
Lemma demo_printable : printable demo.
Proof.
  assert (N : forall w, simple (str ",=(){};") w -> w <> [] -> ~ In (head w) [DQ; "'"%char] -> name w) by (intros; now split).
  split; [now apply attr_by_check|]. split; [apply N; [now apply vis_by_check|discriminate|cbn; intuition discriminate]|].
  split; [apply N; [now apply vis_by_check|discriminate|cbn; intuition discriminate]|]. split.
  - constructor; [|constructor; [|constructor]]; (split; [now apply vis_by_check|]; split; [|now apply attr_by_check]).
    + do 3 (apply bal_char; try discriminate). apply (bal_pair (str "2+x") []); [|constructor]. do 3 (apply bal_char; try discriminate). constructor.
    + apply bal_char; try discriminate. constructor.
  - constructor; [|constructor; [|constructor]]; (split; [left; split; [now apply vis_by_check|split; [reflexivity|discriminate]]|]; split; [|now apply attr_by_check]).
    + right. left. split; [reflexivity|]. intros c [<-|[]]. reflexivity.
    + right. right. exists (str "a*b"), "*"%char. split; [reflexivity|]. split; [apply (vis_by_check [] (str "a*b") eq_refl)|]. split; [cbn; auto|reflexivity].
Qed.
Example C63_example : print_instance demo = str "(* desc=left arm *) resistor #(.r(1k*(2+x)),(* cal *) .tc1(2)) Rin (.p(\1 ),(* ref *) .n(\a*b ));" /\
  exists s', parse_instance true (cs_string (print_instance demo)) = Some (says demo, s') /\ after s' = [].
Proof.
  split; [reflexivity|]. destruct (C63_print_read true demo demo_printable) as (_ & s' & E & A & _). exists s'. split; [exact E|exact A].
Qed.
(* the ways of writing that printing does not use *)
Example C63_example_free : exists calls, instance_line calls (str " r2 #( 1k , -2) Rx (\1 ,b) ; ") /\
  calls = [Attributes []; SetType (str "r2"); SetParamAt 0 (str "1k") []; SetParamAt 1 (str "-2") []; SetLabel (str "Rx"); SetPortAt 0 (str "1") []; SetPortAt 1 (str "b") []; GroundFrom 2].
Proof.
  eexists. split; [|reflexivity].
  assert (N : forall w, simple (str ",=(){};") w -> w <> [] -> ~ In (head w) [DQ; "'"%char] -> name w) by (intros; now split).
  assert (S1 : spaces (str " ")) by (repeat constructor).
  assert (C1 : sep (str " , ")) by (right; exists (str " "), (str " "); auto).
  apply (il (str " ") [] [] (str "r2") (str " ") [SetParamAt 0 (str "1k") []; SetParamAt 1 (str "-2") []] (str "#( 1k , -2) ") (str "Rx") (str " ") []
           [SetPortAt 0 (str "1") []; SetPortAt 1 (str "b") []; GroundFrom 2] (str "\1 ,b") (str " ") (str " ")); try assumption; try discriminate; try apply nil_sp; try apply gr_nil.
  - apply N; [now apply vis_by_check|discriminate|cbn; intuition discriminate].
  - apply (ar_ordered (str " ") _ (str "1k , -2") (str " ")); try assumption.
    apply (ao_cons 0 [] [] (str "1k") (str " , ") _ (str "-2")); [constructor|now apply vis_by_check|now left|exact C1|left; discriminate|].
    apply (ao_cons 1 [] [] (str "-2") [] [] []); [constructor|now apply vis_by_check|right; cbn; auto|apply sep_nil|now right|constructor].
  - apply N; [now apply vis_by_check|discriminate|cbn; intuition discriminate].
  - apply po_ordered. apply (po_cons 0 [] [] (str "\1 ") (str "1") (str ",") _ (str "b")); [constructor| |now right|apply sep_comma|left; discriminate|].
    + apply (id_esc_plain _ (str "1") " "); [discriminate|intros c [<-|[]]; reflexivity|now left].
    + apply (po_cons 1 [] [] (str "b") (str "b") [] [GroundFrom 2] []); [constructor| |now left|apply sep_nil|now right|constructor]. apply id_plain; [now apply vis_by_check|discriminate].
Qed.

(* ---- paramsets ---- *)
(* The parameters of a paramset are read back as printed when names and values are words *)
Definition word_or_none (v : text) : Prop := v = [] \/ name v.
Lemma name_or_none_vw : forall line v c q s, word_or_none v -> isgraph c = true -> c <> ","%char -> In c (str ",=(){};") -> ~ In c [DQ; "'"%char; "{"%char] -> vw line (v ++ c :: q) s ->
  exists s', word s = Some (v, s') /\ vw line (c :: q) s'.
Proof.
  intros line v c q s H G N I Nq V. assert (F : firm (c :: q)) by (now apply firm_cons). destruct H as [->|H].
  - cbn [app] in V. unfold word. destruct (ctos_plain line TERM [DQ; "'"%char; "{"%char] [DQ; "'"%char; "}"%char] [] (c :: q) _ s eq_refl V) as (s' & E & V' & _).
    + now apply dropbl_graph.
    + constructor.
    + now apply fterm_in.
    + right. change (head ([] ++ c :: q)) with c. cbn [find_pos]. destruct (Ascii.eqb_spec c DQ) as [->|_]; [elim Nq; cbn; auto|].
      destruct (Ascii.eqb_spec c "'") as [->|_]; [elim Nq; cbn; auto|]. destruct (Ascii.eqb_spec c "{") as [->|_]; [elim Nq; cbn; auto|reflexivity].
    + exists s'. rewrite (dropcom_firm _ F) in V'. auto.
  - destruct (name_vw line v [] (c :: q) s H nil_sp (fterm_in TERM c G I) V) as (s' & E & V' & _). exists s'. rewrite (dropcom_firm _ F) in V'. auto.
Qed.
Theorem C63_paramset_read : forall l s line, Forall (fun p => name (fst p) /\ word_or_none (snd p)) l -> on_line line s -> after s = paramset_items l ->
  exists s', parse_args_paramset s = Some (map (fun p => SetParam (fst p) (snd p) []) l, s') /\ on_line line s' /\ after s' = [].
Proof.
  intros l s line H Hs Ea. destruct (on_line_vw _ _ Hs) as (r & V). rewrite (after_vw _ _ _ V) in Ea. subst r. unfold parse_args_paramset.
  assert (Hn : (List.length l < rounds s)%nat).
  { rewrite (vw_rounds _ _ _ V). pose proof (vw_le _ _ _ V) as Q. assert (Q' : (List.length l <= List.length (paramset_items l))%nat); [|lia].
    clear. induction l as [|[n v] l IH]; [cbn; lia|]. cbn [paramset_items]. repeat (rewrite app_length; cbn [List.length str list_ascii_of_string]). lia. }
  assert (D : exists r, vw line r s /\ dropbl r = dropbl (paramset_items l)) by eauto. clear V Hs. destruct D as (r & V & D).
  generalize dependent (rounds s). intros n Hn. revert n r s Hn V D. induction H as [|[n v] l (Hname & Hv) H IH]; intros k r s Hk V D.
  - destruct k as [|k]; [cbn in Hk; lia|]. cbn [paramset_args map]. cbn [paramset_items] in D. change (dropbl []) with (@nil ascii) in D.
    destruct (skip1bc_vw _ _ _ "."%char ltac:(discriminate) V) as (s1 & E1 & V1 & _ & O1). inb E1. unfold eat1b in V1. rewrite D in O1, V1. rewrite O1.
    exists s1. split; [reflexivity|]. split; [now apply vw_on_line with []|now apply after_vw with line].
  - destruct k as [|k]; [cbn in Hk; lia|]. cbn [paramset_args map fst snd]. cbn [fst snd] in Hname, Hv. cbn [paramset_items] in D.
    change (str " ." ++ n ++ str "=" ++ v ++ str ";" ++ paramset_items l) with (str " " ++ "."%char :: n ++ "="%char :: v ++ ";"%char :: paramset_items l) in D.
    change (dropbl r = "."%char :: n ++ "="%char :: v ++ ";"%char :: paramset_items l) in D.
    destruct (skip1bc_vw _ _ _ "."%char ltac:(discriminate) V) as (s1 & E1 & V1 & _ & O1). inb E1. unfold eat1b in V1. rewrite D in O1, V1. rewrite O1.
    change (dropbl (eat1 (fun c => Ascii.eqb c ".") ("."%char :: n ++ "="%char :: v ++ ";"%char :: paramset_items l))) with (dropbl (n ++ "="%char :: v ++ ";"%char :: paramset_items l)) in V1.
    change (Ascii.eqb (head ("."%char :: n ++ "="%char :: v ++ ";"%char :: paramset_items l)) ".") with true. cbv iota.
    rewrite (dropbl_firm _ (proj1 (name_firm n _ Hname))) in V1.
    destruct (name_or_none_vw line n "=" _ s1 (or_intror Hname) eq_refl ltac:(discriminate) ltac:(cbn; auto) ltac:(cbn; intuition discriminate) V1) as (s2 & E2 & V2). inb E2.
    destruct (char_bl line [] "=" _ s2 eq_refl nil_sp V2) as (s3 & E3 & V3 & _). inb E3.
    assert (F : dropbl (v ++ ";"%char :: paramset_items l) = v ++ ";"%char :: paramset_items l).
    { destruct Hv as [->|Hv]; [now apply dropbl_graph|]. apply dropbl_firm. now apply name_firm. }
    rewrite F in V3.
    destruct (name_or_none_vw line v ";" _ s3 Hv eq_refl ltac:(discriminate) ltac:(cbn; auto 9) ltac:(cbn; intuition discriminate) V3) as (s4 & E4 & V4). inb E4.
    destruct (char_bl line [] ";" _ s4 eq_refl nil_sp V4) as (s5 & E5 & V5 & _). inb E5.
    destruct (IH k _ s5 ltac:(cbn in Hk; lia) V5 ltac:(apply drop_idem, dropbl_head)) as (s' & E' & O' & A'). inb E'. exists s'. auto.
Qed.
Print Assumptions C63_paramset_read.
Example C63_example_paramset : paramset_items [(str "bf", str "100"); (str "is", str "1e-16*x")] = str " .bf=100; .is=1e-16*x;" /\
  exists s', parse_args_paramset (cs_string (str " .bf=100; .is=1e-16*x;")) = Some ([SetParam (str "bf") (str "100") []; SetParam (str "is") (str "1e-16*x") []], s') /\ after s' = [].
Proof.
  split; [reflexivity|]. assert (N : forall w, simple (str ",=(){};") w -> w <> [] -> ~ In (head w) [DQ; "'"%char] -> name w) by (intros; now split).
  destruct (C63_paramset_read [(str "bf", str "100"); (str "is", str "1e-16*x")] (cs_string (str " .bf=100; .is=1e-16*x;")) (str " .bf=100; .is=1e-16*x;")) as (s' & E & _ & A).
  - repeat constructor; try right; (apply N; [now apply vis_by_check|discriminate|cbn; intuition discriminate]).
  - apply vw_on_line with (str " .bf=100; .is=1e-16*x;"). apply vw_start.
  - reflexivity.
  - exists s'. split; [exact E|exact A].
Qed.

(* ---- where it goes wrong ---- *)
(* the reading of a line, as calls and as what is left of it *)
Definition reads (t : text) (calls : list call) (left : text) : Prop := exists s', parse_instance true (cs_string t) = Some (calls, s') /\ after s' = left.
(* a node name that begins with a digit and has more than letters and digits in it comes back with a backslash *)
Theorem C63_digit_name_refuted : exists n, head n = "1"%char /\ visible n /\
  reads (print_instance (mkinst [] (str "resistor") [] (str "R1") [(str "p", n, [])])) [Attributes []; SetType (str "resistor"); SetLabel (str "R1"); SetPort (str "p") ("\"%char :: n) []; GroundOpen] [].
Proof.
  exists (str "1_x"). split; [reflexivity|]. split; [apply (vis_by_check [] (str "1_x") eq_refl)|]. unfold reads. eexists. split; vm_compute; reflexivity.
Qed.
Print Assumptions C63_digit_name_refuted.
(* a name that is printed as it is can hold characters that end it *)
Theorem C63_stop_in_name_refuted : exists n, visible n /\ forall s' v a, parse_instance true (cs_string (print_instance (mkinst [] (str "resistor") [] (str "R1") [(str "p", n, [])]))) <>
   Some ([Attributes []; SetType (str "resistor"); SetLabel (str "R1"); SetPort v n a; GroundOpen], s').
Proof.
  exists (str "x)y"). split; [apply (vis_by_check [] (str "x)y") eq_refl)|]. intros s' v a E.
  apply (f_equal (option_map fst)) in E. vm_compute in E. discriminate E.
Qed.
Print Assumptions C63_stop_in_name_refuted.
(* a text value with a closing parenthesis in it: the value is cut, and the rest becomes the label, to the end of the line *)
Theorem C63_paren_in_text_refuted : exists v, reads (print_instance (mkinst [] (str "d") [(str "s", v, [])] (str "X1") [(str "p", str "a", [])]))
  [Attributes []; SetType (str "d"); SetParam (str "s") [DQ] []; SetLabel (str ")) X1 (.p(a));"); GroundOpen] [] /\ v = [DQ; ")"%char; DQ].
Proof. exists [DQ; ")"%char; DQ]. split; [|reflexivity]. unfold reads. eexists. split; vm_compute; reflexivity. Qed.
Print Assumptions C63_paren_in_text_refuted.
(* parameters by order: an expression with blanks in it sets as many parameters as it has pieces, and an
   expression that begins with a parenthesis is no parameter: it is taken for the ports *)
Theorem C63_order_expression_refuted :
  reads (str "r #(a + b) R1 (x, y);") [Attributes []; SetType (str "r"); SetParamAt 0 (str "a") []; SetParamAt 1 (str "+") []; SetParamAt 2 (str "b") []; SetLabel (str "R1");
    SetPortAt 0 (str "x") []; SetPortAt 1 (str "y") []; GroundFrom 2] [] /\
  reads (str "r #((a+b)) R1 (x, y);") [Attributes []; SetType (str "r"); NoLabel; SetPortAt 0 (str "a+b") []; GroundFrom 1] (str ") R1 (x, y);").
Proof. split; unfold reads; eexists; split; vm_compute; reflexivity. Qed.
Print Assumptions C63_order_expression_refuted.
(* a name behind a backslash that goes to the end of the line: the step over its blank leaves the line, and
   what is read next is outside the text *)
Theorem C63_escaped_at_end_refuted : exists t, ~ In NUL t /\ parse_instance true (cs_string t) = None.
Proof. exists (str "r #(1) R1 (x, \y"). split; [cbn; intuition discriminate|]. vm_compute. reflexivity. Qed.
Print Assumptions C63_escaped_at_end_refuted.
(* a paramset parameter whose value has a parenthesis in it is read back empty, and what follows is not read *)
Theorem C63_paramset_value_refuted : exists v s', parse_args_paramset (cs_string (paramset_items [(str "is", v); (str "bf", str "100")])) = Some ([SetParam (str "is") [] []], s') /\
  after s' = v ++ str "; .bf=100;".
Proof. exists (str "(1+x)"). eexists. split; vm_compute; reflexivity. Qed.
Print Assumptions C63_paramset_value_refuted.
