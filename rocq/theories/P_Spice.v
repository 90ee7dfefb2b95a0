(* C65: instance and model lines in spice form. *)
Require Import ZArith List Ascii String Bool Lia.
Require Import ZifyBool.
Require Import Verif.Loops Verif.Wmatch_Model Verif.CS_Model Verif.CS_Proofs Verif.CS_Ops Verif.CS_Word Verif.Quote_Proofs Verif.Parse_Model Verif.Parse_Scan.
Require Import Verif.P_Scanner Verif.P_Keyword Verif.P_Quote Verif.Verilog_Model Verif.Verilog_Proofs Verif.P_Verilog.
Require Import Verif.Spice_Model Verif.Spice_Proofs.
Import ListNotations.
Local Open Scope Z_scope.

(* ---- the texts of an instance line, and what they say ----
   From P_Verilog.v: visible, simple stop (visible, none of the stop characters), name (a word without any of
   ,=(){}; that does not begin with a quote), spaces and sep (white space, with at most one comma).
   From Spice_Proofs.v: words (names with separators between), ended sp x (the word before is over). *)
(* the words that end the nodes when OPT::keys_between_nodes is set *)
Definition reserved (ci : bool) (w : text) : Prop := exists k, In k [str "poly"; str "pwl"; str "vccap"; str "vcg"; str "vcr"] /\ Forall2 (same_char ci) w k.
Definition node (ci keys : bool) (w : text) : Prop := name w /\ (keys = true -> ~ reserved ci w).
Definition NUMBER := str "+-.0123456789".
Definition number (w : text) : Prop := name w /\ In (head w) NUMBER.
(* a parameter name *)
Definition pname (n : text) : Prop := name n /\ ~ In (head n) NUMBER /\ ~ In ":"%char n.
(* a value as it is written, and as it is stored *)
Inductive value_text : text -> text -> Prop :=
  | vt_plain v : v <> [] -> simple (str ",=;)") v -> ~ In (head v) [DQ; "'"%char; "{"%char; "("%char] -> value_text v v
  | vt_quoted bq eq t d : In (bq, eq) [(DQ, DQ); ("'", "'"); ("{", "}"); ("(", ")")]%char -> stands bq eq t d -> value_text (bq :: t ++ [eq]) d.
Inductive pairs : list call -> text -> Prop :=
  | pr_nil : pairs [] []
  | pr_cons n b1 b2 tv v sp l t : pname n -> spaces b1 -> spaces b2 -> value_text tv v -> sep sp -> (sp <> [] \/ t = []) -> pairs l t ->
      pairs (SetParam n v :: l) (n ++ b1 ++ "="%char :: b2 ++ tv ++ sp ++ t).
(* the unnamed value, if there is one, and the pairs; vn is the parameter that the unnamed value is for *)
Inductive body (vn : option text) : list call -> text -> Prop :=
  | bo_pairs l t : pairs l t -> body vn l t
  | bo_num n w sp l t : vn = Some n -> number w -> sep sp -> (sp <> [] \/ t = []) -> pairs l t -> body vn (SetParam n w :: l) (w ++ sp ++ t)
  | bo_quote n bq eq tq d sp l t : vn = Some n -> In (bq, eq) [("'", "'"); ("{", "}")]%char -> stands bq eq tq d -> sep sp -> pairs l t ->
      body vn (SetParam n ("{"%char :: d ++ ["}"%char]) :: l) (bq :: tq ++ eq :: sp ++ t).
Inductive args (vn : option text) : list call -> text -> Prop :=
  | ar_bare l t : body vn l t -> args vn l t
  | ar_paren b1 l t b2 : spaces b1 -> body vn l t -> spaces b2 -> args vn l ("("%char :: b1 ++ t ++ ")"%char :: b2).
(* with the word params: in front *)
Inductive args_key (ci : bool) (vn : option text) : list call -> text -> Prop :=
  | ak_none l t : args vn l t -> args_key ci vn l t
  | ak_params p b l t : Forall2 (same_char ci) p (str "params:") -> sep b -> args vn l t -> args_key ci vn l (p ++ b ++ t).

Definition set_ports (l : list text) : list call := map (fun p => SetPort (Z.of_nat (fst p)) (snd p)) (combine (seq 0 (List.length l)) l).
Definition set_grounds (mn : Z) (l : list text) : list call := map (fun i => Ground (Z.of_nat i)) (seq (List.length l) (Z.to_nat mn - List.length l)).
(* type and parameters *)
Definition type_word (d : dev) (ty : text) : list text := if d_shown d then [ty] else [].
Definition type_call (d : dev) (ty : text) : list call := if d_shown d then [SetType ty] else [].
(* what may follow k nodes that are not in parentheses *)
Inductive follows (d : dev) (k : Z) : list call -> text -> Prop :=
  | fo_none : (d_shown d = true -> d_min d <= k) -> follows d k [] []
  | fo_open l t : args (Some (d_value d)) l t -> In (head t) (str "({") -> follows d k l t
  | fo_pairs l t : pairs l t -> l <> [] -> follows d k l t
  | fo_num w sp l t : k = d_max d -> number w -> sep sp -> (sp <> [] \/ t = []) -> pairs l t -> follows d k (SetParam (d_value d) w :: l) (w ++ sp ++ t).
Inductive rest (ci keys : bool) (d : dev) : list call -> text -> Prop :=
  | re_paren b1 l t sp b2 ty tt a ta : spaces b1 -> ((l = [] /\ t = [] /\ sp = []) \/ (words l t /\ sep sp)) -> Forall (node ci keys) l -> Z.of_nat (List.length l) <= d_max d ->
      spaces b2 -> (if d_shown d then exists sp2, name ty /\ ended sp2 ta /\ tt = ty ++ sp2 else tt = []) -> args_key ci (Some (d_value d)) a ta ->
      rest ci keys d (set_ports l ++ set_grounds (d_min d) l ++ type_call d ty ++ a) ("("%char :: b1 ++ t ++ sp ++ ")"%char :: b2 ++ tt ++ ta)
  | re_bare l ty t sp a ta : words (l ++ type_word d ty) t -> Forall (node ci keys) l -> Z.of_nat (List.length l) <= d_max d -> ended sp ta ->
      follows d (Z.of_nat (List.length l)) a ta ->
      rest ci keys d (set_ports l ++ set_grounds (d_min d) l ++ type_call d ty ++ a) (t ++ sp ++ ta).
Inductive front : list call -> text -> Prop :=
  | fr_label lab : name lab -> ~ In (head lab) (str ".*") -> front [SetLabel lab] lab
  | fr_type ty sp lab : name ty -> sep sp -> sp <> [] -> name lab -> front [SetType ty; SetLabel lab] ("."%char :: ty ++ sp ++ lab).
(* a device that the parser can ask: at least one node, and room for the type word exactly if it is shown *)
Definition device (d : dev) : Prop := 0 <= d_min d <= d_max d /\ 0 < d_max d /\ d_tail d = if d_shown d then 1 else 0.
Inductive instance_line (ci keys : bool) (d : dev) : list call -> text -> Prop :=
  | il b0 mark h th sp r tr : spaces b0 -> (mark = [] \/ exists b, spaces b /\ mark = str "*>" ++ b) -> front h th -> ended sp tr -> rest ci keys d r tr ->
      instance_line ci keys d (h ++ r) (b0 ++ mark ++ th ++ sp ++ tr).

(* ---- lemmas ---- *)
Lemma reserved_words : forall ci w, ~ reserved ci w -> forall k, In k KEYWORDS -> ~ Forall2 (same_char ci) w k.
Proof. intros ci w N k I H. apply N. now exists k. Qed.
Lemma name_fterm : forall w, name w -> Forall (fun c => fterm TERM c = false) w.
Proof. intros w (_ & S & _). now apply simple_fterm. Qed.
Lemma pairs_firm : forall l t x, pairs l t -> firm x -> firm (t ++ x).
Proof. intros l t x [|n b1 b2 tv v sp l' t' (N & _) _ _ _ _ _ _] F; [exact F|]. rewrite <- app_assoc. now apply name_firm. Qed.
Lemma nil_firm : firm []. Proof. intros ? ? [=]. Qed.
Lemma close_firm : forall x, (x = [] \/ exists q, x = ")"%char :: q) -> firm x /\ fterm TERM (head x) = true /\ fterm (str ",=;)") (head x) = true.
Proof. intros x [->|(q & ->)]; (split; [|split; reflexivity]); [apply nil_firm|now apply firm_cons]. Qed.
Lemma sep_fterm2 : forall stop sp r, In ","%char stop -> sep sp -> sp <> [] -> fterm stop (head (sp ++ r)) = true.
Proof.
  intros stop [|c sp] r I S N; [now elim N|]. destruct S as [B|(b1 & b2 & B1 & _ & E)]; [inversion_clear B; now apply fterm_space|].
  destruct b1 as [|d b1]; injection E as -> _; [now apply fterm_in|]. inversion_clear B1. now apply fterm_space.
Qed.
Lemma quote_marks : forall bq eq, In (bq, eq) [(DQ, DQ); ("'", "'"); ("{", "}"); ("(", ")")]%char -> marks BQ EQ bq eq.
Proof.
  intros bq eq I. split; [reflexivity|].
  destruct I as [[= <- <-]|[[= <- <-]|[[= <- <-]|[[= <- <-]|[]]]]]; (split; [|repeat split; discriminate]);
    [exists [], (str "'{("), [], (str "'})")|exists [DQ], (str "{("), [DQ], (str "})")|exists [DQ; "'"%char], (str "("), [DQ; "'"%char], (str ")")|exists [DQ; "'"%char; "{"%char], [], [DQ; "'"%char; "}"%char], []];
    repeat split; cbn; intuition discriminate.
Qed.
Lemma word_marks : forall bq eq, In (bq, eq) [("'", "'"); ("{", "}")]%char -> marks [DQ; "'"%char; "{"%char] [DQ; "'"%char; "}"%char] bq eq.
Proof.
  intros bq eq I. split; [reflexivity|].
  destruct I as [[= <- <-]|[[= <- <-]|[]]]; (split; [|repeat split; discriminate]);
    [exists [DQ], (str "{"), [DQ], (str "}")|exists [DQ; "'"%char], [], [DQ; "'"%char], []]; repeat split; cbn; intuition discriminate.
Qed.
(* a quoted text and the separator behind it *)
Lemma quoted_step : forall line term bqs eqs bq eq t d sp x s, marks bqs eqs bq eq -> stands bq eq t d -> sep sp -> firm x -> vw line (bq :: t ++ eq :: sp ++ x) s ->
  exists s', ctos term bqs eqs s = Some (d, s') /\ vw line x s'.
Proof.
  intros line term bqs eqs bq eq t d sp x s M S Hs F V. destruct (marks_ctos line term bqs eqs bq eq _ s M V) as (s' & E & V'). destruct M as (_ & _ & Gb & Ge & Bb & Be).
  assert (Nb : bq <> NUL) by (intros ->; discriminate Gb). assert (Ne : eq <> NUL) by (intros ->; discriminate Ge).
  assert (U : unq bq eq 1 (t ++ eq :: sp ++ x) = (d, sp ++ x)).
  { rewrite (unq_stands bq eq Nb Ne Bb Be t d S 1 (eq :: sp ++ x) ltac:(lia)). cbn [unq]. destruct (Ascii.eqb_spec eq NUL); [contradiction|]. rewrite Ascii.eqb_refl. cbn. now rewrite app_nil_r. }
  rewrite U in E, V'. cbn [fst snd] in *. rewrite (dropcom_sep sp x Hs F) in V'. eauto.
Qed.
Lemma value_head : forall tv v, value_text tv v -> exists c q, tv = c :: q /\ isgraph c = true.
Proof.
  intros tv v [w N [V _] _|bq eq t d I _].
  - destruct w as [|c w]; [now elim N|]. exists c, w. split; [reflexivity|apply V; now left].
  - exists bq, (t ++ [eq]). split; [reflexivity|]. repeat (destruct I as [[= <- _]|I]; [reflexivity|]). destruct I.
Qed.
Lemma value_vw : forall line tv v sp x s, value_text tv v -> sep sp -> (sp <> [] \/ fterm (str ",=;)") (head x) = true) -> firm x -> vw line (tv ++ sp ++ x) s ->
  exists s', ctos (str ",=;)") BQ EQ s = Some (v, s') /\ vw line x s'.
Proof.
  intros line tv v sp x s H Hs Hx F V. destruct H as [w N S Q|bq eq t d I St].
  - destruct (ctos_plain line (str ",=;)") BQ EQ w (sp ++ x) _ s eq_refl V) as (s' & E & V' & _).
    + destruct w as [|c w]; [now elim N|]. cbn [app]. apply dropbl_graph. apply S. now left.
    + now apply simple_fterm.
    + destruct sp as [|c sp]; [destruct Hx as [Hx|Hx]; [now elim Hx|exact Hx]|]. apply sep_fterm2; [now left|exact Hs|discriminate].
    + right. destruct w as [|c w]; [now elim N|]. change (head ((c :: w) ++ sp ++ x)) with c. change (head (c :: w)) with c in Q. unfold BQ. cbn [find_pos str list_ascii_of_string].
      destruct (Ascii.eqb_spec c """") as [->|_]; [elim Q; now left|]. destruct (Ascii.eqb_spec c "'") as [->|_]; [elim Q; cbn; auto|].
      destruct (Ascii.eqb_spec c "{") as [->|_]; [elim Q; cbn; auto|]. destruct (Ascii.eqb_spec c "(") as [->|_]; [elim Q; cbn; auto 6|]. reflexivity.
    + exists s'. split; [exact E|]. now rewrite (dropcom_sep sp x Hs F) in V'.
  - cbn [app] in V. rewrite <- app_assoc in V. cbn [app] in V. now apply (quoted_step line _ BQ EQ bq eq t d sp x s (quote_marks bq eq I) St Hs F).
Qed.
Lemma pairs_len : forall l t, pairs l t -> (List.length l <= List.length t)%nat.
Proof. intros l t H. induction H as [|n b1 b2 tv v sp l t _ _ _ _ _ _ _ IH]; [cbn; lia|]. repeat (rewrite app_length; cbn [List.length]). lia. Qed.

Lemma pairs_vw : forall line l t, pairs l t -> forall (paren : bool) x n here s, (List.length l < n)%nat -> here <= cnt s ->
  (if paren then exists q, x = ")"%char :: q else x = []) -> vw line (t ++ x) s ->
  exists s', args_loop n paren here s = Some (l, s') /\ vw line (if paren then dropbl (tl x) else []) s'.
Proof.
  intros line l t H paren x. induction H as [|n b1 b2 tv v sp l t Hn B1 B2 Hv Hs He H IH]; intros m here s Hm Hh Hx V.
  - destruct m as [|m]; [cbn in Hm; lia|]. cbn [args_loop]. cbn [app] in V. destruct paren.
    + destruct Hx as (q & ->). destruct (char_bl line [] ")" q s eq_refl nil_sp V) as (s1 & E1 & V1 & O1). unfold close_if. inb E1. rewrite O1. cbn [bind]. exists s1. split; [reflexivity|exact V1].
    + subst x. cbn [close_if bind]. destruct (firm_more line [] s ltac:(intros ? ? [=]) V) as (s1 & E1 & V1 & _). inb E1. exists s1. split; [reflexivity|exact V1].
  - destruct m as [|m]; [cbn in Hm; lia|]. cbn [args_loop].
    assert (Cx : x = [] \/ exists q, x = ")"%char :: q) by (destruct paren; [now right|now left]). destruct (close_firm x Cx) as (Fx & _ & Tx).
    rewrite <- !app_assoc in V. cbn [app] in V. rewrite <- !app_assoc in V. destruct Hn as (Hn & Nf & Nc).
    destruct (name_head n (b1 ++ "="%char :: b2 ++ tv ++ sp ++ t ++ x) Hn) as (c & q & Eq & G & Nt).
    assert (Fn : firm (n ++ b1 ++ "="%char :: b2 ++ tv ++ sp ++ t ++ x)) by (now apply name_firm).
    destruct (close_none line paren ")" _ s ltac:(discriminate) Fn) as (s1 & E1 & V1).
    { rewrite Eq. unfold head. cbn [hd]. intros ->. apply Nt. cbn. auto 12. }
    { exact V. }
    inb E1. destruct (firm_more line _ s1 Fn V1) as (s2 & E2 & V2 & _). rewrite Eq in E2. inb E2. cbn [negb].
    assert (Sn : simple (str "=") n). { destruct Hn as (_ & [V0 S0] & _). split; [exact V0|]. intros a I J. apply (S0 a I). cbn in J |- *. intuition auto 12. }
    destruct (word_vw line (str "=") n [] b1 "=" (b2 ++ tv ++ sp ++ t ++ x) s2 Sn nil_sp B1 eq_refl ltac:(discriminate) ltac:(now left) V2) as (s3 & E3 & V3). inb E3.
    destruct (char_bl line [] "=" _ s3 eq_refl nil_sp V3) as (s4 & E4 & V4 & _). inb E4.
    assert (D : dropbl (b2 ++ tv ++ sp ++ t ++ x) = tv ++ sp ++ t ++ x).
    { rewrite (dropbl_app b2 _ (space_blank _ B2)). destruct (value_head tv v Hv) as (c0 & q0 & -> & G0). cbn [app]. now apply dropbl_graph. }
    rewrite D in V4. pose proof (pairs_firm l t x H Fx) as Ft.
    destruct (value_vw line tv v sp (t ++ x) s4 Hv Hs) as (s5 & E5 & V5); [destruct He as [He|He]; [now left|right; subst t; exact Tx]|exact Ft|exact V4|]. inb E5.
    assert (C : (here <? cnt s5) = true).
    { apply Z.ltb_lt. pose proof (vw_cnt _ _ _ V) as C0. pose proof (vw_cnt _ _ _ V5) as C5. rewrite app_length in C0.
      destruct Hn as (N0 & _). destruct n as [|c1 n]; [now elim N0|]. cbn [List.length] in C0. repeat (rewrite app_length in *; cbn [List.length] in * ). lia. }
    rewrite C. destruct (IH m (cnt s5) s5 ltac:(cbn in Hm; lia) ltac:(lia) Hx V5) as (s6 & E6 & V6). inb E6. exists s6. split; [reflexivity|exact V6].
Qed.

(* parse_args behind the opening parenthesis *)
Definition args_rest (vn : option text) (paren : bool) (s : cs) : option (list call * cs) :=
  let* f := is_float s in
  let* q := match1 (str "'{") s in
  let* (first, s) :=
    match vn with
    | Some name =>
        if f then let* (v, s) := word s in Some ([SetParam name v], s)
        else if q then let* (v, s) := word s in Some ([SetParam name ("{"%char :: v ++ ["}"%char])], s)
        else Some ([], s)
    | None => if q then None else Some ([], s)
    end in
  let* (l, s) := args_loop (rounds s) paren (cnt s) s in
  Some (first ++ l, s).
Lemma body_head : forall vn l t x, body vn l t -> firm x -> firm (t ++ x).
Proof.
  intros vn l t x [l' t' H|n w sp l' t' _ [Hw _] _ _ _|n bq eq tq d sp l' t' _ I _ _ _] F.
  - now apply pairs_firm with l'.
  - rewrite <- app_assoc. now apply name_firm.
  - cbn [app]. destruct I as [[= <- <-]|[[= <- <-]|[]]]; now apply firm_cons.
Qed.
Lemma body_vw : forall line vn l t, body vn l t -> forall (paren : bool) x s, (if paren then exists q, x = ")"%char :: q else x = []) -> vw line (t ++ x) s ->
  exists s', args_rest vn paren s = Some (l, s') /\ vw line (if paren then dropbl (tl x) else []) s'.
Proof.
  intros line vn l t H paren x s Hx V. unfold args_rest. unfold is_float. inb (match1_vw _ _ _ (str "+-.0123456789") V). inb (match1_vw _ _ _ (str "'{") V).
  assert (Cx : x = [] \/ exists q, x = ")"%char :: q) by (destruct paren; [now right|now left]). destruct (close_firm x Cx) as (Fx & Tx & _).
  assert (Len : forall l t s, pairs l t -> vw line (t ++ x) s -> (List.length l < rounds s)%nat).
  { intros l0 t0 s0 H0 V0. rewrite (vw_rounds _ _ _ V0). pose proof (vw_le _ _ _ V0) as L. rewrite app_length in L. pose proof (pairs_len _ _ H0). lia. }
  destruct H as [l t H|n w sp l t -> [Hw Hf] Hs He H|n bq eq tq d sp l t -> I St Hs H].
  - assert (A : in_set (str "+-.0123456789") (head (t ++ x)) = false /\ in_set (str "'{") (head (t ++ x)) = false).
    { destruct H as [|n b1 b2 tv v sp l t (Hn & Nf & _) _ _ _ _ _ _].
      - cbn [app]. destruct Cx as [->|(q & ->)]; split; reflexivity.
      - rewrite <- app_assoc. destruct Hn as (N & [_ S] & Q). destruct n as [|c n]; [now elim N|]. change (head ((c :: n) ++ (b1 ++ "="%char :: b2 ++ tv ++ sp ++ t) ++ x)) with c. change (head (c :: n)) with c in *.
        split; apply notin_set; [exact Nf|]. intros [<-|[<-|[]]]; [apply Q; cbn; auto|]. apply (S "{"%char); [now left|cbn; auto 12]. }
    destruct A as [A1 A2]. rewrite A1, A2.
    destruct (pairs_vw line l t H paren x (rounds s) (cnt s) s (Len l t s H V) ltac:(lia) Hx V) as (s' & E & V').
    destruct vn; cbn [bind]; inb E; exists s'; (split; [reflexivity|exact V']).
  - assert (A : in_set (str "+-.0123456789") (head ((w ++ sp ++ t) ++ x)) = true).
    { destruct Hw as (N & [Vw _] & _). destruct w as [|c w]; [now elim N|]. apply In_in_set; [apply graph_nul, Vw; now left|exact Hf]. }
    rewrite A. rewrite <- !app_assoc in V. pose proof (pairs_firm l t x H Fx) as Ft.
    destruct (word_step line w sp (t ++ x) s Hw) as (s1 & E1 & V1 & _); [split; [exact Hs|]; destruct He as [He|He]; [now left|right; subst t; exact Tx]|exact Ft|exact V|]. inb E1.
    destruct (pairs_vw line l t H paren x (rounds s1) (cnt s1) s1 (Len l t s1 H V1) ltac:(lia) Hx V1) as (s' & E & V'). inb E. exists s'. split; [reflexivity|exact V'].
  - assert (A : in_set (str "+-.0123456789") (head ((bq :: tq ++ eq :: sp ++ t) ++ x)) = false /\ in_set (str "'{") (head ((bq :: tq ++ eq :: sp ++ t) ++ x)) = true).
    { unfold head. cbn [app hd]. destruct I as [[= <- <-]|[[= <- <-]|[]]]; split; reflexivity. }
    destruct A as [A1 A2]. rewrite A1, A2. cbn [app] in V. rewrite <- app_assoc in V. cbn [app] in V. rewrite <- app_assoc in V. pose proof (pairs_firm l t x H Fx) as Ft.
    destruct (quoted_step line TERM _ _ bq eq tq d sp (t ++ x) s (word_marks bq eq I) St Hs Ft V) as (s1 & E1 & V1). unfold word. inb E1.
    destruct (pairs_vw line l t H paren x (rounds s1) (cnt s1) s1 (Len l t s1 H V1) ltac:(lia) Hx V1) as (s' & E & V'). inb E. exists s'. split; [reflexivity|exact V'].
Qed.
Lemma args_firm : forall vn l t, args vn l t -> firm t.
Proof. intros vn l t [l' t' H|b1 l' t' b2 _ _ _]; [|now apply firm_cons]. rewrite <- (app_nil_r t'). apply (body_head _ _ _ _ H nil_firm). Qed.
Lemma spaces_end : forall b, spaces b -> dropbl b = [].
Proof. intros b B. rewrite <- (app_nil_r b). now rewrite (dropbl_app b [] (space_blank _ B)). Qed.
Lemma no_paren_head : forall vn l t, body vn l t -> head t <> "("%char.
Proof.
  intros vn l t [l' t' [|n b1 b2 tv v sp l0 t0 (Hn & _) _ _ _ _ _ _]|n w sp l' t' _ [Hw _] _ _ _|n bq eq tq d sp l' t' _ I _ _ _].
  - discriminate.
  - destruct (name_head n (b1 ++ "="%char :: b2 ++ tv ++ sp ++ t0) Hn) as (c & q & -> & _ & N). intros E. change c with (head (c :: q)) in N. rewrite E in N. apply N. cbn. auto 12.
  - destruct (name_head w (sp ++ t') Hw) as (c & q & -> & _ & N). intros E. change c with (head (c :: q)) in N. rewrite E in N. apply N. cbn. auto 12.
  - unfold head. cbn [hd]. destruct I as [[= <- <-]|[[= <- <-]|[]]]; discriminate.
Qed.
Lemma args_vw : forall line vn l t s, args vn l t -> vw line t s ->
  exists s', (let* s := skip1bc "(" s in args_rest vn (ok s) s) = Some (l, s') /\ vw line [] s'.
Proof.
  intros line vn l t s H V. destruct H as [l t H|b1 l t b2 B1 H B2].
  - assert (F : firm t) by (rewrite <- (app_nil_r t); apply (body_head _ _ _ _ H nil_firm)).
    destruct (nochar_vw line "(" t s ltac:(discriminate) F (no_paren_head _ _ _ H) V) as (s1 & E1 & V1 & O1). inb E1. rewrite O1.
    rewrite <- (app_nil_r t) in V1. now apply (body_vw line vn l t H false [] s1 eq_refl).
  - destruct (char_bl line [] "(" _ s eq_refl nil_sp V) as (s1 & E1 & V1 & O1). inb E1. rewrite O1.
    rewrite dropbl_bl in V1; [|exact B1|apply (body_head _ _ _ _ H); now apply firm_cons].
    destruct (body_vw line vn l t H true (")"%char :: b2) s1) as (s2 & E2 & V2); [eauto|exact V1|]. exists s2. split; [exact E2|]. cbn [tl] in V2. now rewrite (spaces_end b2 B2) in V2.
Qed.
Lemma parse_args_def : forall ci vn s, parse_args ci vn s = let* s := umatch ci (str "params:") s in let* s := skip1bc "(" s in args_rest vn (ok s) s.
Proof. reflexivity. Qed.
Lemma params_plain : Forall plain (str "params:").
Proof. repeat constructor; try discriminate; cbn; intuition discriminate. Qed.
Lemma same_colon : forall ci k, same_char ci k ":" -> k = ":"%char.
Proof. intros ci k [->|[_ E]]; [reflexivity|]. revert E. destruct k as [[] [] [] [] [] [] [] []]; vm_compute; congruence. Qed.
Lemma params_letter : forall ci c k, In c (str "params:") -> same_char ci k c -> fterm TERM k = false /\ in_set NUMBER k = false /\ k <> "'"%char.
Proof.
  intros ci c k I [->|[_ E]].
  - repeat (destruct I as [<-|I]; [repeat split; try reflexivity; discriminate|]). destruct I.
  - repeat (destruct I as [<-|I]; [revert E; destruct k as [[] [] [] [] [] [] [] []]; vm_compute; try congruence; repeat split; discriminate|]). destruct I.
Qed.
Lemma pre_head : forall ci c m r y, pre ci (c :: m) r = Some y -> exists k q, r = k :: q /\ same_char ci k c.
Proof. intros ci c m r y E. apply pre_some in E. destruct E as (u & -> & H). inversion H as [|k ? u' ? Hk Hu]; subst. now exists k, (u' ++ y). Qed.
Lemma no_params : forall ci vn l t, args vn l t -> pre ci (str "params:") t = None.
Proof.
  intros ci vn l t H. destruct (pre ci (str "params:") t) as [y|] eqn:E; [|reflexivity]. exfalso.
  destruct (pre_head ci "p" _ t y E) as (k & q & Et & Hk). destruct (params_letter ci "p" k ltac:(now left) Hk) as (Kt & Kn & Kq).
  destruct H as [l t [l' t' H|n w sp l' t' _ [Hw Hf] _ _ _|n bq eq tq d sp l' t' _ I _ _ _]|b1 l t b2 _ _ _].
  - destruct H as [|n b1 b2 tv v sp l0 t0 (Hn & _ & Nc) B1 _ _ _ _ _]; [discriminate Et|]. apply pre_some in E. destruct E as (u & Eu & H2).
    assert (Fu : Forall (fun c => fterm TERM c = false) u).
    { clear -H2. remember (str "params:") as m eqn:Em. assert (S : forall c, In c m -> In c (str "params:")) by (subst m; auto). clear Em. induction H2 as [|a c u m Ha _ IH]; [constructor|].
      constructor; [apply (params_letter ci c a); [apply S; now left|exact Ha]|apply IH; intros d I; apply S; now right]. }
    assert (Fx : fterm TERM (head (b1 ++ "="%char :: b2 ++ tv ++ sp ++ t0)) = true) by (apply fterm_after; [exact B1|reflexivity|cbn; auto 12]).
    assert (Iu : In ":"%char u).
    { clear -H2. change (str "params:") with (str "params" ++ [":"%char]) in H2. apply Forall2_app_inv_r in H2. destruct H2 as (u1 & u2 & _ & H2 & ->).
      inversion H2 as [|k' ? u' ? Hk' _]; subst. apply same_colon in Hk'. subst. apply in_or_app. right. now left. }
    clear Et. generalize dependent (b1 ++ "="%char :: b2 ++ tv ++ sp ++ t0). intros X Eu Fx. clear -Fx Eu Fu Iu Nc.
    revert u Eu Fu Iu. induction n as [|c n IH]; intros u Eu Fu Iu.
    + destruct u as [|a u]; [destruct Iu|]. inversion_clear Fu as [|? ? Fa _]. cbn [app] in Eu. subst X. change (head (a :: u ++ y)) with a in Fx. congruence.
    + destruct u as [|a u]; [destruct Iu|]. injection Eu as -> Eu. inversion_clear Fu as [|? ? _ Fu']. apply (IH (fun I => Nc (or_intror I)) u Eu Fu').
      destruct Iu as [E|I]; [elim Nc; now left|exact I].
  - destruct Hw as (N & _). destruct w as [|c w]; [now elim N|]. injection Et as <- _. unfold head in Hf. cbn [hd] in Hf. rewrite In_in_set in Kn; [discriminate Kn| |exact Hf]. intros ->. discriminate Kt.
  - injection Et as <- _. destruct I as [[= <- <-]|[[= <- <-]|[]]]; [now elim Kq|discriminate Kt].
  - injection Et as <- _. discriminate Kt.
Qed.
Lemma params_firm : forall ci p x, Forall2 (same_char ci) p (str "params:") -> firm (p ++ x) /\ isgraph (head (p ++ x)) = true.
Proof.
  intros ci p x H. inversion H as [|k ? u ? Hk Hu]; subst. cbn [app]. unfold head. cbn [hd].
  assert (A : isgraph k = true /\ k <> ","%char).
  { destruct Hk as [->|[_ E]]; [split; [reflexivity|discriminate]|]. revert E. destruct k as [[] [] [] [] [] [] [] []]; vm_compute; try congruence; now split. }
  split; [apply firm_cons; apply A|apply A].
Qed.
Lemma args_key_firm : forall ci vn l t, args_key ci vn l t -> firm t.
Proof. intros ci vn l t [l' t' H|p b l' t' Hp _ _]; [now apply args_firm in H|]. now apply (params_firm ci). Qed.
Lemma parse_args_vw : forall ci line vn l t s, args_key ci vn l t -> vw line t s -> exists s', parse_args ci vn s = Some (l, s') /\ vw line [] s'.
Proof.
  intros ci line vn l t s H V. rewrite parse_args_def. destruct H as [l t H|p b l t Hp Hb H].
  - destruct (key_miss ci line (str "params:") [] t s params_plain (or_introl eq_refl) V) as (s1 & E1 & _ & V1).
    { rewrite (dropbl_firm t (args_firm _ _ _ H)), (no_params ci vn l t H). discriminate. }
    rewrite app_nil_r in E1. inb E1. now apply (args_vw line vn l t s1 H).
  - destruct (key_vw ci line (str "params:") [] _ s params_plain (or_introl eq_refl) V) as (s1 & E1 & L). rewrite app_nil_r in E1. inb E1.
    rewrite (dropbl_firm _ (proj1 (params_firm ci p _ Hp))) in L. assert (E : pre ci (str "params:") (p ++ b ++ t) = Some (b ++ t)) by (apply pre_some; now exists p).
    rewrite E in L. destruct L as [_ L]. rewrite (dropcom_sep b t Hb (args_firm _ _ _ H)) in L. now apply (args_vw line vn l t s1 H).
Qed.

(* ---- nodes ---- *)
Fixpoint places (k : Z) (l : list text) : list call := match l with [] => [] | w :: r => SetPort k w :: places (k + 1) r end.
Lemma set_places : forall l, set_ports l = places 0 l.
Proof.
  assert (G : forall l n, map (fun p => SetPort (Z.of_nat (fst p)) (snd p)) (combine (seq n (List.length l)) l) = places (Z.of_nat n) l).
  { induction l as [|w l IH]; intros n; [reflexivity|]. cbn [List.length seq combine map places fst snd]. rewrite IH. f_equal. f_equal. lia. }
  intros l. exact (G l O).
Qed.
Lemma set_grounded : forall mn l, set_grounds mn l = grounds (Z.to_nat (mn - Z.of_nat (List.length l))) (Z.of_nat (List.length l)).
Proof.
  intros mn l. unfold set_grounds. replace (Z.to_nat (mn - Z.of_nat (List.length l))) with (Z.to_nat mn - List.length l)%nat by lia.
  assert (G : forall k n, map (fun i => Ground (Z.of_nat i)) (seq n k) = grounds k (Z.of_nat n)); [|apply G].
  induction k as [|k IH]; intros n; [reflexivity|]. cbn [seq map grounds]. rewrite IH. f_equal. f_equal. lia.
Qed.
Lemma ports_step : forall ci keys line (paren : bool) index num n w sp x s, node ci keys w -> ended sp x -> firm x -> index < num -> vw line (w ++ sp ++ x) s ->
  exists s1, vw line x s1 /\ ports_loop ci keys (S n) paren index num s =
    let* (l, index', s) := ports_loop ci keys n paren (index + 1) num s1 in Some (SetPort index w :: l, index', s).
Proof.
  intros ci keys line paren index num n w sp x s [Hw Nr] He F Hi V. cbn [ports_loop].
  destruct (name_head w (sp ++ x) Hw) as (c & q & Eq & G & Nt). assert (Fn : firm (w ++ sp ++ x)) by (now apply name_firm).
  destruct (close_none line paren ")" _ s ltac:(discriminate) Fn) as (s1 & E1 & V1).
  { rewrite Eq. unfold head. cbn [hd]. intros ->. apply Nt. cbn. auto 12. }
  { exact V. }
  inb E1. destruct (Z.leb_spec num index) as [L|_]; [lia|].
  destruct (firm_more line _ s1 Fn V1) as (s2 & E2 & V2 & _). rewrite Eq in E2. inb E2. cbn [negb].
  assert (K : exists s3, (if keys then any_key ci KEYS s2 else Some (false, s2)) = Some (false, s3) /\ vw line (w ++ sp ++ x) s3).
  { destruct keys; [|exists s2; auto]. apply any_key_miss; [rewrite Eq; exact G|now apply name_fterm|now apply ended_fterm|apply reserved_words; auto|exact V2]. }
  destruct K as (s3 & E3 & V3). inb E3. destruct (word_step line w sp x s3 Hw He F V3) as (s4 & E4 & V4 & _ & C). inb E4.
  destruct (Z.ltb_spec (cnt s3) (cnt s4)) as [_|L]; [|lia]. exists s4. auto.
Qed.
Lemma ports_paren : forall ci keys line sp q, sep sp -> forall l t, words l t -> Forall (node ci keys) l -> forall index num n s, (List.length l < n)%nat -> index + Z.of_nat (List.length l) <= num ->
  vw line (t ++ sp ++ ")"%char :: q) s ->
  exists s', ports_loop ci keys n true index num s = Some (places index l, index + Z.of_nat (List.length l), s') /\ vw line (dropbl q) s'.
Proof.
  intros ci keys line sp q Hs l t H. assert (Fp : firm (")"%char :: q)) by (now apply firm_cons).
  assert (End : forall index num n s, (0 < n)%nat -> vw line (")"%char :: q) s -> exists s', ports_loop ci keys n true index num s = Some ([], index, s') /\ vw line (dropbl q) s').
  { intros index num [|n] s Hn V; [lia|]. cbn [ports_loop]. destruct (char_bl line [] ")" q s eq_refl nil_sp V) as (s1 & E1 & V1 & O1). unfold close_if. inb E1. rewrite O1. cbn [bind]. exists s1. auto. }
  induction H as [w Hw|w sp1 l t Hw S1 N1 H IH]; intros Hl index num n s Hn Hi V.
  - destruct n as [|n]; [cbn in Hn; lia|]. inversion_clear Hl as [|? ? Hd _]. cbn [List.length] in Hi.
    destruct (ports_step ci keys line true index num n w sp (")"%char :: q) s Hd) as (s1 & V1 & E1); [split; [exact Hs|now right]|exact Fp|lia|exact V|]. rewrite E1.
    destruct (End (index + 1) num n s1 ltac:(cbn in Hn; lia) V1) as (s2 & E2 & V2). inb E2. exists s2. auto.
  - destruct n as [|n]; [cbn in Hn; lia|]. inversion_clear Hl as [|? ? Hd Hl']. cbn [List.length] in Hi. rewrite <- !app_assoc in V.
    destruct (ports_step ci keys line true index num n w sp1 (t ++ sp ++ ")"%char :: q) s Hd) as (s1 & V1 & E1); [split; [exact S1|now left]|now apply words_firm with l|lia|exact V|]. rewrite E1.
    destruct (IH Hl' (index + 1) num n s1 ltac:(cbn in Hn; lia) ltac:(lia) V1) as (s2 & E2 & V2). inb E2. exists s2. cbn [places List.length].
    replace (index + Z.of_nat (S (List.length l))) with (index + 1 + Z.of_nat (List.length l)) by lia. auto.
Qed.
(* words that are not in parentheses: the first of them are the nodes *)
Lemma words_split : forall l m t, words (l ++ m) t -> m <> [] -> (l = [] /\ words m t) \/ exists t1 sp t2, words l t1 /\ sep sp /\ sp <> [] /\ words m t2 /\ t = t1 ++ sp ++ t2.
Proof.
  induction l as [|w l IH]; intros m t H N; [now left|]. right. cbn [app] in H. inversion H as [w' Hw E1 E2|w' sp l' t' Hw S Ns H' E1 E2]; subst.
  - exfalso. match goal with X : [] = l ++ m |- _ => symmetry in X; apply app_eq_nil in X; now elim N end.
  - destruct (IH m t' H' N) as [[-> Hm]|(t1 & sp1 & t2 & H1 & S1 & N1 & H2 & ->)].
    + exists w, sp, t'. split; [now constructor|]. auto.
    + exists (w ++ sp ++ t1), sp1, t2. split; [now constructor|]. split; [exact S1|]. split; [exact N1|]. split; [exact H2|]. now rewrite <- !app_assoc.
Qed.
Lemma ports_bare : forall ci keys line sp x, ended sp x -> firm x -> forall l t, words l t -> Forall (node ci keys) l -> forall index n s, (List.length l < n)%nat ->
  vw line (t ++ sp ++ x) s ->
  exists s', ports_loop ci keys n false index (index + Z.of_nat (List.length l)) s = Some (places index l, index + Z.of_nat (List.length l), s') /\ vw line x s'.
Proof.
  intros ci keys line sp x He F l t H.
  assert (End : forall index n s, (0 < n)%nat -> vw line x s -> exists s', ports_loop ci keys n false index index s = Some ([], index, s') /\ vw line x s').
  { intros index [|n] s Hn V; [lia|]. cbn [ports_loop close_if bind]. destruct (Z.leb_spec index index) as [_|L]; [|lia]. exists s. auto. }
  induction H as [w Hw|w sp1 l t Hw S1 N1 H IH]; intros Hl index n s Hn V.
  - destruct n as [|n]; [cbn in Hn; lia|]. inversion_clear Hl as [|? ? Hd _]. cbn [List.length].
    destruct (ports_step ci keys line false index (index + Z.of_nat 1) n w sp x s Hd He F ltac:(lia) V) as (s1 & V1 & E1). rewrite E1.
    change (Z.of_nat 1) with 1. destruct (End (index + 1) n s1 ltac:(cbn in Hn; lia) V1) as (s2 & E2 & V2). inb E2. exists s2. auto.
  - destruct n as [|n]; [cbn in Hn; lia|]. inversion_clear Hl as [|? ? Hd Hl']. cbn [List.length]. rewrite <- !app_assoc in V.
    destruct (ports_step ci keys line false index (index + Z.of_nat (S (List.length l))) n w sp1 (t ++ sp ++ x) s Hd) as (s1 & V1 & E1); [split; [exact S1|now left]|now apply words_firm with l|lia|exact V|]. rewrite E1.
    replace (index + Z.of_nat (S (List.length l))) with (index + 1 + Z.of_nat (List.length l)) by lia.
    destruct (IH Hl' (index + 1) n s1 ltac:(cbn in Hn; lia) V1) as (s2 & E2 & V2). inb E2. exists s2. auto.
Qed.

(* count_ports and the return to where the nodes begin *)
Lemma count_paren : forall line mx mn tail b1 l t sp q s, 0 <= mn <= mx -> 0 < mx -> spaces b1 -> (l = [] /\ t = [] /\ sp = [] \/ words l t /\ sep sp) -> Z.of_nat (List.length l) <= mx ->
  vw line ("("%char :: b1 ++ t ++ sp ++ ")"%char :: q) s ->
  exists num s', count_ports mx mn tail 0 s = Some (Some num, s') /\ Z.of_nat (List.length l) <= num /\ exists r, vw line r s'.
Proof.
  intros line mx mn tail b1 l t sp q s Hm Hx B1 Hw Hl V. unfold count_ports.
  replace ((mx <=? 0) || (mx <? mn)) with false by lia.
  destruct (char_bl line [] "(" _ s eq_refl nil_sp V) as (s1 & E1 & V1 & O1). inb E1. rewrite O1.
  assert (Fp : firm (")"%char :: q)) by (now apply firm_cons).
  assert (Spot : forall (P : list Z) (k : Z), 0 <= k -> k = Z.of_nat (List.length P) -> exists p, nth_error (cnt s1 :: P) (Z.to_nat (k - 0)) = Some p).
  { intros P k H0 ->. destruct (nth_error (cnt s1 :: P) (Z.to_nat (Z.of_nat (List.length P) - 0))) as [p|] eqn:E; [eauto|]. apply nth_error_None in E. cbn [List.length] in E. lia. }
  destruct Hw as [(-> & -> & ->)|[Hw Hs]].
  - cbn [app] in V1. rewrite (dropbl_bl b1 _ B1 Fp) in V1. rewrite (vw_rounds _ _ _ V1). cbn [count_loop].
    destruct (ctos_plain line TERM [DQ; "'"%char; "{"%char] [DQ; "'"%char; "}"%char] [] (")"%char :: q) _ s1 eq_refl V1) as (s2 & E2 & V2 & _);
      [now rewrite (dropbl_firm _ Fp)|constructor|reflexivity|now right|]. unfold word. inb E2. rewrite (dropcom_firm _ Fp) in V2.
    destruct (char_bl line [] ")" q s2 eq_refl nil_sp V2) as (s3 & E3 & V3 & O3). unfold close_if. inb E3. rewrite O3. cbn [bind]. replace (0 + 1 <? 0) with false by reflexivity.
    change (Z.to_nat (0 + 1 - 0)) with 1%nat. cbn [nth_error app bind]. replace (mx <? 0 + 1) with false by lia.
    exists (0 + 1). eexists. split; [reflexivity|]. split; [cbn; lia|]. exists (")"%char :: q). exact (vw_reset _ _ s2 _ s3 V2 V3).
  - rewrite (dropbl_bl b1 _ B1) in V1 by (now apply words_firm with l).
    assert (Ln : (List.length l <= rounds s1)%nat).
    { rewrite (vw_rounds _ _ _ V1). pose proof (vw_le _ _ _ V1) as L. rewrite app_length in L. pose proof (words_len _ _ Hw). lia. }
    destruct (count_words line true mx mn tail sp (")"%char :: q) ltac:(cbn; auto 12) Hs l t Hw 0 [cnt s1] (rounds s1) s1 Ln V1) as (P & s2 & E2 & LP & (r2 & V2) & IP). inb E2.
    cbn [counted andb]. replace (Ascii.eqb ")" ")") with true by reflexivity. cbn [Z.add]. replace (Z.of_nat (List.length l) <? 0) with false by lia.
    destruct (Spot P (Z.of_nat (List.length l)) ltac:(lia) ltac:(lia)) as (p & Ep). cbn [app]. inb Ep. replace (mx <? Z.of_nat (List.length l)) with false by lia.
    eexists _, _. split; [reflexivity|]. split; [lia|]. apply nth_error_In in Ep. destruct Ep as [<-|Ip]; [exists (t ++ sp ++ ")"%char :: q); exact (vw_reset _ _ s1 _ s2 V1 V2)|].
    destruct (IP p Ip) as (s3 & r3 & <- & V3). exists r3. exact (vw_reset _ _ s3 _ s2 V3 V2).
Qed.
Lemma count_plain : forall line mx mn tail l t sp x s, 0 <= mn <= mx -> 0 < mx -> words l t -> sep sp -> stop_at x ->
  0 <= counted false mx mn tail (Z.of_nat (List.length l)) x <= Z.of_nat (List.length l) -> counted false mx mn tail (Z.of_nat (List.length l)) x <= mx -> vw line (t ++ sp ++ x) s ->
  exists s', count_ports mx mn tail 0 s = Some (Some (counted false mx mn tail (Z.of_nat (List.length l)) x), s') /\ exists r, vw line r s'.
Proof.
  intros line mx mn tail l t sp x s Hm Hx Hw Hs St. set (num := counted _ _ _ _ _ _). intros Hn Hn2 V. unfold count_ports.
  replace ((mx <=? 0) || (mx <? mn)) with false by lia.
  assert (F : firm (t ++ sp ++ x)) by (now apply words_firm with l).
  destruct (nochar_vw line "(" _ s ltac:(discriminate) F) as (s1 & E1 & V1 & O1); [|exact V|].
  { destruct Hw as [w Hw|w sp1 l' t' Hw _ _ _]; [destruct (name_head w (sp ++ x) Hw) as (c & q & -> & _ & N)|rewrite <- app_assoc; destruct (name_head w ((sp1 ++ t') ++ sp ++ x) Hw) as (c & q & -> & _ & N)];
    unfold head; cbn [hd]; intros ->; apply N; cbn; auto 12. }
  inb E1. rewrite O1.
  assert (Ln : (List.length l <= rounds s1)%nat).
  { rewrite (vw_rounds _ _ _ V1). pose proof (vw_le _ _ _ V1) as L. rewrite app_length in L. pose proof (words_len _ _ Hw). lia. }
  destruct (count_words line false mx mn tail sp x St Hs l t Hw 0 [cnt s1] (rounds s1) s1 Ln V1) as (P & s2 & E2 & LP & (r2 & V2) & IP). inb E2.
  cbn [Z.add]. fold num. replace (num <? 0) with false by lia.
  destruct (nth_error ([cnt s1] ++ P) (Z.to_nat (num - 0))) as [p|] eqn:Ep; [|apply nth_error_None in Ep; cbn [app List.length] in Ep; lia]. cbn [bind]. replace (mx <? num) with false by lia.
  eexists. split; [reflexivity|]. apply nth_error_In in Ep. destruct Ep as [<-|Ip]; [exists (t ++ sp ++ x); exact (vw_reset _ _ s1 _ s2 V1 V2)|].
  destruct (IP p Ip) as (s3 & r3 & <- & V3). exists r3. exact (vw_reset _ _ s3 _ s2 V3 V2).
Qed.
Lemma ended_ne : forall sp w y, name w -> ended sp (w ++ y) -> sep sp /\ sp <> [].
Proof.
  intros sp w y Hw [S [N|T]]; [auto|]. split; [exact S|]. exfalso. pose proof (name_fterm w Hw) as F. destruct Hw as (N & _). destruct w as [|c w]; [now elim N|].
  inversion_clear F as [|? ? Fc _]. change (head ((c :: w) ++ y)) with c in T. congruence.
Qed.
Lemma follows_firm : forall d k a t, follows d k a t -> firm t.
Proof.
  intros d k a t [_|l t' H _|l t' H _|w sp l t' _ [Hw _] _ _ _]; [apply nil_firm|now apply args_firm in H|rewrite <- (app_nil_r t'); apply (pairs_firm _ _ _ H nil_firm)|now apply name_firm].
Qed.
Lemma follows_args : forall d k a t, follows d k a t -> args (Some (d_value d)) a t.
Proof.
  intros d k a t [_|l t' H _|l t' H _|w sp l t' _ Hw Hs He H]; [apply ar_bare, bo_pairs, pr_nil|exact H|now apply ar_bare, bo_pairs|]. apply ar_bare. now apply bo_num with (n := d_value d).
Qed.
Lemma eq_stop : forall r, stop_at ("="%char :: r). Proof. intros r. cbn. auto 12. Qed.
Lemma count_bare : forall line d l ty t sp a ta s, device d -> words (l ++ type_word d ty) t -> Z.of_nat (List.length l) <= d_max d -> ended sp ta ->
  follows d (Z.of_nat (List.length l)) a ta -> vw line (t ++ sp ++ ta) s ->
  exists s', count_ports (d_max d) (d_min d) (d_tail d) 0 s = Some (Some (Z.of_nat (List.length l)), s') /\ exists r, vw line r s'.
Proof.
  intros line d l ty t sp a ta s (Hm & Hx & Ht) Hw Hl He Hf V. set (k := Z.of_nat (List.length l)) in *.
  assert (Lw : Z.of_nat (List.length (l ++ type_word d ty)) = k + d_tail d).
  { rewrite app_length, Ht. unfold type_word. destruct (d_shown d); cbn [List.length]; lia. }
  assert (Tt : d_tail d = 0 \/ d_tail d = 1) by (rewrite Ht; destruct (d_shown d); auto).
  assert (Hk : 0 <= k) by (unfold k; lia).
  assert (K0 : d_tail d = 0 -> 0 < k).
  { intros E. destruct (words_ne _ _ Hw) as [N _]. unfold k. unfold type_word in N. rewrite E in Ht. destruct (d_shown d); [discriminate Ht|]. rewrite app_nil_r in N. destruct l; [now elim N|cbn; lia]. }
  destruct Hf as [Hmin|l0 t0 Ha Ho|l0 t0 Hp Hne|w sp0 l0 t0 Ek Hn S0 He0 Hp].
  - (* nothing follows *)
    assert (Cn : counted false (d_max d) (d_min d) (d_tail d) (Z.of_nat (List.length (l ++ type_word d ty))) [] = k).
    { rewrite Lw. cbn [counted]. unfold at_end. assert (Hmin' : d_tail d = 1 -> d_min d <= k) by (intros E; apply Hmin; rewrite E in Ht; now destruct (d_shown d)).
      destruct (Z.leb_spec (k + d_tail d) (d_min d)); [lia|]. destruct (Z.leb_spec (k + d_tail d) (d_min d + d_tail d)); [lia|]. destruct (Z.leb_spec (k + d_tail d) (d_max d + d_tail d)); lia. }
    rewrite <- Cn. apply count_plain with (sp := sp) (t := t); [lia|lia|exact Hw|apply He|exact I|rewrite Cn; lia|rewrite Cn; lia|exact V].
  - (* a parenthesis or a brace *)
    destruct t0 as [|c q]; [cbn in Ho; intuition discriminate|]. unfold head in Ho. cbn [hd] in Ho.
    assert (St : stop_at (c :: q)) by (cbn in Ho |- *; intuition auto).
    assert (Cn : counted false (d_max d) (d_min d) (d_tail d) (Z.of_nat (List.length (l ++ type_word d ty))) (c :: q) = k).
    { rewrite Lw. cbn [counted andb]. destruct (Ascii.eqb_spec c "=") as [->|_]; [cbn in Ho; intuition discriminate|]. unfold at_paren. destruct (Z.ltb_spec (d_max d + d_tail d) (k + d_tail d)); lia. }
    rewrite <- Cn. apply count_plain with (sp := sp) (t := t); [lia|lia|exact Hw|apply He|exact St|rewrite Cn; lia|rewrite Cn; lia|exact V].
  - (* pairs *)
    destruct Hp as [|n b1 b2 tv v sp1 l1 t1 (Hn & _) B1 B2 Hv S1 He1 Hp]; [now elim Hne|].
    destruct (ended_ne sp n _ Hn He) as [Ss Ns]. pose proof (words_app _ _ [n] n sp Hw (w_one n Hn) Ss Ns) as Hw2.
    assert (L2 : Z.of_nat (List.length ((l ++ type_word d ty) ++ [n])) = k + d_tail d + 1) by (rewrite app_length; cbn [List.length]; lia).
    assert (Cn : counted false (d_max d) (d_min d) (d_tail d) (Z.of_nat (List.length ((l ++ type_word d ty) ++ [n]))) ("="%char :: b2 ++ tv ++ sp1 ++ t1) = k).
    { rewrite L2. cbn [counted andb]. replace (Ascii.eqb "=" "=") with true by reflexivity. unfold at_equal. destruct (Z.ltb_spec (d_max d + d_tail d + 1) (k + d_tail d + 1)); lia. }
    rewrite <- Cn. apply count_plain with (sp := b1) (t := t ++ sp ++ n); [lia|lia|exact Hw2|now left|apply eq_stop|rewrite Cn; lia|rewrite Cn; lia|].
    rewrite <- !app_assoc. exact V.
  - (* a number *)
    destruct Hn as [Hn _]. destruct (ended_ne sp w _ Hn He) as [Ss Ns]. pose proof (words_app _ _ [w] w sp Hw (w_one w Hn) Ss Ns) as Hw2.
    destruct Hp as [|n b1 b2 tv v sp1 l1 t1 (Hn1 & _) B1 B2 Hv S1 He1 Hp].
    + assert (L2 : Z.of_nat (List.length ((l ++ type_word d ty) ++ [w])) = k + d_tail d + 1) by (rewrite app_length; cbn [List.length]; lia).
      assert (Cn : counted false (d_max d) (d_min d) (d_tail d) (Z.of_nat (List.length ((l ++ type_word d ty) ++ [w]))) [] = k).
      { rewrite L2. cbn [counted]. unfold at_end. destruct (Z.leb_spec (k + d_tail d + 1) (d_min d)); [lia|]. destruct (Z.leb_spec (k + d_tail d + 1) (d_min d + d_tail d)); [lia|].
        destruct (Z.leb_spec (k + d_tail d + 1) (d_max d + d_tail d)); lia. }
      rewrite <- Cn. apply count_plain with (sp := sp0) (t := t ++ sp ++ w); [lia|lia|exact Hw2|exact S0|exact I|rewrite Cn; lia|rewrite Cn; lia|].
      rewrite <- !app_assoc. exact V.
    + assert (N0 : sp0 <> []) by (destruct He0 as [He0|He0]; [exact He0|destruct Hn1 as (N & _); destruct n; [now elim N|discriminate He0]]).
      pose proof (words_app _ _ [n] n sp0 Hw2 (w_one n Hn1) S0 N0) as Hw3.
      assert (L2 : Z.of_nat (List.length (((l ++ type_word d ty) ++ [w]) ++ [n])) = k + d_tail d + 2) by (rewrite !app_length in *; cbn [List.length]; lia).
      assert (Cn : counted false (d_max d) (d_min d) (d_tail d) (Z.of_nat (List.length (((l ++ type_word d ty) ++ [w]) ++ [n]))) ("="%char :: b2 ++ tv ++ sp1 ++ t1) = k).
      { rewrite L2. cbn [counted andb]. replace (Ascii.eqb "=" "=") with true by reflexivity. unfold at_equal. destruct (Z.ltb_spec (d_max d + d_tail d + 1) (k + d_tail d + 2)); lia. }
      rewrite <- Cn. apply count_plain with (sp := b1) (t := (t ++ sp ++ w) ++ sp0 ++ n); [lia|lia|exact Hw3|now left|apply eq_stop|rewrite Cn; lia|rewrite Cn; lia|].
      rewrite <- !app_assoc. exact V.
Qed.

(* the nodes, the type and the parameters *)
Definition after_label (ci keys : bool) (d : dev) (s : cs) : option (list call * cs) :=
  let here := cnt s in
  let* (num, s) := count_ports (d_max d) (d_min d) (d_tail d) 0 s in
  match num with
  | None => Some ([], s)
  | Some num =>
      let* (ports, _, s) := parse_ports ci keys (d_min d) 0 num (reset here s) in
      let* (ty, s) :=
        if d_shown d then
          let* (t, s) := parse_type s in
          let* s := if d_tail d =? 2 then skiparg s else Some s in Some (t, s)
        else Some ([], s) in
      let* (args, s) := parse_args ci (Some (d_value d)) s in
      Some (ports ++ ty ++ args, s)
  end.
Lemma type_vw : forall line d ty sp ta s, device d -> (d_shown d = true -> name ty /\ ended sp ta) -> (d_shown d = false -> sp = []) -> firm ta -> vw line (List.concat (type_word d ty) ++ sp ++ ta) s ->
  exists s', (if d_shown d then let* (t, s) := parse_type s in let* s := if d_tail d =? 2 then skiparg s else Some s in Some (t, s) else Some ([], s)) = Some (type_call d ty, s') /\ vw line ta s'.
Proof.
  intros line d ty sp ta s (_ & _ & Ht) Ha Hb F V. unfold type_word, type_call in *. destruct (d_shown d).
  - destruct (Ha eq_refl) as [Hn He]. cbn [List.concat] in V. rewrite app_nil_r in V. unfold parse_type. destruct (word_step line ty sp ta s Hn He F V) as (s1 & E1 & V1 & _). inb E1.
    rewrite Ht. cbn [bind]. exists s1. auto.
  - rewrite (Hb eq_refl) in V. exists s. auto.
Qed.
Lemma after_label_vw : forall ci keys line d r t s, device d -> rest ci keys d r t -> vw line t s ->
  exists s', after_label ci keys d s = Some (r, s') /\ vw line [] s'.
Proof.
  intros ci keys line d r t s Hd H V. pose proof Hd as (Hm & Hx & Ht). unfold after_label.
  destruct H as [b1 l t sp b2 ty tt a ta B1 Hw Hn Hl B2 Hty Ha|l ty t sp a ta Hw Hn Hl He Hf].
  - destruct (count_paren line (d_max d) (d_min d) (d_tail d) b1 l t sp (b2 ++ tt ++ ta) s Hm Hx B1 Hw Hl V) as (num & s1 & E1 & Ln & (r1 & V1)). inb E1.
    pose proof (vw_reset _ _ s _ s1 V V1) as V2. generalize dependent (reset (cnt s) s1). clear s s1 r1 E1 V V1. intros s V. unfold parse_ports.
    destruct (char_bl line [] "(" _ s eq_refl nil_sp V) as (s1 & E1 & V1 & O1). inb E1. rewrite O1.
    assert (Fa : firm ta) by (now apply args_key_firm in Ha).
    assert (Ft : firm (tt ++ ta)) by (destruct (d_shown d); [destruct Hty as (sp2 & Hy & _ & ->); rewrite <- app_assoc; now apply name_firm|now subst tt]).
    assert (P : exists s2, ports_loop ci keys (rounds s1) true 0 num s1 = Some (places 0 l, Z.of_nat (List.length l), s2) /\ vw line (dropbl (b2 ++ tt ++ ta)) s2).
    { destruct Hw as [(-> & -> & ->)|[Hw Hs]].
      - cbn [app] in V1. rewrite (dropbl_bl b1 _ B1) in V1 by (now apply firm_cons). rewrite (vw_rounds _ _ _ V1). cbn [ports_loop].
        destruct (char_bl line [] ")" _ s1 eq_refl nil_sp V1) as (s3 & E3 & V3 & O3). unfold close_if. inb E3. rewrite O3. cbn [bind]. exists s3. auto.
      - rewrite (dropbl_bl b1 _ B1) in V1 by (now apply words_firm with l).
        destruct (ports_paren ci keys line sp (b2 ++ tt ++ ta) Hs l t Hw Hn 0 num (rounds s1) s1) as (s2 & E2 & V2); [|lia|exact V1|exists s2; auto].
        rewrite (vw_rounds _ _ _ V1). pose proof (vw_le _ _ _ V1) as L. repeat (rewrite app_length in L; cbn [List.length] in L). pose proof (words_len _ _ Hw). lia. }
    destruct P as (s2 & E2 & V2). inb E2. rewrite (dropbl_bl b2 _ B2 Ft) in V2.
    assert (T : exists s3, (if d_shown d then let* (t, s) := parse_type s2 in let* s := if d_tail d =? 2 then skiparg s else Some s in Some (t, s) else Some ([], s2)) = Some (type_call d ty, s3) /\ vw line ta s3).
    { destruct (d_shown d) eqn:Es.
      - destruct Hty as (sp2 & Hy & He & ->). pose proof (type_vw line d ty sp2 ta s2 Hd (fun _ => conj Hy He) ltac:(congruence) Fa) as T. rewrite Es in T. apply T.
        unfold type_word. rewrite Es. cbn [List.concat]. rewrite app_nil_r. rewrite <- app_assoc in V2. exact V2.
      - subst tt. unfold type_call. rewrite Es. exists s2. auto. }
    destruct T as (s3 & E3 & V3). inb E3. destruct (parse_args_vw ci line _ a ta s3 Ha V3) as (s4 & E4 & V4). inb E4.
    exists s4. split; [|exact V4]. rewrite set_places, set_grounded. now rewrite <- app_assoc.
  - destruct (count_bare line d l ty t sp a ta s Hd Hw Hl He Hf V) as (s1 & E1 & (r1 & V1)). inb E1.
    pose proof (vw_reset _ _ s _ s1 V V1) as V2. generalize dependent (reset (cnt s) s1). clear s s1 r1 E1 V V1. intros s V. unfold parse_ports.
    assert (F : firm (t ++ sp ++ ta)) by (now apply words_firm with (l ++ type_word d ty)). assert (Fa : firm ta) by (now apply follows_firm in Hf).
    destruct (nochar_vw line "(" _ s ltac:(discriminate) F) as (s1 & E1 & V1 & O1); [|exact V|].
    { destruct Hw as [w Hw|w sp1 l' t' Hw _ _ _]; [destruct (name_head w (sp ++ ta) Hw) as (c & q & -> & _ & N)|rewrite <- app_assoc; destruct (name_head w ((sp1 ++ t') ++ sp ++ ta) Hw) as (c & q & -> & _ & N)];
      unfold head; cbn [hd]; intros ->; apply N; cbn; auto 12. }
    inb E1. rewrite O1.
    assert (P : exists s2, ports_loop ci keys (rounds s1) false 0 (Z.of_nat (List.length l)) s1 = Some (places 0 l, Z.of_nat (List.length l), s2) /\
      vw line (List.concat (type_word d ty) ++ (if d_shown d then sp else []) ++ ta) s2 /\ (d_shown d = true -> name ty)).
    { assert (Len : forall l0 t0 y, words l0 t0 -> vw line (t0 ++ y) s1 -> (List.length l0 < rounds s1)%nat).
      { intros l0 t0 y H0 V0. rewrite (vw_rounds _ _ _ V0). pose proof (vw_le _ _ _ V0) as L. rewrite app_length in L. pose proof (words_len _ _ H0). lia. }
      unfold type_word in Hw |- *. destruct (d_shown d) eqn:Es.
      - destruct (words_split l [ty] t Hw ltac:(discriminate)) as [[-> H1]|(t1 & sp1 & t2 & H1 & S1 & N1 & H2 & ->)].
        + assert (Nt : name ty /\ t = ty) by (inversion H1 as [w' Hw' E1' E2'|? ? ? ? ? ? ? Hbad]; subst; [auto|inversion Hbad]). destruct Nt as [Nt ->].
          cbn [List.length List.concat places]. rewrite app_nil_r. rewrite (vw_rounds _ _ _ V1). cbn [ports_loop close_if bind Z.of_nat]. change (0 <=? 0) with true. cbn [bind]. exists s1. auto.
        + assert (Nt : name ty /\ t2 = ty) by (inversion H2 as [w' Hw' E1' E2'|? ? ? ? ? ? ? Hbad]; subst; [auto|inversion Hbad]). destruct Nt as [Nt ->].
          rewrite <- !app_assoc in V1. destruct (ports_bare ci keys line sp1 (ty ++ sp ++ ta) (conj S1 (or_introl N1)) (proj1 (name_firm ty _ Nt)) l t1 H1 Hn 0 (rounds s1) s1 (Len _ _ _ H1 V1) V1) as (s2 & E2 & V2).
          exists s2. cbn [List.concat]. rewrite app_nil_r. auto.
      - rewrite app_nil_r in Hw. destruct (ports_bare ci keys line sp ta He Fa l t Hw Hn 0 (rounds s1) s1 (Len _ _ _ Hw V1) V1) as (s2 & E2 & V2). exists s2. cbn [List.concat app]. split; [exact E2|]. split; [exact V2|discriminate]. }
    destruct P as (s2 & E2 & V2 & Nt). inb E2.
    destruct (type_vw line d ty (if d_shown d then sp else []) ta s2 Hd) as (s3 & E3 & V3); [intros Es; rewrite Es; auto|intros Es; now rewrite Es|exact Fa|exact V2|]. inb E3.
    destruct (parse_args_vw ci line _ a ta s3 (ak_none ci _ _ _ (follows_args _ _ _ _ Hf)) V3) as (s4 & E4 & V4). inb E4.
    exists s4. split; [|exact V4]. rewrite set_places, set_grounded. now rewrite <- app_assoc.
Qed.
Lemma rest_firm : forall ci keys d r t, rest ci keys d r t -> firm t.
Proof. intros ci keys d r t [b1 l t' sp b2 ty tt a ta _ _ _ _ _ _ _|l ty t' sp a ta Hw _ _ _ _]; [now apply firm_cons|now apply words_firm with (l ++ type_word d ty)]. Qed.
Lemma star_ops : Forall opchar (str "*>"). Proof. repeat constructor; try discriminate; cbn; intuition discriminate. Qed.

(* Every line of that form is read as the calls it stands for, in order and to the end of the line, from
   wherever the cursor was *)
Theorem C65_read : forall ci keys d calls t s, device d -> instance_line ci keys d calls t -> on_line t s ->
  exists s', parse_instance ci keys d s = Some (calls, s') /\ on_line t s' /\ after s' = [].
Proof.
  intros ci keys d calls t s Hd H Hs. destruct (on_line_vw _ _ Hs) as (r0 & V0).
  assert (V : vw t t (reset 0 s)). { destruct V0 as (E1 & E2 & _). split; [exact E1|]. split; [exact E2|]. exists []. split; reflexivity. }
  clear r0 V0 Hs. unfold parse_instance. generalize dependent (reset 0 s). clear s. intros s V.
  destruct H as [b0 mark h th sp r tr B0 Hmark Hh He Hr]. set (line := b0 ++ _) in V at 1.
  assert (El : line = b0 ++ mark ++ th ++ sp ++ tr) by reflexivity. rewrite <- El. clearbody line. clear El.
  pose proof (rest_firm _ _ _ _ _ Hr) as Fr.
  assert (Th : exists c q, th = c :: q /\ isgraph c = true /\ c <> ","%char /\ c <> "*"%char).
  { destruct Hh as [lab Hl Nl|ty sp1 lab Hty _ _ _]; [|exists "."%char, (ty ++ sp1 ++ lab); repeat split; discriminate].
    destruct (name_head lab [] Hl) as (c & q & E & G & N). rewrite app_nil_r in E. subst lab. exists c, q. split; [reflexivity|]. split; [exact G|]. split; intros ->; [apply N; now left|apply Nl; right; now left]. }
  destruct Th as (c & q & Et & G & Nc & Ns).
  assert (Ft : firm (th ++ sp ++ tr)) by (rewrite Et; now apply firm_cons).
  assert (M : exists s1 b1, umatch ci (str "*>") s = Some s1 /\ spaces b1 /\ vw line (b1 ++ th ++ sp ++ tr) s1).
  { destruct Hmark as [->|(b & B & ->)].
    - destruct (lit_miss ci line (str "*>") _ s star_ops V) as (s1 & E1 & _ & V1); [|exists s1, b0; auto].
      intros y. cbn [app]. rewrite (dropbl_bl b0 _ B0 Ft). rewrite Et. intros [= -> _]. now elim Ns.
    - rewrite <- app_assoc in V. destruct (lit_hit ci line (str "*>") (th ++ sp ++ tr) b0 b s star_ops) as (s1 & E1 & _ & V1).
      { intros c0 q0 [= <- _]. reflexivity. }
      { discriminate. }
      { exact B0. }
      { exact B. }
      { exact Ft. }
      { exact V. }
      exists s1, []. split; [exact E1|]. split; [apply nil_sp|exact V1]. }
  destruct M as (s1 & b1 & E1 & B1 & V1). inb E1.
  assert (D : dropbl (b1 ++ th ++ sp ++ tr) = th ++ sp ++ tr) by (now apply dropbl_bl).
  destruct (skip1bc_vw _ _ _ "."%char ltac:(discriminate) V1) as (s2 & E2 & V2 & _ & O2). inb E2. unfold eat1b in V2. rewrite D in V2, O2.
  destruct Hh as [lab Hl Nl|ty sp1 lab Hty S1 N1 Hl].
  - assert (Hd0 : Ascii.eqb (head (lab ++ sp ++ tr)) "." = false).
    { rewrite Et. unfold head. cbn [app hd]. destruct (Ascii.eqb_spec c ".") as [->|_]; [|reflexivity]. elim Nl. rewrite Et. now left. }
    rewrite Hd0 in O2. rewrite O2. cbn [bind]. rewrite (eat1_id _ _ Hd0) in V2. rewrite (dropbl_firm _ Ft) in V2.
    unfold parse_label. destruct (word_step line lab sp tr s2 Hl He Fr V2) as (s3 & E3 & V3 & O3 & _). inb E3. rewrite O3.
    destruct (after_label_vw ci keys line d r tr s3 Hd Hr V3) as (s4 & E4 & V4). unfold after_label in E4.
    destruct (count_ports (d_max d) (d_min d) (d_tail d) 0 s3) as [[[num|] s5]|]; [| |discriminate E4]; cbn [bind] in E4 |- *.
    + destruct (parse_ports ci keys (d_min d) 0 num (reset (cnt s3) s5)) as [[[ports idx] s6]|]; [|discriminate E4]. cbn [bind] in E4 |- *.
      destruct (if d_shown d then _ else _) as [[tyc s7]|]; [|discriminate E4]. cbn [bind] in E4 |- *.
      destruct (parse_args ci (Some (d_value d)) s7) as [[argc s8]|]; [|discriminate E4]. cbn [bind] in E4 |- *. injection E4 as <- <-.
      exists s8. split; [reflexivity|]. split; [now apply vw_on_line with []|now apply after_vw with line].
    + injection E4 as <- <-. exists s5. split; [reflexivity|]. split; [now apply vw_on_line with []|now apply after_vw with line].
  - cbn [app] in O2. unfold head in O2. cbn [hd] in O2. replace (Ascii.eqb "." ".") with true in O2 by reflexivity. rewrite O2.
    cbn [app eat1] in V2. replace (Ascii.eqb "." ".") with true in V2 by reflexivity. rewrite <- !app_assoc in V2. rewrite (dropbl_firm _ (proj1 (name_firm ty _ Hty))) in V2.
    unfold parse_type at 1. destruct (word_step line ty sp1 (lab ++ sp ++ tr) s2 Hty (conj S1 (or_introl N1)) (proj1 (name_firm lab _ Hl)) V2) as (s2' & E2' & V2' & _). inb E2'.
    unfold parse_label. destruct (word_step line lab sp tr s2' Hl He Fr V2') as (s3 & E3 & V3 & O3 & _). inb E3. rewrite O3.
    destruct (after_label_vw ci keys line d r tr s3 Hd Hr V3) as (s4 & E4 & V4). unfold after_label in E4.
    destruct (count_ports (d_max d) (d_min d) (d_tail d) 0 s3) as [[[num|] s5]|]; [| |discriminate E4]; cbn [bind] in E4 |- *.
    + destruct (parse_ports ci keys (d_min d) 0 num (reset (cnt s3) s5)) as [[[ports idx] s6]|]; [|discriminate E4]. cbn [bind] in E4 |- *.
      destruct (if d_shown d then _ else _) as [[tyc s7]|]; [|discriminate E4]. cbn [bind] in E4 |- *.
      destruct (parse_args ci (Some (d_value d)) s7) as [[argc s8]|]; [|discriminate E4]. cbn [bind] in E4 |- *. injection E4 as <- <-.
      exists s8. split; [reflexivity|]. split; [now apply vw_on_line with []|now apply after_vw with line].
    + injection E4 as <- <-. exists s5. split; [reflexivity|]. split; [now apply vw_on_line with []|now apply after_vw with line].
Qed.
Print Assumptions C65_read.

(* Reading is settled by the text alone, so no text stands for two different instances *)
Theorem C65_unambiguous : forall ci keys d c1 c2 t, device d -> instance_line ci keys d c1 t -> instance_line ci keys d c2 t -> c1 = c2.
Proof.
  intros ci keys d c1 c2 t Hd H1 H2. assert (L : on_line t (cs_string t)) by (apply vw_on_line with t, vw_start).
  destruct (C65_read ci keys d c1 t _ Hd H1 L) as (s1 & E1 & _). destruct (C65_read ci keys d c2 t _ Hd H2 L) as (s2 & E2 & _). congruence.
Qed.
Print Assumptions C65_unambiguous.

(* ---- what is printed ---- *)
Definition plain_value (v : text) : Prop := v <> [] /\ simple (str ",=;)") v /\ ~ In (head v) [DQ; "'"%char; "{"%char; "("%char].
(* an instance that can be printed so that it is read back: words that are words, values that need no quotes,
   an unnamed value only if it begins like a number, and a label that begins with the letter of the device
   unless the type is shown *)
Definition printable (ci keys : bool) (d : dev) (x : inst) : Prop :=
  name (i_label x) /\ ~ In (head (i_label x)) (str ".*") /\ Forall (node ci keys) (i_ports x) /\ Z.of_nat (List.length (i_ports x)) <= d_max d /\
  i_shown x = d_shown d /\ i_tail x = d_tail d /\ (if d_shown d then name (i_type x) else same_char ci (head (i_label x)) (i_letter x)) /\
  match i_value x with Some v => number v | None => True end /\ Forall (fun p => pname (fst p) /\ plain_value (snd p)) (i_args x).
Definition param_calls (l : list (text * text)) : list call := map (fun p => SetParam (fst p) (snd p)) l.
Definition says (d : dev) (x : inst) : list call :=
  SetLabel (i_label x) :: set_ports (i_ports x) ++ set_grounds (d_min d) (i_ports x) ++ type_call d (i_type x) ++
  match i_value x with Some v => [SetParam (d_value d) v] | None => [] end ++ param_calls (i_args x).
Lemma one_space : sep (str " "). Proof. left. repeat constructor. Qed.
Lemma two_spaces : sep (str "  "). Proof. left. repeat constructor. Qed.
Lemma printed_pairs : forall l, Forall (fun p => pname (fst p) /\ plain_value (snd p)) l ->
  (l = [] /\ arg_items l = []) \/ exists t, arg_items l = " "%char :: t /\ pairs (param_calls l) t.
Proof.
  intros l H. induction H as [|[n v] l [Hn (Nv & Sv & Qv)] H IH]; [now left|]. right. cbn [fst snd] in *. cbn [arg_items]. eexists. split; [reflexivity|].
  destruct IH as [[-> ->]|(t & -> & Hp)].
  - exact (pr_cons n [] [] v v [] [] [] Hn nil_sp nil_sp (vt_plain v Nv Sv Qv) sep_nil (or_intror eq_refl) pr_nil).
  - apply (pr_cons n [] [] v v [" "%char] (param_calls l) t); [exact Hn|apply nil_sp|apply nil_sp|now apply vt_plain|apply one_space|left; discriminate|exact Hp].
Qed.
Lemma printed_words : forall l, Forall name l -> l <> [] -> words l (port_items [] l).
Proof.
  intros l H N. destruct H as [|w l Hw H]; [now elim N|]. cbn [port_items app]. clear N. revert w Hw. induction H as [|v l Hv _ IH]; intros w Hw.
  - cbn [port_items]. rewrite app_nil_r. now constructor.
  - cbn [port_items]. apply (w_cons w (str " ") (v :: l) (v ++ port_items (str " ") l)); [exact Hw|apply one_space|discriminate|exact (IH v Hv)].
Qed.
Lemma same_fix : forall ci a b, same_char ci a b -> fix_case ci a = fix_case ci b.
Proof. intros ci a b [->|[-> E]]; [reflexivity|exact E]. Qed.
Theorem C65_print_read : forall ci keys d x, device d -> printable ci keys d x ->
  instance_line ci keys d (says d x) (print_instance ci x) /\
  forall s, on_line (print_instance ci x) s -> exists s', parse_instance ci keys d s = Some (says d x, s') /\ after s' = [].
Proof.
  intros ci keys d x Hd H.
  assert (L : instance_line ci keys d (says d x) (print_instance ci x)).
  { destruct H as (Hl & Nl & Hp & Lp & Es & Et & Hty & Hv & Ha). pose proof Hd as (_ & _ & Ht).
    unfold says, print_instance.
    assert (A : exists b ta, spaces b /\ str " " ++ match i_value x with Some v => v | None => [] end ++ arg_items (i_args x) = " "%char :: b ++ ta /\
      args_key ci (Some (d_value d)) (match i_value x with Some v => [SetParam (d_value d) v] | None => [] end ++ param_calls (i_args x)) ta).
    { destruct (i_value x) as [v|]; destruct (printed_pairs _ Ha) as [[El Ei]|(t & Ei & Hp')]; rewrite Ei.
      - exists [], (v ++ [] ++ []). split; [apply nil_sp|]. split; [reflexivity|]. rewrite El. apply ak_none, ar_bare.
        exact (bo_num _ (d_value d) v [] [] [] eq_refl Hv sep_nil (or_intror eq_refl) pr_nil).
      - exists [], (v ++ str " " ++ t). split; [apply nil_sp|]. split; [reflexivity|]. apply ak_none, ar_bare.
        cbn [app]. apply bo_num; [reflexivity|exact Hv|apply one_space|left; discriminate|exact Hp'].
      - exists [], []. split; [apply nil_sp|]. split; [reflexivity|]. rewrite El. apply ak_none, ar_bare, bo_pairs, pr_nil.
      - exists (str " "), t. split; [repeat constructor|]. split; [reflexivity|]. now apply ak_none, ar_bare, bo_pairs. }
    destruct A as (b & ta & B & Ea & Hargs). rewrite Ea.
    assert (W : exists b1 t sp, spaces b1 /\ ((i_ports x = [] /\ t = [] /\ sp = []) \/ (words (i_ports x) t /\ sep sp)) /\ str " ( " ++ port_items [] (i_ports x) ++ str " )" = str " " ++ "("%char :: b1 ++ t ++ sp ++ str ")").
    { destruct (i_ports x) as [|w l] eqn:Ew.
      - exists (str "  "), [], []. split; [repeat constructor|]. split; [now left|reflexivity].
      - exists (str " "), (port_items [] (w :: l)), (str " "). split; [repeat constructor|]. split; [right; split; [|apply one_space]|].
        + apply printed_words; [|discriminate]. eapply Forall_impl; [|exact Hp]. now intros a [Na _].
        + reflexivity. }
    destruct W as (b1 & t & sp & B1 & Hw & Ew). rewrite Ew.
    assert (T : exists b2 tt, spaces b2 /\ (if d_shown d then exists sp2, name (i_type x) /\ ended sp2 ta /\ tt = i_type x ++ sp2 else tt = []) /\ type_text ci x ++ " "%char :: b ++ ta = b2 ++ tt ++ ta).
    { unfold type_text. rewrite Es. destruct (d_shown d).
      - exists (str "  "), (i_type x ++ " "%char :: b). split; [repeat constructor|]. split.
        + exists (" "%char :: b). split; [exact Hty|]. split; [|reflexivity]. split; [left; now constructor|left; discriminate].
        + rewrite Et, Ht. cbn [Z.eqb Pos.eqb]. rewrite <- !app_assoc. reflexivity.
      - exists (" "%char :: b), []. split; [now constructor|]. split; [reflexivity|]. unfold head in Hty. rewrite (same_fix _ _ _ Hty), Ascii.eqb_refl. reflexivity. }
    destruct T as (b2 & tt & B2 & Htt & ET).
    replace (i_label x ++ (str " " ++ "("%char :: b1 ++ t ++ sp ++ str ")") ++ type_text ci x ++ " "%char :: b ++ ta)
      with ([] ++ [] ++ i_label x ++ str " " ++ ("("%char :: b1 ++ t ++ sp ++ ")"%char :: b2 ++ tt ++ ta)).
    2:{ rewrite ET. cbn [app]. rewrite <- !app_assoc. cbn [app]. rewrite <- !app_assoc. reflexivity. }
    change (SetLabel (i_label x) :: ?r) with ([SetLabel (i_label x)] ++ r).
    apply il; [apply nil_sp|now left|now apply fr_label|split; [apply one_space|left; discriminate]|]. now apply re_paren. }
  split; [exact L|]. intros s Hs. destruct (C65_read ci keys d _ _ s Hd L Hs) as (s' & E & _ & A). eauto.
Qed.
Print Assumptions C65_print_read.

(* ---- model lines ---- *)
Inductive model_line (ci : bool) : list call -> text -> Prop :=
  | ml b0 k b1 lab sp ty sp2 a ta : spaces b0 -> Forall2 (same_char ci) k (str ".model") -> spaces b1 -> b1 <> [] -> name lab -> sep sp -> sp <> [] -> name ty -> ended sp2 ta ->
      args_key ci None a ta -> model_line ci (SetLabel lab :: SetType ty :: a) (b0 ++ k ++ b1 ++ lab ++ sp ++ ty ++ sp2 ++ ta).
Lemma model_plain : Forall plain (str ".model").
Proof. repeat constructor; try discriminate; cbn; intuition discriminate. Qed.
Lemma dropcom_dropbl : forall r, dropcom (dropbl r) = dropcom r.
Proof. intros r. unfold dropcom, eat1b. f_equal. f_equal. apply drop_idem. apply dropbl_head. Qed.
Theorem C65_model_read : forall ci calls t s, model_line ci calls t -> on_line t s ->
  exists s', parse_paramset ci s = Some (calls, s') /\ on_line t s' /\ after s' = [] /\ ok s' = true.
Proof.
  intros ci calls t s H Hs. destruct (on_line_vw _ _ Hs) as (r0 & V0).
  assert (V : vw t t (reset 0 s)). { destruct V0 as (E1 & E2 & _). split; [exact E1|]. split; [exact E2|]. exists []. split; reflexivity. }
  clear r0 V0 Hs. unfold parse_paramset. generalize dependent (reset 0 s). clear s. intros s V.
  destruct H as [b0 k b1 lab sp ty sp2 a ta B0 Hk B1 N1 Hl Hs Ns Hty He Ha].
  set (line := b0 ++ _) in V at 1. assert (El : line = b0 ++ k ++ b1 ++ lab ++ sp ++ ty ++ sp2 ++ ta) by reflexivity. rewrite <- El. clearbody line. clear El.
  destruct (key_vw ci line (str ".model") [" "%char] _ s model_plain (or_intror eq_refl) V) as (s1 & E1 & L).
  change (str ".model" ++ [" "%char]) with (str ".model ") in E1. inb E1.
  assert (D : dropbl (b0 ++ k ++ b1 ++ lab ++ sp ++ ty ++ sp2 ++ ta) = k ++ b1 ++ lab ++ sp ++ ty ++ sp2 ++ ta).
  { rewrite (dropbl_app b0 _ (space_blank _ B0)). inversion Hk as [|c ? u ? Hc Hu]; subst. cbn [app]. apply dropbl_graph.
    destruct Hc as [->|[_ E]]; [reflexivity|]. revert E. destruct c as [[] [] [] [] [] [] [] []]; vm_compute; congruence. }
  rewrite D in L. clear D. assert (E : pre ci (str ".model") (k ++ b1 ++ lab ++ sp ++ ty ++ sp2 ++ ta) = Some (b1 ++ lab ++ sp ++ ty ++ sp2 ++ ta)) by (apply pre_some; now exists k).
  rewrite E in L. assert (T : fterm TERM (head (b1 ++ lab ++ sp ++ ty ++ sp2 ++ ta)) = true) by (destruct b1; [now elim N1|]; inversion_clear B1; now apply fterm_space).
  rewrite T in L. destruct L as [_ V1]. rewrite dropcom_dropbl, (dropcom_bl b1 _ B1 (proj1 (name_firm lab _ Hl))) in V1.
  unfold parse_label. destruct (word_step line lab sp _ s1 Hl (conj Hs (or_introl Ns)) (proj1 (name_firm ty (sp2 ++ ta) Hty)) V1) as (s2 & E2 & V2 & O2 & _). inb E2. rewrite O2.
  unfold parse_type. destruct (word_step line ty sp2 ta s2 Hty He (args_key_firm _ _ _ _ Ha) V2) as (s3 & E3 & V3 & _). inb E3.
  destruct (parse_args_vw ci line None a ta s3 Ha V3) as (s4 & E4 & V4). inb E4.
  unfold check. destruct (skipbl_vw _ _ _ V4) as (s7 & E7 & V7 & _). inb E7. change (dropbl []) with (@nil ascii) in V7. inb (peek_vw _ _ _ V7).
  change (head []) with NUL. replace (Ascii.eqb NUL "/") with false by reflexivity. replace (Ascii.eqb NUL ";" || Ascii.eqb NUL "'") with false by reflexivity.
  replace (Ascii.eqb NUL NUL) with true by reflexivity. cbn [bind].
  exists (set_ok s7 true). split; [reflexivity|]. split; [apply vw_on_line with []; exact V7|]. split; [now apply after_vw with line|reflexivity].
Qed.
Print Assumptions C65_model_read.
Lemma F2_refl : forall ci m, Forall2 (same_char ci) m m.
Proof. intros ci m. induction m as [|c m IH]; constructor; [now left|exact IH]. Qed.
Theorem C65_model_print_read : forall ci label ty l, name label -> name ty -> Forall (fun p => pname (fst p) /\ plain_value (snd p)) l ->
  model_line ci (SetLabel label :: SetType ty :: param_calls l) (print_paramset label ty l) /\
  forall s, on_line (print_paramset label ty l) s -> exists s', parse_paramset ci s = Some (SetLabel label :: SetType ty :: param_calls l, s') /\ after s' = [] /\ ok s' = true.
Proof.
  intros ci label ty l Hl Hty Ha.
  assert (L : model_line ci (SetLabel label :: SetType ty :: param_calls l) (print_paramset label ty l)).
  { unfold print_paramset.
    assert (A : exists b1 t, spaces b1 /\ arg_items l = b1 ++ t /\ pairs (param_calls l) t).
    { destruct (printed_pairs l Ha) as [[El Ei]|(t & Ei & Hp)]; rewrite Ei; [exists [], []; rewrite El; repeat split; [apply nil_sp|constructor]|exists (str " "), t; repeat split; [repeat constructor|exact Hp]]. }
    destruct A as (b1 & t & B1 & -> & Hp).
    replace (str ".model " ++ label ++ str " " ++ ty ++ str " (" ++ (b1 ++ t) ++ str ")") with ([] ++ str ".model" ++ str " " ++ label ++ str " " ++ ty ++ str " " ++ "("%char :: b1 ++ t ++ str ")").
    2:{ rewrite <- !app_assoc. reflexivity. }
    apply ml; [apply nil_sp|apply F2_refl|repeat constructor|discriminate|exact Hl|apply one_space|discriminate|exact Hty|split; [apply one_space|left; discriminate]|].
    apply ak_none. apply (ar_paren None b1 (param_calls l) t []); [exact B1|now apply bo_pairs|apply nil_sp]. }
  split; [exact L|]. intros s Hs. destruct (C65_model_read ci _ _ s L Hs) as (s' & E & _ & A). eauto.
Qed.
Print Assumptions C65_model_print_read.

(* ---- the nodes of an element ----
   Elements leave what follows their nodes to other parsers.  y is the text behind the nodes; without
   parentheses it is any words and then one of ( { } ) = or the end, but an equal sign not at once. *)
Inductive behind : text -> Prop :=
  | be_end y : stop_at y -> head y <> "="%char -> behind y
  | be_words m t sp x : words m t -> sep sp -> stop_at x -> behind (t ++ sp ++ x).
Lemma behind_firm : forall y, behind y -> firm y.
Proof. intros y [x H _|m t sp x Hw _ _]; [now apply stop_firm|now apply words_firm with m]. Qed.
Theorem C65_element_nodes : forall ci keys mx currents l t sp y line s, 0 < mx - currents -> words l t -> Forall (node ci keys) l -> Z.of_nat (List.length l) = mx - currents ->
  ended sp y -> behind y -> on_line line s -> after s = t ++ sp ++ y ->
  exists s', element_ports ci keys mx currents s = Some (set_ports l, mx - currents, s') /\ on_line line s' /\ after s' = y.
Proof.
  intros ci keys mx currents l t sp y line s Hx Hw Hn Hl He Hb Hs Ha. destruct (on_line_vw _ _ Hs) as (r0 & V). rewrite (after_vw _ _ _ V) in Ha. subst r0. clear Hs.
  unfold element_ports. set (k := mx - currents) in *.
  assert (C : exists s1, count_ports k 0 0 0 s = Some (Some k, s1) /\ exists r, vw line r s1).
  { destruct Hb as [x Hst Hne|m t2 sp2 x Hm S2 Hst].
    - assert (Cn : counted false k 0 0 (Z.of_nat (List.length l)) x = k).
      { rewrite Hl. destruct x as [|c q]; cbn [counted andb].
        - unfold at_end. destruct (Z.leb_spec k 0); [lia|]. destruct (Z.leb_spec k (0 + 0)); [lia|]. destruct (Z.leb_spec k (k + 0)); lia.
        - destruct (Ascii.eqb_spec c "=") as [->|_]; [now elim Hne|]. unfold at_paren. destruct (Z.ltb_spec (k + 0) k); lia. }
      destruct (count_plain line k 0 0 l t sp x s) as (s1 & E1 & V1); [lia|lia|exact Hw|apply He|exact Hst|rewrite Cn; lia|rewrite Cn; lia|exact V|]. rewrite Cn in E1. eauto.
    - assert (Q : sep sp /\ sp <> []).
      { destruct Hm as [w Hm|w sp1 l' t' Hm _ _ _]; [now apply ended_ne with w (sp2 ++ x)|]. apply ended_ne with w ((sp1 ++ t') ++ sp2 ++ x); [exact Hm|]. rewrite <- app_assoc in He. exact He. }
      destruct Q as [Ss Ns]. pose proof (words_app _ _ _ _ sp Hw Hm Ss Ns) as Hw2. destruct (words_ne _ _ Hm) as [Nm _].
      assert (Lm : 1 <= Z.of_nat (List.length m)) by (destruct m; [now elim Nm|cbn; lia]).
      assert (Cn : counted false k 0 0 (Z.of_nat (List.length (l ++ m))) x = k).
      { rewrite app_length, Nat2Z.inj_add, Hl. destruct x as [|c q]; cbn [counted andb].
        - unfold at_end. destruct (Z.leb_spec (k + Z.of_nat (List.length m)) 0); [lia|]. destruct (Z.leb_spec (k + Z.of_nat (List.length m)) (0 + 0)); [lia|]. destruct (Z.leb_spec (k + Z.of_nat (List.length m)) (k + 0)); lia.
        - destruct (Ascii.eqb_spec c "=") as [_|_]; [unfold at_equal; destruct (Z.ltb_spec (k + 0 + 1) (k + Z.of_nat (List.length m))); lia|].
          unfold at_paren. destruct (Z.ltb_spec (k + 0) (k + Z.of_nat (List.length m))); lia. }
      destruct (count_plain line k 0 0 (l ++ m) (t ++ sp ++ t2) sp2 x s) as (s1 & E1 & V1); [lia|lia|exact Hw2|exact S2|exact Hst|rewrite Cn, app_length; lia|rewrite Cn; lia|rewrite <- !app_assoc; exact V|].
      rewrite Cn in E1. eauto. }
  destruct C as (s1 & E1 & (r1 & V1)). inb E1. pose proof (vw_reset _ _ s _ s1 V V1) as V2. generalize dependent (reset (cnt s) s1). clear s s1 r1 E1 V V1. intros s V. unfold parse_ports.
  assert (F : firm (t ++ sp ++ y)) by (now apply words_firm with l).
  destruct (nochar_vw line "(" _ s ltac:(discriminate) F) as (s1 & E1 & V1 & O1); [|exact V|].
  { destruct Hw as [w Hw|w sp1 l' t' Hw _ _ _]; [destruct (name_head w (sp ++ y) Hw) as (c & q & -> & _ & N)|rewrite <- app_assoc; destruct (name_head w ((sp1 ++ t') ++ sp ++ y) Hw) as (c & q & -> & _ & N)];
    unfold head; cbn [hd]; intros ->; apply N; cbn; auto 12. }
  inb E1. rewrite O1.
  destruct (ports_bare ci keys line sp y He (behind_firm y Hb) l t Hw Hn 0 (rounds s1) s1) as (s2 & E2 & V2); [|exact V1|].
  { rewrite (vw_rounds _ _ _ V1). pose proof (vw_le _ _ _ V1) as L. rewrite app_length in L. pose proof (words_len _ _ Hw). lia. }
  rewrite Z.add_0_l, Hl in E2. inb E2. exists s2. split; [|split; [now apply vw_on_line with y|now apply after_vw with line]].
  rewrite set_places. replace (Z.to_nat (0 - k)) with O by lia. cbn [grounds]. now rewrite app_nil_r.
Qed.
Print Assumptions C65_element_nodes.

(* In parentheses the nodes are what the parentheses hold, and anything may follow *)
Theorem C65_element_nodes_paren : forall ci keys mx currents b1 l t sp b2 y line s, 0 < mx - currents -> spaces b1 -> (l = [] /\ t = [] /\ sp = [] \/ words l t /\ sep sp) -> Forall (node ci keys) l ->
  Z.of_nat (List.length l) <= mx - currents -> spaces b2 -> firm y -> on_line line s -> after s = "("%char :: b1 ++ t ++ sp ++ ")"%char :: b2 ++ y ->
  exists s', element_ports ci keys mx currents s = Some (set_ports l, Z.of_nat (List.length l), s') /\ on_line line s' /\ after s' = y.
Proof.
  intros ci keys mx currents b1 l t sp b2 y line s Hx B1 Hw Hn Hl B2 Fy Hs Ha. destruct (on_line_vw _ _ Hs) as (r0 & V). rewrite (after_vw _ _ _ V) in Ha. subst r0. clear Hs.
  unfold element_ports. destruct (count_paren line (mx - currents) 0 0 b1 l t sp (b2 ++ y) s ltac:(lia) Hx B1 Hw Hl V) as (num & s1 & E1 & Ln & (r1 & V1)). inb E1.
  pose proof (vw_reset _ _ s _ s1 V V1) as V2. generalize dependent (reset (cnt s) s1). clear s s1 r1 E1 V V1. intros s V. unfold parse_ports.
  destruct (char_bl line [] "(" _ s eq_refl nil_sp V) as (s1 & E1 & V1 & O1). inb E1. rewrite O1.
  assert (P : exists s2, ports_loop ci keys (rounds s1) true 0 num s1 = Some (places 0 l, Z.of_nat (List.length l), s2) /\ vw line (dropbl (b2 ++ y)) s2).
  { destruct Hw as [(-> & -> & ->)|[Hw Hs]].
    - cbn [app] in V1. rewrite (dropbl_bl b1 _ B1) in V1 by (now apply firm_cons). rewrite (vw_rounds _ _ _ V1). cbn [ports_loop].
      destruct (char_bl line [] ")" _ s1 eq_refl nil_sp V1) as (s3 & E3 & V3 & O3). unfold close_if. inb E3. rewrite O3. cbn [bind]. exists s3. auto.
    - rewrite (dropbl_bl b1 _ B1) in V1 by (now apply words_firm with l).
      destruct (ports_paren ci keys line sp (b2 ++ y) Hs l t Hw Hn 0 num (rounds s1) s1) as (s2 & E2 & V2); [|lia|exact V1|exists s2; auto].
      rewrite (vw_rounds _ _ _ V1). pose proof (vw_le _ _ _ V1) as L. repeat (rewrite app_length in L; cbn [List.length] in L). pose proof (words_len _ _ Hw). lia. }
  destruct P as (s2 & E2 & V2). rewrite (dropbl_bl b2 y B2 Fy) in V2. inb E2. exists s2. split; [|split; [now apply vw_on_line with y|now apply after_vw with line]].
  rewrite set_places. replace (Z.to_nat (0 - Z.of_nat (List.length l))) with O by lia. cbn [grounds]. now rewrite app_nil_r.
Qed.
Print Assumptions C65_element_nodes_paren.

(* With OPT::keys_between_nodes, the nodes end where a reserved word stands *)
Lemma any_key_hit : forall ci line w x s, isgraph (head (w ++ x)) = true -> fterm TERM (head x) = true -> reserved ci w -> vw line (w ++ x) s ->
  exists s' r', any_key ci KEYS s = Some (true, s') /\ vw line r' s'.
Proof.
  intros ci line w x s G Fx (k & I & H2) V. change KEYS with (map (fun k => k ++ [" "%char]) KEYWORDS). change (In k KEYWORDS) in I.
  assert (D : dropbl (w ++ x) = w ++ x). { destruct (w ++ x) as [|c q]; [reflexivity|now apply dropbl_graph]. }
  assert (K : forall l, (forall k, In k l -> In k KEYWORDS) -> In k l -> forall s, vw line (w ++ x) s ->
    exists s' r', any_key ci (map (fun k => k ++ [" "%char]) l) s = Some (true, s') /\ vw line r' s').
  { clear s V I. induction l as [|k0 l IH]; intros Hl I s V; [destruct I|]. cbn [map any_key].
    destruct (key_vw ci line k0 [" "%char] (w ++ x) s) as (s1 & E1 & L); [eapply Forall_impl; [|exact (keywords_ok k0 (Hl k0 (or_introl eq_refl)))]; now intros c [? _]|now right|exact V|]. inb E1. rewrite D in L.
    destruct (ok s1) eqn:O1; [exists s1; destruct (pre ci k0 (w ++ x)) as [y|]; [destruct (fterm TERM (head y))|]; destruct L as [O L]; try congruence; eauto|].
    assert (V1 : vw line (w ++ x) s1) by (destruct (pre ci k0 (w ++ x)) as [y|]; [destruct (fterm TERM (head y))|]; destruct L as [O L]; try congruence; exact L).
    destruct I as [->|I]; [|apply IH; [intros k' I'; apply Hl; now right|exact I|exact V1]].
    exfalso. assert (E : pre ci k (w ++ x) = Some x) by (apply pre_some; now exists w). rewrite E, Fx in L. destruct L as [O _]. congruence. }
  now apply (K KEYWORDS (fun _ I => I) I).
Qed.
Theorem C65_element_keyword : forall ci mx currents l t sp k y line s, words l t -> Forall (node ci true) l -> Z.of_nat (List.length l) <= mx - currents ->
  sep sp -> sp <> [] -> name k -> reserved ci k -> (exists b x, y = b ++ x /\ sep b /\ stop_at x) -> on_line line s -> after s = t ++ sp ++ k ++ y ->
  exists s', element_ports ci true mx currents s = Some (set_ports l, Z.of_nat (List.length l), s') /\ on_line line s' /\ after s' = k ++ y.
Proof.
  intros ci mx currents l t sp k y line s Hw Hn Hl Ss Ns Hk Hr (b & x & -> & Hb & Hst) Hs Ha. destruct (on_line_vw _ _ Hs) as (r0 & V). rewrite (after_vw _ _ _ V) in Ha. subst r0. clear Hs.
  unfold element_ports. destruct (words_ne _ _ Hw) as [Nl _]. assert (Ll : 1 <= Z.of_nat (List.length l)) by (destruct l; [now elim Nl|cbn; lia]).
  set (m := mx - currents) in *. pose proof (words_app _ _ [k] k sp Hw (w_one k Hk) Ss Ns) as Hw2. destruct (stop_firm x Hst) as [Fx Tx].
  assert (C : exists num s1, count_ports m 0 0 0 s = Some (Some num, s1) /\ Z.of_nat (List.length l) <= num /\ exists r, vw line r s1).
  { assert (Cn : Z.of_nat (List.length l) <= counted false m 0 0 (Z.of_nat (List.length (l ++ [k]))) x <= Z.of_nat (List.length (l ++ [k])) /\ counted false m 0 0 (Z.of_nat (List.length (l ++ [k]))) x <= m).
    { rewrite app_length, Nat2Z.inj_add. cbn [List.length]. change (Z.of_nat 1) with 1. destruct x as [|c q]; cbn [counted andb].
      - unfold at_end. destruct (Z.leb_spec (Z.of_nat (List.length l) + 1) 0); [lia|]. destruct (Z.leb_spec (Z.of_nat (List.length l) + 1) (0 + 0)); [lia|]. destruct (Z.leb_spec (Z.of_nat (List.length l) + 1) (m + 0)); lia.
      - destruct (Ascii.eqb_spec c "=") as [_|_]; [unfold at_equal; destruct (Z.ltb_spec (m + 0 + 1) (Z.of_nat (List.length l) + 1)); lia|].
        unfold at_paren. destruct (Z.ltb_spec (m + 0) (Z.of_nat (List.length l) + 1)); lia. }
    destruct (count_plain line m 0 0 (l ++ [k]) (t ++ sp ++ k) b x s) as (s1 & E1 & V1); [lia|lia|exact Hw2|exact Hb|exact Hst|lia|lia|rewrite <- !app_assoc; exact V|].
    eexists _, s1. split; [exact E1|]. split; [lia|exact V1]. }
  destruct C as (num & s1 & E1 & Ln & (r1 & V1)). inb E1. pose proof (vw_reset _ _ s _ s1 V V1) as V2. generalize dependent (reset (cnt s) s1). clear s s1 r1 E1 V V1. intros s V. unfold parse_ports.
  assert (F : firm (t ++ sp ++ k ++ b ++ x)) by (now apply words_firm with l).
  destruct (nochar_vw line "(" _ s ltac:(discriminate) F) as (s1 & E1 & V1 & O1); [|exact V|].
  { destruct Hw as [w Hw|w sp1 l' t' Hw _ _ _]; [destruct (name_head w (sp ++ k ++ b ++ x) Hw) as (c & q & -> & _ & N)|rewrite <- app_assoc; destruct (name_head w ((sp1 ++ t') ++ sp ++ k ++ b ++ x) Hw) as (c & q & -> & _ & N)];
    unfold head; cbn [hd]; intros ->; apply N; cbn; auto 12. }
  inb E1. rewrite O1.
  assert (Stop : forall index n s, (0 < n)%nat -> vw line (k ++ b ++ x) s -> exists s', ports_loop ci true n false index num s = Some ([], index, s') /\ vw line (k ++ b ++ x) s').
  { clear - Hk Hr Hb Fx Tx. intros index [|n] s Hn V; [lia|]. cbn [ports_loop close_if bind]. destruct (Z.leb_spec num index) as [_|_]; [exists s; auto|].
    assert (Fk : firm (k ++ b ++ x)) by (now apply name_firm). destruct (firm_more line _ s Fk V) as (s1 & E1 & V1 & _). destruct (name_head k (b ++ x) Hk) as (c & q & Eq & G & _). rewrite Eq in E1. inb E1. cbn [negb].
    destruct (any_key_hit ci line k (b ++ x) s1) as (s2 & r2 & E2 & V2); [rewrite Eq; exact G|apply ended_fterm; split; [exact Hb|now right]|exact Hr|exact V1|]. inb E2.
    exists (reset (cnt s) s2). split; [reflexivity|]. exact (vw_reset _ _ s _ s2 V V2). }
  assert (P : forall l t, words l t -> Forall (node ci true) l -> forall index n s, (List.length l < n)%nat -> index + Z.of_nat (List.length l) <= num -> vw line (t ++ sp ++ k ++ b ++ x) s ->
    exists s', ports_loop ci true n false index num s = Some (places index l, index + Z.of_nat (List.length l), s') /\ vw line (k ++ b ++ x) s').
  { clear - Stop Ss Ns Hk. intros l t H. assert (Fk : firm (k ++ b ++ x)) by (now apply name_firm). induction H as [w Hw|w sp1 l t Hw S1 N1 H IH]; intros Hl index n s Hn Hi V.
    - destruct n as [|n]; [cbn in Hn; lia|]. inversion_clear Hl as [|? ? Hd _]. cbn [List.length] in *.
      destruct (ports_step ci true line false index num n w sp _ s Hd (conj Ss (or_introl Ns)) Fk ltac:(lia) V) as (s1 & V1 & E1). rewrite E1.
      destruct (Stop (index + 1) n s1 ltac:(lia) V1) as (s2 & E2 & V2). inb E2. exists s2. auto.
    - destruct n as [|n]; [cbn in Hn; lia|]. inversion_clear Hl as [|? ? Hd Hl']. cbn [List.length] in *. rewrite <- !app_assoc in V.
      destruct (ports_step ci true line false index num n w sp1 (t ++ sp ++ k ++ b ++ x) s Hd) as (s1 & V1 & E1); [split; [exact S1|now left]|now apply words_firm with l|lia|exact V|]. rewrite E1.
      destruct (IH Hl' (index + 1) n s1 ltac:(lia) ltac:(lia) V1) as (s2 & E2 & V2). inb E2. exists s2. cbn [places].
      replace (index + Z.of_nat (S (List.length l))) with (index + 1 + Z.of_nat (List.length l)) by lia. auto. }
  destruct (P l t Hw Hn 0 (rounds s1) s1) as (s2 & E2 & V2); [|lia|exact V1|].
  { rewrite (vw_rounds _ _ _ V1). pose proof (vw_le _ _ _ V1) as L. rewrite app_length in L. pose proof (words_len _ _ Hw). lia. }
  rewrite Z.add_0_l in E2. inb E2. exists s2. split; [|split; [now apply vw_on_line with (k ++ b ++ x)|now apply after_vw with line]].
  rewrite set_places. replace (Z.to_nat (0 - Z.of_nat (List.length l))) with O by lia. cbn [grounds]. now rewrite app_nil_r.
Qed.
Print Assumptions C65_element_keyword.

(* ---- every line ---- *)
Lemma word_any : forall line r s, vw line r s -> exists w s' r', word s = Some (w, s') /\ vw line r' s' /\ suffix r' r /\
  (~ In (head (dropbl r)) (NUL :: str "=(){};") -> (List.length r' < List.length r)%nat).
Proof.
  intros line r s V. destruct (ctos_safe line r s TERM [DQ; "'"%char; "{"%char] [DQ; "'"%char; "}"%char] eq_refl) as (w & s' & r' & E & V' & Sf); [cbn; intuition discriminate|exact V|].
  exists w, s', r'. split; [exact E|]. split; [exact V'|]. split; [exact Sf|]. intros N.
  destruct (dropbl r) as [|c q] eqn:D; [elim N; now left|]. change (head (c :: q)) with c in N.
  assert (Lr : (S (List.length q) <= List.length r)%nat) by (pose proof (drop_len fblank r) as L; change (drop_while fblank r) with (dropbl r) in L; rewrite D in L; exact L).
  assert (G : isgraph c = true).
  { pose proof (dropbl_head r) as B. rewrite D in B. unfold head, fblank in B. cbn [hd] in B. destruct (Ascii.eqb_spec c NUL) as [->|_]; [elim N; now left|]. cbn [negb andb] in B. now destruct (isgraph c). }
  (* the same word from behind the blanks *)
  assert (P : exists s0, vw line (c :: q) s0 /\ word s0 = word s).
  { destruct (skipbl_vw _ _ _ V) as (s0 & E0 & V0 & _). rewrite D in V0. exists s0. split; [exact V0|]. unfold word, ctos. cbn [List.length Nat.eqb negb]. rewrite E0.
    destruct (skipbl_vw _ _ _ V0) as (s1 & E1 & _ & A & _). rewrite E1. rewrite A; [reflexivity|]. change (head (c :: q)) with c. now apply graph_nblank. }
  destruct P as (s0 & V0 & E0). unfold word in E0. rewrite E in E0. clear E V Sf.
  assert (Q : exists r2 s2 w2, ctos TERM [DQ; "'"%char; "{"%char] [DQ; "'"%char; "}"%char] s0 = Some (w2, s2) /\ vw line r2 s2 /\ (List.length r2 <= List.length q)%nat).
  { assert (Dq : forall bq, In bq [DQ; "'"%char] -> c = bq -> exists r2 s2 w2, ctos TERM [DQ; "'"%char; "{"%char] [DQ; "'"%char; "}"%char] s0 = Some (w2, s2) /\ vw line r2 s2 /\ (List.length r2 <= List.length q)%nat).
    { intros bq I ->. assert (M : marks [DQ; "'"%char; "{"%char] [DQ; "'"%char; "}"%char] bq bq).
      { split; [reflexivity|]. destruct I as [<-|[<-|[]]]; (split; [|repeat split; discriminate]); [exists [], (str "'{"), [], (str "'}")|exists [DQ], (str "{"), [DQ], (str "}")]; repeat split; cbn; intuition discriminate. }
      destruct (marks_ctos line TERM _ _ bq bq q s0 M V0) as (s2 & E2 & V2). eexists _, s2, _. split; [exact E2|]. split; [exact V2|].
      apply suffix_len. eapply suffix_trans; [apply suffix_eat1b|]. now apply unq_suffix with (n := List.length q). }
    destruct (Ascii.eqb_spec c DQ) as [E|N1]; [apply (Dq DQ); [now left|exact E]|]. destruct (Ascii.eqb_spec c "'") as [E|N2]; [apply (Dq "'"%char); [right; now left|exact E]|].
    assert (N3 : c <> "{"%char) by (intros ->; apply N; cbn; auto 12).
    assert (Fp : find_pos c [DQ; "'"%char; "{"%char] = None).
    { cbn [find_pos]. destruct (Ascii.eqb_spec c DQ); [contradiction|]. destruct (Ascii.eqb_spec c "'"); [contradiction|]. destruct (Ascii.eqb_spec c "{"); [contradiction|reflexivity]. }
    destruct (Ascii.eqb_spec c ",") as [->|N4].
    - destruct (ctos_plain line TERM [DQ; "'"%char; "{"%char] [DQ; "'"%char; "}"%char] [] (","%char :: q) _ s0 eq_refl V0) as (s2 & E2 & V2 & _); [reflexivity|constructor|reflexivity|now right|].
      eexists _, s2, []. split; [exact E2|]. split; [exact V2|]. unfold dropcom, eat1b. rewrite dropbl_graph by reflexivity. cbn [eat1]. replace (fcomma ",") with true by reflexivity. apply drop_len.
    - set (f := fun a => negb (fterm TERM a)). assert (Fc : f c = true).
      { unfold f, fterm. rewrite (graph_space c G), notin_set. { destruct (Ascii.eqb_spec c NUL) as [->|_]; [elim N; now left|reflexivity]. }
        intros I. apply N. cbn in I |- *. intuition congruence. }
      destruct (ctos_plain line TERM [DQ; "'"%char; "{"%char] [DQ; "'"%char; "}"%char] (c :: take_while f q) (drop_while f q) _ s0 eq_refl V0) as (s2 & E2 & V2 & _).
      + rewrite dropbl_graph by exact G. cbn [app]. now rewrite take_drop.
      + constructor; [unfold f in Fc; now destruct (fterm TERM c)|]. eapply Forall_impl; [|apply take_all]. intros a Ha. cbv beta in Ha. unfold f in Ha. now destruct (fterm TERM a).
      + pose proof (drop_head f q eq_refl) as H. unfold f in H at 1. now destruct (fterm TERM (head (drop_while f q))).
      + right. exact Fp.
      + eexists _, s2, _. split; [exact E2|]. split; [exact V2|]. etransitivity; [apply suffix_len, suffix_eat1b|apply drop_len]. }
  destruct Q as (r2 & s2 & w2 & E2 & V2 & L2). rewrite E2 in E0. injection E0 as <- <-. rewrite (vw_fun _ _ _ _ V' V2). lia.
Qed.
Lemma suffix_In : forall (c : ascii) r' r, suffix r' r -> ~ In c r -> ~ In c r'.
Proof. intros c r' r [a ->] N I. apply N, in_or_app. now right. Qed.
Lemma head_In : forall c r, c <> NUL -> head (dropbl r) = c -> In c r.
Proof.
  intros c r N E. destruct (suffix_drop fblank r) as [a Ea]. change (drop_while fblank r) with (dropbl r) in Ea. rewrite Ea. apply in_or_app. right. destruct (dropbl r) as [|d q]; [now elim N|]. rewrite <- E. now left.
Qed.
Lemma count_total : forall line mx mn tail, 0 <= mn <= mx -> 0 <= tail -> ~ In ";"%char line -> forall n i spots r s, (1 <= n)%nat -> (List.length r <= n)%nat -> vw line r s ->
  exists num P s' r', count_loop n false mx mn tail i spots s = Some (num, spots ++ P, s') /\ num <= mx /\ num <= i + Z.of_nat (List.length P) /\ vw line r' s' /\
    forall p, In p P -> exists s0 r0, cnt s0 = p /\ vw line r0 s0.
Proof.
  intros line mx mn tail Hm Ht Hs. induction n as [|n IH]; intros i spots r s H1 Hn V; [lia|]. cbn [count_loop].
  destruct (word_any line r s V) as (w & s1 & r1 & E1 & V1 & S1 & M1). inb E1. cbn [close_if bind].
  destruct (more_vw _ _ _ V1) as (s2 & E2 & V2 & _). inb E2.
  assert (One : forall num s' r', num <= mx -> num <= i + 1 -> vw line r' s' -> exists num0 P s'0 r'0, Some (num, spots ++ [cnt s1], s') = Some (num0, spots ++ P, s'0) /\ num0 <= mx /\ num0 <= i + Z.of_nat (List.length P) /\ vw line r'0 s'0 /\
    forall p, In p P -> exists s0 r0, cnt s0 = p /\ vw line r0 s0).
  { intros num s' r' A B C. exists num, [cnt s1], s', r'. split; [reflexivity|]. split; [exact A|]. split; [cbn [List.length]; lia|]. split; [exact C|]. intros p [<-|[]]. eauto. }
  destruct (Ascii.eqb_spec (head (dropbl r1)) NUL) as [En|En]; cbn [negb].
  { apply (One _ s2 (dropbl r1)); [| |exact V2]; unfold at_end; destruct (Z.leb_spec (i + 1) mn); try lia; destruct (Z.leb_spec (i + 1) (mn + tail)); try lia; destruct (Z.leb_spec (i + 1) (mx + tail)); lia. }
  destruct (skip1b_vw _ _ _ (str "({})") V2) as (s3 & E3 & V3 & _ & O3). inb E3.
  assert (D2 : dropbl (dropbl r1) = dropbl r1) by (apply drop_idem, dropbl_head). rewrite D2 in O3. rewrite O3. destruct (in_set (str "({})") (head (dropbl r1))) eqn:I3.
  { eapply (One _ s3); [| |exact V3]; unfold at_paren; destruct (Z.ltb_spec (mx + tail) (i + 1)); lia. }
  assert (V3' : vw line (dropbl r1) s3).
  { unfold eat1b in V3. rewrite D2 in V3. rewrite (eat1_id _ _ I3), D2 in V3. exact V3. }
  destruct (skip1bc_vw _ _ _ "="%char ltac:(discriminate) V3') as (s4 & E4 & V4 & _ & O4). inb E4. rewrite D2 in O4. rewrite O4. destruct (Ascii.eqb_spec (head (dropbl r1)) "=") as [Ee|Ee].
  { eapply (One _ s4); [| |exact V4]; unfold at_equal; destruct (Z.ltb_spec (mx + tail + 1) (i + 1)); lia. }
  assert (V4' : vw line (dropbl r1) s4).
  { unfold eat1b in V4. rewrite D2 in V4. rewrite eat1_id, D2 in V4; [exact V4|]. now destruct (Ascii.eqb_spec (head (dropbl r1)) "="). }
  (* the word was not empty, or the line ended before *)
  assert (Sr : suffix r1 line) by (destruct V1 as (_ & _ & pre & -> & _); now exists pre).
  assert (Nr : (List.length r1 < List.length r)%nat).
  { destruct (Nat.eq_dec (List.length r1) (List.length r)) as [El|]; [|apply suffix_len in S1; lia]. apply (suffix_same _ _ S1) in El. subst r1. apply M1. intros I.
    destruct I as [I|I]; [congruence|]. cbn in I. destruct I as [I|[I|[I|[I|[I|[I|[]]]]]]]; try congruence; try (rewrite <- I in I3; discriminate I3).
    apply Hs. assert (Ir : In ";"%char r) by (apply head_In; [discriminate|congruence]). destruct Sr as [a ->]. apply in_or_app. now right. }
  assert (L1 : (1 <= List.length (dropbl r1))%nat) by (destruct (dropbl r1); [now elim En|cbn; lia]). pose proof (drop_len fblank r1) as L2. change (drop_while fblank r1) with (dropbl r1) in L2.
  destruct (IH (i + 1) (spots ++ [cnt s1]) (dropbl r1) s4 ltac:(lia) ltac:(lia) V4') as (num & P & s' & r' & E & B1 & B2 & V' & IP).
  exists num, (cnt s1 :: P), s', r'. split; [rewrite E, <- app_assoc; reflexivity|]. split; [exact B1|]. split; [cbn [List.length]; lia|]. split; [exact V'|]. intros p [<-|I]; [eauto|now apply IP].
Qed.
Lemma keys_closed : forall k, In k KEYS -> closed k.
Proof.
  intros k I. split; [intros J; repeat (destruct I as [<-|I]; [cbn in J; intuition discriminate|]); destruct I|]. intros a b E.
  assert (J : In "{"%char k) by (rewrite E; apply in_or_app; right; now left). repeat (destruct I as [<-|I]; [cbn in J; intuition discriminate|]). destruct I.
Qed.
Lemma lit_closed : forall p, ~ In NUL p -> ~ In "{"%char p -> closed p.
Proof. intros p N B. split; [exact N|]. intros a b ->. elim B. apply in_or_app. right. now left. Qed.
Lemma any_key_total : forall ci line l r s, (forall k, In k l -> closed k) -> vw line r s -> exists b s' r', any_key ci l s = Some (b, s') /\ vw line r' s' /\ (b = false -> r' = r).
Proof.
  intros ci line l. induction l as [|k l IH]; intros r s Hl V; [exists false, s, r; auto|]. cbn [any_key].
  destruct (umatch_safe ci line r s k (Hl k (or_introl eq_refl)) V) as (s1 & r1 & E1 & V1 & _ & F1). inb E1. destruct (ok s1) eqn:O1; [exists true, s1, r1; split; [reflexivity|]; split; [exact V1|discriminate]|].
  rewrite (F1 eq_refl) in V1. apply IH; [intros k' I; apply Hl; now right|exact V1].
Qed.
Lemma ports_total : forall ci keys line n paren index num r s, (List.length r < n)%nat -> vw line r s ->
  exists l index' s' r', ports_loop ci keys n paren index num s = Some (l, index', s') /\ vw line r' s'.
Proof.
  intros ci keys line. induction n as [|n IH]; intros paren index num r s Hn V; [lia|]. cbn [ports_loop].
  assert (C : exists b s1 r1, close_if paren ")" s = Some (b, s1) /\ vw line r1 s1 /\ suffix r1 r).
  { unfold close_if. destruct paren; [|exists false, s, r; split; [reflexivity|]; split; [exact V|apply suffix_refl]]. destruct (skip1bc_vw _ _ _ ")"%char ltac:(discriminate) V) as (s1 & E1 & V1 & _). inb E1. eexists _, s1, _. split; [reflexivity|]. split; [exact V1|apply suffix_eat1b]. }
  destruct C as (b & s1 & r1 & E1 & V1 & S1). inb E1. destruct b; [eauto 8|]. destruct (num <=? index); [eauto 8|].
  destruct (more_vw _ _ _ V1) as (s2 & E2 & V2 & _). inb E2. destruct (negb _); [|]. all: cbn [negb]; try eauto 8.
  assert (K : exists b s3 r3, (if keys then any_key ci KEYS s2 else Some (false, s2)) = Some (b, s3) /\ vw line r3 s3 /\ (b = false -> r3 = dropbl r1)).
  { destruct keys; [apply any_key_total; [apply keys_closed|exact V2]|exists false, s2, (dropbl r1); auto]. }
  destruct K as (b & s3 & r3 & E3 & V3 & F3). inb E3. destruct b; [eexists _, _, _, r; split; [reflexivity|exact (vw_reset _ _ s _ s3 V V3)]|]. rewrite (F3 eq_refl) in V3.
  destruct (word_any line _ s3 V3) as (w & s4 & r4 & E4 & V4 & S4 & _). inb E4. destruct (Z.ltb_spec (cnt s3) (cnt s4)) as [L|L]; [|eauto 8].
  assert (N : (List.length r4 < n)%nat).
  { pose proof (vw_cnt _ _ _ V3). pose proof (vw_cnt _ _ _ V4). pose proof (drop_len fblank r1) as L2. change (drop_while fblank r1) with (dropbl r1) in L2. apply suffix_len in S1. lia. }
  destruct (IH paren (index + 1) num r4 s4 N V4) as (l & index' & s5 & r5 & E5 & V5). inb E5. eauto 8.
Qed.
Lemma args_total : forall line n paren here r s, (List.length line - Z.to_nat here < n)%nat -> 0 <= here -> vw line r s ->
  exists l s' r', args_loop n paren here s = Some (l, s') /\ vw line r' s'.
Proof.
  intros line. induction n as [|n IH]; intros paren here r s Hn Hh V; [lia|]. cbn [args_loop].
  assert (C : exists b s1 r1, close_if paren ")" s = Some (b, s1) /\ vw line r1 s1).
  { unfold close_if. destruct paren; [|exists false, s, r; auto]. destruct (skip1bc_vw _ _ _ ")"%char ltac:(discriminate) V) as (s1 & E1 & V1 & _). inb E1. eauto. }
  destruct C as (b & s1 & r1 & E1 & V1). inb E1. destruct b; [eauto|]. destruct (more_vw _ _ _ V1) as (s2 & E2 & V2 & _). inb E2. destruct (negb _); cbn [negb]; [|eauto].
  destruct (ctos_safe line _ s2 (str "=") [] [] eq_refl ltac:(intros []) V2) as (nm & s3 & r3 & E3 & V3 & _). inb E3.
  destruct (skip1bc_vw _ _ _ "="%char ltac:(discriminate) V3) as (s4 & E4 & V4 & _). inb E4.
  destruct (ctos_safe line _ s4 (str ",=;)") BQ EQ eq_refl ltac:(cbn; intuition discriminate) V4) as (v & s5 & r5 & E5 & V5 & _). inb E5.
  destruct (Z.ltb_spec here (cnt s5)) as [L|L]; [|eauto]. pose proof (vw_cnt _ _ _ V5).
  destruct (IH paren (cnt s5) r5 s5 ltac:(lia) ltac:(lia) V5) as (l & s6 & r6 & E6 & V6). inb E6. eauto.
Qed.
(* A line without a semicolon and without an opening parenthesis is always read to some end: no hang, no
   failed assertion, no access outside the text, whatever the device asks for *)
Theorem C65_total : forall ci keys d line s, 0 <= d_min d <= d_max d -> 0 < d_max d -> 0 <= d_tail d -> ~ In ";"%char line -> ~ In "("%char line -> on_line line s ->
  exists calls s', parse_instance ci keys d s = Some (calls, s') /\ on_line line s'.
Proof.
  intros ci keys d line s Hm Hx Ht Hsemi Hpar Hs. destruct (on_line_vw _ _ Hs) as (r0 & V0).
  assert (V : vw line line (reset 0 s)). { destruct V0 as (E1 & E2 & _). split; [exact E1|]. split; [exact E2|]. exists []. split; reflexivity. }
  clear r0 V0 Hs. unfold parse_instance. generalize dependent (reset 0 s). clear s. intros s V.
  destruct (umatch_safe ci line _ s (str "*>") (lit_closed (str "*>") ltac:(cbn; intuition discriminate) ltac:(cbn; intuition discriminate)) V) as (s1 & r1 & E1 & V1 & _). inb E1.
  destruct (skip1bc_vw _ _ _ "."%char ltac:(discriminate) V1) as (s2 & E2 & V2 & _). inb E2.
  assert (T : exists dot s3 r3, (if ok s2 then parse_type s2 else Some ([], s2)) = Some (dot, s3) /\ vw line r3 s3).
  { destruct (ok s2); [|eauto]. unfold parse_type. destruct (word_any line _ s2 V2) as (w & s3 & r3 & E3 & V3 & _). inb E3. eauto. }
  destruct T as (dot & s3 & r3 & E3 & V3). inb E3. unfold parse_label. destruct (word_any line _ s3 V3) as (w & s4 & r4 & E4 & V4 & _). inb E4.
  assert (Nop : forall r s, vw line r s -> exists s' r', skip1bc "(" s = Some s' /\ ok s' = false /\ vw line r' s' /\ (List.length r' <= List.length r)%nat).
  { intros r s0 V0. destruct (skip1bc_vw _ _ _ "("%char ltac:(discriminate) V0) as (s' & E & V' & _ & O). exists s', (eat1b (fun c => Ascii.eqb c "(") r). split; [exact E|]. split; [|split; [exact V'|apply suffix_len, suffix_eat1b]].
    rewrite O. destruct (Ascii.eqb_spec (head (dropbl r)) "(") as [Eq|_]; [|reflexivity]. exfalso. apply Hpar. assert (I : In "("%char r) by (now apply head_In). destruct V0 as (_ & _ & pre & -> & _). apply in_or_app. now right. }
  assert (C : exists num s5 r5, count_ports (d_max d) (d_min d) (d_tail d) 0 s4 = Some (num, s5) /\ vw line r5 s5).
  { unfold count_ports. replace ((d_max d <=? 0) || (d_max d <? d_min d)) with false by lia. destruct (Nop _ _ V4) as (s5 & r5 & E5 & O5 & V5 & _). inb E5. rewrite O5.
    destruct (count_total line (d_max d) (d_min d) (d_tail d) Hm Ht Hsemi (rounds s5) 0 [cnt s5] r5 s5) as (num & P & s6 & r6 & E6 & B1 & B2 & V6 & IP); [rewrite (vw_rounds _ _ _ V5); lia|rewrite (vw_rounds _ _ _ V5); pose proof (vw_le _ _ _ V5); lia|exact V5|]. inb E6.
    assert (Spot : forall p, In p ([cnt s5] ++ P) -> exists r0, vw line r0 (reset p s6)).
    { intros p [<-|I]; [exists r5; exact (vw_reset _ _ s5 _ s6 V5 V6)|]. destruct (IP p I) as (s0 & r0 & <- & W). exists r0. exact (vw_reset _ _ s0 _ s6 W V6). }
    destruct (Z.ltb_spec num 0) as [L|L].
    - destruct (Spot (last ([cnt s5] ++ P) 0)) as (r0 & W); [|eexists _, _, r0; split; [reflexivity|exact W]].
      destruct (exists_last (l := [cnt s5] ++ P) ltac:(discriminate)) as (u & z & Eu). rewrite Eu, last_last. apply in_or_app. right. now left.
    - destruct (nth_error ([cnt s5] ++ P) (Z.to_nat (num - 0))) as [p|] eqn:Ep; [|apply nth_error_None in Ep; cbn [app List.length] in Ep; lia]. cbn [bind].
      replace (d_max d <? num) with false by lia. apply nth_error_In in Ep. destruct (Spot p Ep) as (r0 & W). eexists _, _, r0. split; [reflexivity|exact W]. }
  destruct C as (num & s5 & r5 & E5 & V5). inb E5. destruct num as [num|]; [|eexists _, s5; split; [reflexivity|now apply vw_on_line with r5]].
  pose proof (vw_reset _ _ s4 _ s5 V4 V5) as V6. generalize dependent (reset (cnt s4) s5). intros s6 V6. unfold parse_ports.
  destruct (Nop _ _ V6) as (s7 & r7 & E7 & O7 & V7 & _). inb E7.
  destruct (ports_total ci keys line (rounds s7) (ok s7) 0 num r7 s7) as (l & idx & s8 & r8 & E8 & V8); [rewrite (vw_rounds _ _ _ V7); pose proof (vw_le _ _ _ V7); lia|exact V7|]. inb E8.
  assert (Ty : exists ty s9 r9, (if d_shown d then let* (t, s) := parse_type s8 in let* s := if d_tail d =? 2 then skiparg s else Some s in Some (t, s) else Some ([], s8)) = Some (ty, s9) /\ vw line r9 s9).
  { destruct (d_shown d); [|eauto]. unfold parse_type. destruct (word_any line _ s8 V8) as (w' & s9 & r9 & E9 & V9 & _). inb E9. destruct (d_tail d =? 2); [|eexists _, _, r9; split; [reflexivity|exact V9]].
    destruct (skiparg_vw _ _ _ V9) as (s10 & r10 & E10 & V10 & _). inb E10. eexists _, _, r10. split; [reflexivity|exact V10]. }
  destruct Ty as (ty & s9 & r9 & E9 & V9). inb E9. unfold parse_args.
  destruct (umatch_safe ci line _ s9 (str "params:") (lit_closed (str "params:") ltac:(cbn; intuition discriminate) ltac:(cbn; intuition discriminate)) V9) as (s10 & r10 & E10 & V10 & _). inb E10.
  destruct (skip1bc_vw _ _ _ "("%char ltac:(discriminate) V10) as (s11 & E11 & V11 & _). inb E11. unfold is_float. inb (match1_vw _ _ _ (str "+-.0123456789") V11). inb (match1_vw _ _ _ (str "'{") V11).
  destruct (word_any line _ s11 V11) as (w' & s12 & r12 & E12 & V12 & _).
  assert (Fi : forall r s, vw line r s -> exists l s' r', args_loop (rounds s) (ok s11) (cnt s) s = Some (l, s') /\ vw line r' s').
  { intros r s0 W. apply args_total with r; [rewrite (vw_rounds _ _ _ W); lia|pose proof (vw_cnt _ _ _ W); pose proof (vw_le _ _ _ W); lia|exact W]. }
  destruct (in_set (str "+-.0123456789") _); [|destruct (in_set (str "'{") _)]; [inb E12|inb E12|cbn [bind]].
  - destruct (Fi _ _ V12) as (la & s13 & r13 & E13 & V13). inb E13. eexists _, s13. split; [reflexivity|now apply vw_on_line with r13].
  - destruct (Fi _ _ V12) as (la & s13 & r13 & E13 & V13). inb E13. eexists _, s13. split; [reflexivity|now apply vw_on_line with r13].
  - destruct (Fi _ _ V11) as (la & s13 & r13 & E13 & V13). inb E13. eexists _, s13. split; [reflexivity|now apply vw_on_line with r13].
Qed.
Print Assumptions C65_total.

(* ---- what does not hold ---- *)
Lemma count_next : forall line paren mx mn tail i spots n w c q s s1, word s = Some (w, s1) -> firm (c :: q) -> ~ In c (str "({})=") -> vw line (c :: q) s1 ->
  exists s', vw line (c :: q) s' /\ count_loop (S n) paren mx mn tail i spots s = count_loop n paren mx mn tail (i + 1) (spots ++ [cnt s1]) s'.
Proof.
  intros line paren mx mn tail i spots n w c q s s1 E1 F Nc V1. cbn [count_loop]. inb E1.
  assert (N1 : c <> ")"%char) by (intros ->; apply Nc; cbn; auto 12). assert (N2 : c <> "="%char) by (intros ->; apply Nc; cbn; auto 12).
  destruct (close_none line paren ")" (c :: q) s1 ltac:(discriminate) F N1 V1) as (s2 & E2 & V2). inb E2.
  destruct (firm_more line _ s2 F V2) as (s3 & E3 & V3 & _). inb E3. cbn [negb].
  assert (I : in_set (str "({})") c = false) by (apply notin_set; intros I; apply Nc; cbn in I |- *; intuition auto 12).
  destruct (set_none line (str "({})") _ s3 F I V3) as (s4 & E4 & V4 & O4). inb E4. rewrite O4.
  destruct (nochar_vw line "=" _ s4 ltac:(discriminate) F N2 V4) as (s5 & E5 & V5 & O5). inb E5. rewrite O5. exists s5. split; [exact V5|reflexivity].
Qed.
Lemma semicolon_firm : forall x, firm (";"%char :: x).
Proof. intros x. now apply firm_cons. Qed.
Lemma semicolon_stays : forall line x n paren mx mn tail i spots s, vw line (";"%char :: x) s -> count_loop n paren mx mn tail i spots s = None.
Proof.
  intros line x. induction n as [|n IH]; intros paren mx mn tail i spots s V; [reflexivity|].
  destruct (ctos_plain line TERM [DQ; "'"%char; "{"%char] [DQ; "'"%char; "}"%char] [] (";"%char :: x) _ s eq_refl V) as (s1 & E1 & V1 & _); [now rewrite dropbl_graph|constructor|reflexivity|now right|].
  rewrite (dropcom_firm _ (semicolon_firm x)) in V1.
  destruct (count_next line paren mx mn tail i spots n [] ";" x s s1 E1 (semicolon_firm x) ltac:(cbn; intuition discriminate) V1) as (s2 & V2 & ->). now apply IH.
Qed.
(* C65, refuted for lines with a semicolon: no pass over the words before it, however long, comes to an end.
   This is count_ports, 135-175; the counting takes no word at a semicolon and does not stop there *)
Theorem C65_semicolon_hangs_refuted : forall line l t sp x n paren mx mn tail i spots s, words l t -> sep sp -> on_line line s -> after s = t ++ sp ++ ";"%char :: x ->
  count_loop n paren mx mn tail i spots s = None.
Proof.
  intros line l t sp x n paren mx mn tail i spots s H Hs Hl Ha. destruct (on_line_vw _ _ Hl) as (r & V). rewrite (after_vw _ _ _ V) in Ha. subst r. clear Hl.
  revert n i spots s V. induction H as [w Hw|w sp0 l t Hw S0 N0 H IH]; intros n i spots s V; (destruct n as [|n]; [reflexivity|]).
  - destruct (name_vw line w [] (sp ++ ";"%char :: x) s Hw nil_sp) as (s1 & E1 & V1 & _); [destruct sp as [|c sp]; [reflexivity|apply sep_fterm2; [now left|exact Hs|discriminate]]|exact V|].
    rewrite (dropcom_sep sp _ Hs (semicolon_firm x)) in V1. destruct (count_next line paren mx mn tail i spots n w ";" x s s1 E1 (semicolon_firm x) ltac:(cbn; intuition discriminate) V1) as (s2 & V2 & ->).
    now apply semicolon_stays with line x.
  - rewrite <- !app_assoc in V. pose proof (words_firm _ _ (sp ++ ";"%char :: x) H) as F.
    destruct (name_vw line w [] (sp0 ++ t ++ sp ++ ";"%char :: x) s Hw nil_sp) as (s1 & E1 & V1 & _); [apply sep_fterm2; [now left|exact S0|exact N0]|exact V|].
    rewrite (dropcom_sep sp0 _ S0 F) in V1. assert (K : exists c q, t ++ sp ++ ";"%char :: x = c :: q /\ ~ In c TERM).
    { clear - H. destruct H as [w' Hw'|w' sp' l' t' Hw' _ _ _]; [destruct (name_head w' (sp ++ ";"%char :: x) Hw') as (c & q & E & _ & N)|
        rewrite <- app_assoc; destruct (name_head w' ((sp' ++ t') ++ sp ++ ";"%char :: x) Hw') as (c & q & E & _ & N)]; eauto. }
    destruct K as (c & q & Eq & Nc). rewrite Eq in *. assert (Nc' : ~ In c (str "({})=")) by (intros I; apply Nc; cbn in I |- *; intuition auto 12).
    destruct (count_next line paren mx mn tail i spots n w c q s s1 E1 F Nc' V1) as (s2 & V2 & ->). now apply IH.
Qed.
Print Assumptions C65_semicolon_hangs_refuted.

(* ---- cases ---- *)
Definition calls_of (r : option (list call * cs)) : option (list call) := match r with Some (l, _) => Some l | None => None end.
Definition left_of (r : option (list call * cs)) : option text := match r with Some (_, s) => Some (after s) | None => None end.
Definition line (t : string) : cs := cs_string (str t).
(* lib/d_subckt.cc:57-60 with include/e_subckt.h:40; apps/d_bjt.model and d_diode.model; apps/d_coil.cc:110-114 *)
Definition sub := mkdev 100 0 1 true (str "#").
Definition bjt := mkdev 4 3 1 true (str "area").
Definition dio := mkdev 2 2 1 true (str "area").
Definition mut := mkdev 2 2 0 false (str "k").
Example C65_devices : device sub /\ device bjt /\ device dio /\ device mut.
Proof. unfold device. cbn. lia. Qed.
Definition PORT k v := SetPort k (str v).
Definition PARAM n v := SetParam (str n) (str v).
(* a name, by computation *)
Definition nameb (w : text) : bool :=
  match w with [] => false | c :: _ => forallb (fun c => isgraph c && negb (existsb (Ascii.eqb c) TERM)) w && negb (existsb (Ascii.eqb c) [DQ; "'"%char]) end.
Lemma existsb_In : forall c l, existsb (Ascii.eqb c) l = false -> ~ In c l.
Proof. intros c l H I. assert (T : existsb (Ascii.eqb c) l = true) by (apply existsb_exists; exists c; split; [exact I|apply Ascii.eqb_refl]). congruence. Qed.
Lemma nameb_name : forall w, nameb w = true -> name w.
Proof.
  intros [|c w] H; [discriminate H|]. unfold nameb in H. apply andb_prop in H. destruct H as [A B]. split; [discriminate|].
  assert (P : forall a, In a (c :: w) -> isgraph a = true /\ ~ In a TERM).
  { intros a I. rewrite forallb_forall in A. specialize (A a I). apply andb_prop in A. destruct A as [G N]. split; [exact G|]. apply existsb_In. now destruct (existsb _ TERM). }
  split; [split; intros a I; now apply P|]. change (head (c :: w)) with c. apply existsb_In. now destruct (existsb _ [DQ; "'"%char]).
Qed.
Ltac nm := apply nameb_name; reflexivity.
Ltac sp1 := first [left; repeat constructor | repeat constructor].

Lemma sep_space : sep (str " "). Proof. left. repeat constructor. Qed.
Lemma sep_comma : sep (str ", "). Proof. right. exists [], (str " "). repeat constructor. Qed.
Lemma ended_space : forall x, ended (str " ") x. Proof. intros x. split; [apply sep_space|left; discriminate]. Qed.
Lemma ended_nil : ended [] []. Proof. split; [apply sep_nil|now right]. Qed.
Lemma not_reserved : forall ci w, ~ In (to_lower (head w)) (str "pv") -> ~ reserved ci w.
Proof.
  intros ci w N (k & I & F). assert (K : exists b k', k = b :: k' /\ In (to_lower b) (str "pv")) by (repeat (destruct I as [<-|I]; [eexists _, _; split; [reflexivity|cbn; auto]|]); destruct I).
  destruct K as (b & k' & -> & Ib). inversion F as [|c b' w' k0 S _]; subst. apply N. change (head (c :: w')) with c. destruct S as [->|[_ ->]]; exact Ib.
Qed.
Ltac nd := split; [nm|intros _; apply not_reserved; cbn; intuition discriminate].
Ltac pn := split; [nm|split; cbn; intuition discriminate].
Ltac pv := apply vt_plain; [discriminate|now apply vis_by_check|cbn; intuition discriminate].
(* D1 a b, mod area=2 off='1' : the nodes without parentheses, a separator with a comma *)
Example C65_bare_line : instance_line true true dio [SetLabel (str "D1"); PORT 0 "a"; PORT 1 "b"; SetType (str "mod"); PARAM "area" "2"; PARAM "off" "1"] (str "D1 a b, mod area=2 off='1'").
Proof.
  apply (il true true dio [] [] [SetLabel (str "D1")] (str "D1") (str " ") [PORT 0 "a"; PORT 1 "b"; SetType (str "mod"); PARAM "area" "2"; PARAM "off" "1"] (str "a b, mod area=2 off='1'")).
  - constructor.
  - now left.
  - constructor; [nm|cbn; intuition discriminate].
  - apply ended_space.
  - apply (re_bare true true dio [str "a"; str "b"] (str "mod") (str "a b, mod") (str " ") [PARAM "area" "2"; PARAM "off" "1"] (str "area=2 off='1'")).
    + apply (w_cons (str "a") (str " ") [str "b"; str "mod"] (str "b, mod")); [nm|apply sep_space|discriminate|].
      apply (w_cons (str "b") (str ", ") [str "mod"] (str "mod")); [nm|apply sep_comma|discriminate|constructor; nm].
    + repeat (constructor; [nd|]). constructor.
    + cbn. lia.
    + apply ended_space.
    + apply fo_pairs; [|discriminate]. apply (pr_cons (str "area") [] [] (str "2") (str "2") (str " ") [PARAM "off" "1"] (str "off='1'"));
        [pn|constructor|constructor|pv|apply sep_space|left; discriminate|].
      apply (pr_cons (str "off") [] [] (str "'1'") (str "1") [] [] []); [pn|constructor|constructor| |apply sep_nil|now right|constructor].
      apply (vt_quoted "'" "'" (str "1") (str "1")); [cbn; auto|]. apply st_char; [cbn; intuition discriminate|constructor].
Qed.
(* .sub X1 ( a b ) s params: w=1 : a type in front, nodes in parentheses, the word params: *)
Example C65_paren_line : instance_line true true sub [SetType (str "sub"); SetLabel (str "X1"); PORT 0 "a"; PORT 1 "b"; SetType (str "s"); PARAM "w" "1"] (str ".sub X1 ( a b ) s PARAMS: w=1").
Proof.
  apply (il true true sub [] [] [SetType (str "sub"); SetLabel (str "X1")] (str ".sub X1") (str " ") [PORT 0 "a"; PORT 1 "b"; SetType (str "s"); PARAM "w" "1"] (str "( a b ) s PARAMS: w=1")).
  - constructor.
  - now left.
  - apply (fr_type (str "sub") (str " ") (str "X1")); [nm|apply sep_space|discriminate|nm].
  - apply ended_space.
  - apply (re_paren true true sub (str " ") [str "a"; str "b"] (str "a b") (str " ") (str " ") (str "s") (str "s ") [PARAM "w" "1"] (str "PARAMS: w=1")).
    + repeat constructor.
    + right. split; [|apply sep_space]. apply (w_cons (str "a") (str " ") [str "b"] (str "b")); [nm|apply sep_space|discriminate|constructor; nm].
    + repeat (constructor; [nd|]). constructor.
    + cbn. lia.
    + repeat constructor.
    + exists (str " "). split; [nm|]. split; [apply ended_space|reflexivity].
    + apply (ak_params true _ (str "PARAMS:") (str " ") _ (str "w=1")); [repeat (constructor; [right; split; reflexivity|]); constructor|apply sep_space|].
      apply ar_bare, bo_pairs. apply (pr_cons (str "w") [] [] (str "1") (str "1") [] [] []); [pn|constructor|constructor|pv|apply sep_nil|now right|constructor].
Qed.
(* ... and they are read so *)
Example C65_read_cases :
  calls_of (parse_instance true true dio (line "D1 a b, mod area=2 off='1'")) = Some [SetLabel (str "D1"); PORT 0 "a"; PORT 1 "b"; SetType (str "mod"); PARAM "area" "2"; PARAM "off" "1"] /\
  calls_of (parse_instance true true sub (line ".sub X1 ( a b ) s PARAMS: w=1")) = Some [SetType (str "sub"); SetLabel (str "X1"); PORT 0 "a"; PORT 1 "b"; SetType (str "s"); PARAM "w" "1"] /\
  calls_of (parse_instance true true bjt (line "Q1 c b mod")) = Some [SetLabel (str "Q1"); PORT 0 "c"; PORT 1 "b"; PORT 2 "mod"; SetType []] /\
  calls_of (parse_instance true true bjt (line "Q1 (c b) mod 2")) = Some [SetLabel (str "Q1"); PORT 0 "c"; PORT 1 "b"; Ground 2; SetType (str "mod"); PARAM "area" "2"] /\
  calls_of (parse_instance true true mut (line "K1 l1 l2 .99")) = Some [SetLabel (str "K1"); PORT 0 "l1"; PORT 1 "l2"; PARAM "k" ".99"].
Proof. vm_compute. repeat split; reflexivity. Qed.
(* a device with two parameters and an unnamed value *)
Definition d1 := mkinst (str "D1") "D"%char [str "a"; str "b"] true 1 [] (str "mod") (Some (str "2")) [(str "off", str "1"); (str "temp", str "-3.5k")].
Example C65_print_case : printable true true dio d1 /\ print_instance true d1 = str "D1 ( a b )  mod 2 off=1 temp=-3.5k".
Proof.
  split; [|reflexivity]. split; [nm|]. split; [cbn; intuition discriminate|]. split; [repeat (constructor; [nd|]); constructor|]. split; [cbn; lia|]. split; [reflexivity|]. split; [reflexivity|].
  split; [nm|]. split; [split; [nm|cbn; auto 12]|]. repeat (constructor; [split; [pn|split; [discriminate|split; [now apply vis_by_check|cbn; intuition discriminate]]]|]). constructor.
Qed.
Example C65_model_case : name (str "npn1") /\ name (str "npn") /\ Forall (fun p => pname (fst p) /\ plain_value (snd p)) [(str "bf", str "100"); (str "is", str "1e-14")] /\
  print_paramset (str "npn1") (str "npn") [(str "bf", str "100"); (str "is", str "1e-14")] = str ".model npn1 npn ( bf=100 is=1e-14)".
Proof.
  split; [nm|]. split; [nm|]. split; [|reflexivity]. repeat (constructor; [split; [pn|split; [discriminate|split; [now apply vis_by_check|cbn; intuition discriminate]]]|]). constructor.
Qed.
(* R1 a b 10k: two nodes, the rest is left for the parser of the value; E1 a b poly(2): a word ends the nodes *)
Example C65_element_case : words [str "a"; str "b"] (str "a b") /\ Forall (node true true) [str "a"; str "b"] /\ behind (str "10k") /\
  element_ports true true 2 0 (line "a b 10k") = Some ([PORT 0 "a"; PORT 1 "b"], 2, reset 4 (line "a b 10k")).
Proof.
  split; [apply (w_cons (str "a") (str " ") [str "b"] (str "b")); [nm|apply sep_space|discriminate|constructor; nm]|]. split; [repeat (constructor; [nd|]); constructor|]. split.
  - apply (be_words [str "10k"] (str "10k") [] []); [constructor; nm|apply sep_nil|exact I].
  - vm_compute. reflexivity.
Qed.
Example C65_keyword_case : reserved true (str "POLY") /\ stop_at (str "(2) c d 1") /\
  option_map (fun p => (fst p, after (snd p))) (element_ports true true 4 0 (line "a b POLY(2) c d 1")) = Some (([PORT 0 "a"; PORT 1 "b"], 2), str "POLY(2) c d 1").
Proof.
  split; [exists (str "poly"); split; [now left|repeat (constructor; [right; split; reflexivity|]); constructor]|]. split; [now left|]. vm_compute. reflexivity.
Qed.
Example C65_total_case : ~ In ";"%char (str "D1 a, =b 'mod x=") /\ ~ In "("%char (str "D1 a, =b 'mod x=") /\
  calls_of (parse_instance true true dio (line "D1 a, =b 'mod x=")) = Some [SetLabel (str "D1")].
Proof. split; [cbn; intuition discriminate|]. split; [cbn; intuition discriminate|]. vm_compute. reflexivity. Qed.

(* A comment behind a semicolon: the counting does not end *)
Example C65_semicolon_case : words [str "a"; str "b"; str "mod"] (str "a b mod") /\ parse_instance true true dio (line "D1 a b mod ; load") = None /\ element_ports true true 2 0 (line "1 2 1k ; load") = None.
Proof.
  split; [|split; vm_compute; reflexivity]. apply (w_cons (str "a") (str " ") [str "b"; str "mod"] (str "b mod")); [nm|apply sep_space|discriminate|].
  apply (w_cons (str "b") (str " ") [str "mod"] (str "mod")); [nm|apply sep_space|discriminate|constructor; nm].
Qed.
(* Nodes without parentheses, and then the word params:, or a value while nodes are left out: the type is
   taken as a node.  165-171 counts params: as the type, 145-156 counts the value as a word of the tail *)
Theorem C65_bare_params_refuted :
  calls_of (parse_instance true true sub (line "X1 a b filt params: w=1")) = Some [SetLabel (str "X1"); PORT 0 "a"; PORT 1 "b"; PORT 2 "filt"; SetType (str "params:"); PARAM "w" "1"] /\
  calls_of (parse_instance true true sub (line "X1 (a b) filt params: w=1")) = Some [SetLabel (str "X1"); PORT 0 "a"; PORT 1 "b"; SetType (str "filt"); PARAM "w" "1"].
Proof. vm_compute. split; reflexivity. Qed.
Print Assumptions C65_bare_params_refuted.
Theorem C65_bare_value_refuted :
  calls_of (parse_instance true true bjt (line "Q1 c b e mod 2")) = Some [SetLabel (str "Q1"); PORT 0 "c"; PORT 1 "b"; PORT 2 "e"; PORT 3 "mod"; SetType (str "2")] /\
  calls_of (parse_instance true true bjt (line "Q1 (c b e) mod 2")) = Some [SetLabel (str "Q1"); PORT 0 "c"; PORT 1 "b"; PORT 2 "e"; SetType (str "mod"); PARAM "area" "2"].
Proof. vm_compute. split; reflexivity. Qed.
Print Assumptions C65_bare_value_refuted.
(* One node too many in parentheses: the assertion 187 *)
Theorem C65_too_many_nodes_refuted : parse_instance true true dio (line "D1 ( a b c ) mod") = None.
Proof. vm_compute. reflexivity. Qed.
Print Assumptions C65_too_many_nodes_refuted.
(* A model card with a value in braces: 407 calls through a null pointer *)
Theorem C65_model_value_refuted : parse_paramset true (line ".model d1 d {x}") = None.
Proof. vm_compute. reflexivity. Qed.
Print Assumptions C65_model_value_refuted.
(* What is printed is not read back if a value needs quotes (787), or if the value without a name is not a
   number (783 against 399) *)
Theorem C65_print_value_refuted :
  let x v := mkinst (str "D1") "D"%char [str "a"; str "b"] true 1 [] (str "mod") None [(str "area", v)] in
  calls_of (parse_instance true true dio (cs_string (print_instance true (x (str "max(p,q)"))))) <> Some (says dio (x (str "max(p,q)"))) /\
  let y := mkinst (str "D1") "D"%char [str "a"; str "b"] true 1 [] (str "mod") (Some (str "p")) [] in
  calls_of (parse_instance true true dio (cs_string (print_instance true y))) = Some [SetLabel (str "D1"); PORT 0 "a"; PORT 1 "b"; SetType (str "mod"); PARAM "p" ""].
Proof. split; [vm_compute; discriminate|vm_compute; reflexivity]. Qed.
Print Assumptions C65_print_value_refuted.
(* Text behind the closing parenthesis of the parameters is dropped without a word *)
Theorem C65_trailing_text_refuted :
  calls_of (parse_instance true true dio (line "D1 (a b) mod (area=2) off=1")) = Some [SetLabel (str "D1"); PORT 0 "a"; PORT 1 "b"; SetType (str "mod"); PARAM "area" "2"] /\
  left_of (parse_instance true true dio (line "D1 (a b) mod (area=2) off=1")) = Some (str "off=1").
Proof. vm_compute. split; reflexivity. Qed.
Print Assumptions C65_trailing_text_refuted.
(* With OPT::keys_between_nodes a node can not be called poly *)
Theorem C65_node_named_poly_refuted :
  calls_of (parse_instance true true sub (line "X1 a poly filt")) = Some [SetLabel (str "X1"); PORT 0 "a"; SetType (str "poly"); PARAM "filt" ""].
Proof. vm_compute. reflexivity. Qed.
Print Assumptions C65_node_named_poly_refuted.
