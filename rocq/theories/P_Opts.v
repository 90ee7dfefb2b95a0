(* C78: the options command. *)
Require Import String.
Require Import ZArith QArith Qabs List Ascii Bool Lia.
Require Import Verif.Loops Verif.Wmatch_Model Verif.CS_Model Verif.CS_Proofs Verif.CS_Ops Verif.CS_Word Verif.P_Scanner Verif.Probes_Model Verif.Probes_Text.
Require Import Verif.Opts_Model Verif.Opts_Proofs Verif.Opts_Text.
Import ListNotations.
Local Open Scope string_scope.
Local Open Scope list_scope.

(* ---- what a user may write ---- *)
(* a whole number; octal digits; decimal digits; any number; a number whose sign is dropped; 1, 2 or 3 *)
Inductive kind := Whole | Octal | Natural | Number | Size | Step.
(* name with the letters that may be left off in braces, variable, kind *)
Definition numbers : list (string * string * kind) :=
  [
   ("gmin", "gmin", Size); ("bypasstol", "bypasstol", Size); ("loadtol", "loadtol", Size); ("reltol", "reltol", Size); ("abstol", "abstol", Size); ("vntol", "vntol", Size);
   ("trtol", "trtol", Size); ("chgtol", "chgtol", Size); ("pivtol", "pivtol", Size); ("pivrel", "pivrel", Size); ("numdgt", "numdgt", Whole); ("tnom", "tnom_c", Number);
   ("cptime", "cptime", Whole); ("limtim", "limtim", Whole); ("limpts", "limpts", Whole); ("lvlcod", "lvlcod", Whole); ("lvltim", "lvltim", Whole);
   ("maxord", "maxord", Whole); ("defl", "defl", Size); ("defw", "defw", Size); ("defad", "defad", Size); ("defas", "defas", Size); ("dampmax", "dampmax", Size);
   ("dampmin", "dampmin", Size); ("damps{trategy}", "dampstrategy", Octal); ("floor", "floor", Size); ("vfloor", "vfloor", Size); ("roundofftol", "roundofftol", Size);
   ("t{empamb}", "temp_c", Number); ("t{emperature}", "temp_c", Number); ("short", "shortckt", Size); ("out{width}", "outwidth", Natural);
   ("ydiv{isions}", "ydivisions", Size); ("tr{ansits}", "transits", Whole); ("itermin", "itermin", Whole); ("vmax", "vmax", Number); ("vmin", "vmin", Number);
   ("mrt", "dtmin", Size); ("dtmin", "dtmin", Size); ("dtr{atio}", "dtratio", Size); ("harmonics", "harmonics", Whole); ("trstepgrow", "trstepgrow", Size);
   ("trstephold", "trstephold", Size); ("trstepshrink", "trstepshrink", Size); ("trreject", "trreject", Size); ("trsteporder", "trsteporder", Step);
   ("trstepcoef1", "trstepcoef1", Number); ("trstepcoef2", "trstepcoef2", Number); ("trstepcoef3", "trstepcoef3", Number); ("foooo", "foooo", Whole);
   ("diode{flags}", "diodeflags", Octal); ("mos{flags}", "mosflags", Octal); ("recur{sion}", "recursion", Whole); ("itl1", "itl1", Whole); ("itl2", "itl2", Whole);
   ("itl3", "itl3", Whole); ("itl4", "itl4", Whole); ("itl5", "itl5", Whole); ("itl6", "itl6", Whole); ("itl7", "itl7", Whole); ("itl8", "itl8", Whole)].
Definition flags : list (string * string) :=
  [
   ("acct", "acct"); ("list", "listing"); ("mod", "mod"); ("page", "page"); ("node", "node"); ("opts", "opts"); ("clobber", "clobber"); ("dup{check}", "dupcheck");
   ("byp{ass}", "bypass"); ("inc{mode}", "incmode"); ("lcb{ypass}", "lcbypass"); ("lub{ypass}", "lubypass"); ("fbb{ypass}", "fbbypass"); ("tracel{oad}", "traceload");
   ("rstray", "rstray"); ("cstray", "cstray"); ("showall", "showall"); ("quitconv{fail}", "quitconvfail"); ("edit", "edit"); ("insensitive", "case_insensitive")].
Definition levels : list (string * Z) :=
  [("nag", 0); ("nonag", 1); ("trace", 1); ("notrace", 2); ("log", 2); ("nolog", 3); ("debug", 3); ("nodebug", 4); ("picky", 4); ("nopicky", 5); ("warn{ing}", 5); ("nowarn", 6)]%Z.
Definition choices : list (string * string * list (string * Z)) :=
  [("method", "method", [("euler", 1); ("eulero{nly}", 2); ("trap{ezoidal}", 3); ("trapo{nly}", 4); ("gear{2}", 5); ("gear2o{nly}", 6); ("t{rap}g{ear}", 7); ("t{rap}e{uler}", 8)]%Z);
   ("phase", "phase", [("d{egrees}", 0); ("+d{egrees}", 2); ("-d{egrees}", 3); ("r{adians}", 1)]%Z);
   ("order", "order", [("r{everse}", 1); ("f{orward}", 2); ("a{uto}", 3)]%Z);
   ("mode", "mode", [("a{nalog}", 1); ("d{igital}", 2); ("m{ixed}", 3)]%Z);
   ("units", "units", [("si", 0); ("spice", 1)]%Z)].
(* the value that is read for each kind *)
Definition value (kd : kind) (u : units) (s : cs) : out (val * cs) :=
  match kd with
  | Whole => do (q, s) <- txt (ctof u s); do z <- to_int q; Done (VZ z, s)
  | Octal => do (z, s) <- txt (ctoo s); Done (VZ z, s)
  | Natural => do (z, s) <- txt (ctou s); Done (VZ z, s)
  | Number => do (q, s) <- txt (ctof u s); Done (VQ q, s)
  | Size => do (q, s) <- txt (ctof u s); Done (VQ (Qabs q), s)
  | Step => do (q, s) <- txt (ctof u s); do z <- to_int q; Done (VZ (if (z <? 1)%Z then 1 else if (3 <? z)%Z then 3 else z)%Z, s)
  end.

(* ---- the lists above against the table of the model ---- *)
Definition act_of (kd : kind) (v : string) : act :=
  match kd with Whole => Int v | Octal => Oct v | Natural => Uint v | Number => Real v | Size => Pos v | Step => Order v end.
Definition spec : list (string * act) :=
  map (fun x => match x with (k, v, kd) => (k, act_of kd v) end) numbers ++ map (fun x => (fst x, Flag (snd x))) flags ++
  map (fun x => (fst x, Level "picky" (snd x))) levels ++ map (fun x => match x with (k, v, l) => (k, Choice v l) end) choices ++ [("lang{uage}", Lang)].
Definition inb (x : string * act) (l : list (string * act)) : bool := existsb (fun y => String.eqb (fst x) (fst y) && act_eqb (snd x) (snd y)) l.
Lemma inb_ok : forall x l, inb x l = true -> In x l.
Proof.
  intros [k a] l H. unfold inb in H. apply existsb_exists in H. destruct H as ([k' a'] & I & E). apply andb_true_iff in E. destruct E as [E1 E2].
  cbn [fst snd] in *. apply String.eqb_eq in E1. apply act_eqb_ok in E2. now subst.
Qed.
Lemma spec_table : forall x, In x spec -> In x table.
Proof.
  assert (H : forallb (fun x => inb x table) spec = true) by (vm_compute; reflexivity).
  intros x I. apply inb_ok. rewrite forallb_forall in H. now apply H.
Qed.
Lemma table_spec : forall x, In x table -> In x spec.
Proof.
  assert (H : forallb (fun x => inb x spec) table = true) by (vm_compute; reflexivity).
  intros x I. apply inb_ok. rewrite forallb_forall in H. now apply H.
Qed.
Lemma number_table : forall k v kd, In (k, v, kd) numbers -> In (k, act_of kd v) table.
Proof. intros k v kd I. apply spec_table. apply in_or_app. left. exact (in_map (fun x => match x with (k, v, kd) => (k, act_of kd v) end) _ _ I). Qed.
Lemma flag_table : forall k v, In (k, v) flags -> In (k, Flag v) table.
Proof. intros k v I. apply spec_table. apply in_or_app. right. apply in_or_app. left. exact (in_map (fun x => (fst x, Flag (snd x))) _ _ I). Qed.
Lemma level_table : forall k z, In (k, z) levels -> In (k, Level "picky" z) table.
Proof. intros k z I. apply spec_table. do 2 (apply in_or_app; right). apply in_or_app. left. exact (in_map (fun x => (fst x, Level "picky" (snd x))) _ _ I). Qed.
Lemma choice_table : forall k v l, In (k, v, l) choices -> In (k, Choice v l) table.
Proof.
  intros k v l I. apply spec_table. do 3 (apply in_or_app; right). apply in_or_app. left.
  exact (in_map (fun x => match x with (k, v, l) => (k, Choice v l) end) _ _ I).
Qed.
Lemma lang_table : In ("lang{uage}", Lang) table.
Proof. apply spec_table. do 4 (apply in_or_app; right). now left. Qed.
Local Opaque table numbers flags levels choices.

Section C78.
Context (rd : cs -> option (option (bool * units) * cs)).

(* A number: the word of the name, then an equals sign or none, then the value: that variable gets it. *)
Theorem C78_number : forall line st r s k v kd w rest, vw line r s -> In (k, v, kd) numbers ->
  dropbl r = w ++ rest -> spells (ci_of st) (parse k) w -> word_end rest ->
  exists s1, vw line (after_eq rest) s1 /\ pass rd st s = do (x, s2) <- value kd (u_of st) s1; Done (put st v x, s2).
Proof.
  intros line st r s k v kd w rest V I D S E.
  destruct (reach rd line st r s k _ w rest V (number_table _ _ _ I) S D E) as (k' & l2 & s0 & K & F & V0 & P). rewrite P. cbn [one_of].
  destruct (key_eq (ci_of st) line k' r s0 K V0) as (s1 & E1 & H1). rewrite F in H1. destruct H1 as [O1 V1]. exists s1. split; [exact V1|].
  destruct kd; cbn [act_of]; unfold entry; cbv zeta; rewrite E1; cbn [txt obind]; rewrite O1; cbn [value].
  - destruct (ctof (u_of st) s1) as [[q s2]|]; cbn [txt obind]; [|reflexivity]. destruct (to_int q); reflexivity.
  - destruct (ctoo s1) as [[q s2]|]; reflexivity.
  - destruct (ctou s1) as [[q s2]|]; reflexivity.
  - destruct (ctof (u_of st) s1) as [[q s2]|]; reflexivity.
  - destruct (ctof (u_of st) s1) as [[q s2]|]; reflexivity.
  - destruct (ctof (u_of st) s1) as [[q s2]|]; cbn [txt obind]; [|reflexivity]. destruct (to_int q) as [z| | |]; cbn [obind]; try reflexivity.
    replace (to_range 1 z 3) with (if (z <? 1)%Z then 1 else if (3 <? z)%Z then 3 else z)%Z; [reflexivity|].
    unfold to_range. destruct (Z.ltb_spec z 1), (Z.ltb_spec 3 z); lia.
Qed.

Lemma after_word_bl : forall rest, dropbl (after_word rest) = after_word rest.
Proof. intros rest. unfold after_word, dropcom, eat1b. apply drop_idem. apply dropbl_head. Qed.
(* A flag: with an equals sign it gets the truth value that follows, without one it becomes true. *)
Theorem C78_flag : forall line st r s k v w rest, vw line r s -> In (k, v) flags ->
  dropbl r = w ++ rest -> spells (ci_of st) (parse k) w -> word_end rest ->
  (forall x, after_word rest = "="%char :: x ->
     exists s1, vw line (dropbl x) s1 /\ pass rd st s = do (b, s2) <- txt (ctob (ci_of st) s1); Done (put st v (VB b), s2)) /\
  (head (after_word rest) <> "="%char -> exists s1, vw line (after_word rest) s1 /\ pass rd st s = Done (put st v (VB true), s1)).
Proof.
  intros line st r s k v w rest V I D S E.
  destruct (reach rd line st r s k _ w rest V (flag_table _ _ I) S D E) as (k' & l2 & s0 & K & F & V0 & P). rewrite P. cbn [one_of].
  destruct (key_blank (ci_of st) line k' r s0 K V0) as (s1 & E1 & H1). rewrite F in H1. destruct H1 as [O1 V1].
  unfold entry; cbv zeta; rewrite E1; cbn [txt obind]; rewrite O1.
  destruct (skip1bc_vw line (after_word rest) s1 "=") as (s3 & E3 & V3 & _ & O3); [discriminate|exact V1|]. rewrite E3. cbn [txt obind].
  unfold eat1b in V3. rewrite after_word_bl in *. split.
  - intros x Ex. rewrite Ex in *. cbn in O3. rewrite O3. exists s3. split; [exact V3|].
    destruct (ctob (ci_of st) s3) as [[b s4]|]; reflexivity.
  - intros N. destruct (Ascii.eqb_spec (head (after_word rest)) "="); [contradiction|]. rewrite O3. exists s3. split; [|reflexivity].
    rewrite eat1_id in V3 by (now apply Ascii.eqb_neq). now rewrite after_word_bl in V3.
Qed.
(* A flag with no before it becomes false. *)
Theorem C78_no : forall line st r s k v n o w rest, vw line r s -> In (k, v) flags ->
  dropbl r = n :: o :: w ++ rest -> same_char (ci_of st) n "n" -> same_char (ci_of st) o "o" -> spells (ci_of st) (parse k) w -> word_end rest ->
  exists s1, vw line (dropcom rest) s1 /\ pass rd st s = Done (put st v (VB false), s1).
Proof.
  intros line st r s k v n o w rest V I D N O S E.
  destruct (reach_no rd line st r s k v (n :: o :: w) rest V (flag_table _ _ I)) as (l2 & s0 & K & F & M & V0 & P); [|exact D|exact E|].
  { exists n, (o :: w). split; [reflexivity|]. split; [exact N|]. exists o, w. auto. }
  rewrite P. cbn [one_of]. destruct (key_blank (ci_of st) line k r s0 K V0) as (s1 & E1 & H1). rewrite F in H1. destruct H1 as [O1 V1].
  unfold entry; cbv zeta; rewrite E1; cbn [txt obind]; rewrite O1.
  destruct (key_no (ci_of st) line k r s1 K V1) as (s2 & E2 & H2). rewrite M in H2. destruct H2 as [O2 V2]. rewrite E2. cbn [txt obind]. rewrite O2.
  exists s2. now split.
Qed.
(* A word for how much to tell sets the level. *)
Theorem C78_level : forall line st r s k z w rest, vw line r s -> In (k, z) levels ->
  dropbl r = w ++ rest -> spells (ci_of st) (parse k) w -> word_end rest ->
  exists s1, vw line (after_word rest) s1 /\ pass rd st s = Done (put st "picky" (VZ z), s1).
Proof.
  intros line st r s k z w rest V I D S E.
  destruct (reach rd line st r s k _ w rest V (level_table _ _ I) S D E) as (k' & l2 & s0 & K & F & V0 & P). rewrite P. cbn [one_of].
  destruct (key_blank (ci_of st) line k' r s0 K V0) as (s1 & E1 & H1). rewrite F in H1. destruct H1 as [O1 V1].
  unfold entry; cbv zeta; rewrite E1; cbn [txt obind]; rewrite O1. exists s1. now split.
Qed.
Lemma choose_first : forall line v st l1 ck z l2 w rest s, Forall (fun x => keyok (fst x) = true) (l1 ++ (ck, z) :: l2) ->
  vw line (w ++ rest) s -> dropbl (w ++ rest) = w ++ rest -> spells (ci_of st) (parse ck) w -> word_end rest ->
  (forall c y, In (c, y) l1 -> ~ spells (ci_of st) (parse c) w) ->
  exists s1, vw line (after_word rest) s1 /\ choose v (l1 ++ (ck, z) :: l2) st s = Done (true, put st v (VZ z), s1).
Proof.
  intros line v st l1 ck z l2 w rest s F V D S E N. revert s F V N. induction l1 as [|[c y] l1 IH]; intros s F V N; cbn [app choose].
  - inversion_clear F as [|? ? K Fl]. cbn [fst] in K. destruct (key_blank (ci_of st) line ck _ s K V) as (s1 & E1 & H1).
    rewrite (found_word _ _ _ w rest K S D E) in H1. destruct H1 as [O1 V1]. rewrite E1. cbn [txt obind]. rewrite O1. exists s1. now split.
  - assert (Kc : keyok ck = true).
    { rewrite Forall_forall in F. apply (F (ck, z)). right. apply in_or_app. right. now left. }
    inversion_clear F as [|? ? K Fl]. cbn [fst] in K. destruct (key_blank (ci_of st) line c _ s K V) as (s1 & E1 & H1).
    destruct (found (ci_of st) (parse c) (w ++ rest)) as [x|] eqn:Fx.
    + exfalso. destruct (found_spelled _ _ _ _ K Fx) as (w' & S' & D' & E'). rewrite D in D'.
      destruct (word_same w rest w' x (spelled_inner _ _ _ Kc S) E (spelled_inner _ _ _ K S') E' D') as [<- _].
      now apply (N c y (or_introl eq_refl)).
    + destruct H1 as [O1 V1]. rewrite E1. cbn [txt obind]. rewrite O1. apply IH; [exact Fl|exact V1|]. intros c' y' I'. apply (N c' y'). now right.
Qed.
(* A choice: the first of its words, in the order of the list, that is written. *)
Theorem C78_choice : forall line st r s k v l1 ck z l2 w rest w2 rest2, vw line r s -> In (k, v, l1 ++ (ck, z) :: l2) choices ->
  dropbl r = w ++ rest -> spells (ci_of st) (parse k) w -> word_end rest ->
  after_eq rest = w2 ++ rest2 -> spells (ci_of st) (parse ck) w2 -> word_end rest2 ->
  (forall c y, In (c, y) l1 -> ~ spells (ci_of st) (parse c) w2) ->
  exists s1, vw line (after_word rest2) s1 /\ pass rd st s = Done (put st v (VZ z), s1).
Proof.
  intros line st r s k v l1 ck z l2 w rest w2 rest2 V I D S E A S2 E2 N. pose proof (choice_table _ _ _ I) as T.
  destruct (reach rd line st r s k _ w rest V T S D E) as (k' & l & s0 & K & F & V0 & P). rewrite P. cbn [one_of].
  destruct (key_eq (ci_of st) line k' r s0 K V0) as (s1 & E1 & H1). rewrite F in H1. destruct H1 as [O1 V1].
  assert (Da : dropbl (w2 ++ rest2) = w2 ++ rest2).
  { rewrite <- A. unfold after_eq, dropcom, eat1b. apply drop_idem. apply dropbl_head. }
  unfold entry; cbv zeta; rewrite E1; cbn [txt obind]; rewrite O1. rewrite A in V1.
  destruct (choose_first line v st l1 ck z l2 w2 rest2 s1 (choice_key_ok _ _ _ T) V1 Da S2 E2 N) as (s2 & V2 & E3). rewrite E3. cbn [obind].
  exists s2. now split.
Qed.
(* A language brings its own reading of capitals and of units; without one, capitals matter and units are SI. *)
Theorem C78_language : forall line st r s w rest, vw line r s -> dropbl r = w ++ rest -> spells (ci_of st) (parse "lang{uage}") w -> word_end rest ->
  exists s1, vw line (after_eq rest) s1 /\
    (rd s1 = None -> pass rd st s = Undef) /\
    (forall l s2, rd s1 = Some (l, s2) -> exists st', pass rd st s = Done (st', s2) /\ st' "language" = VL l /\
       ci_of st' = (match l with Some (c, _) => c | None => false end) /\ u_of st' = (match l with Some (_, u) => u | None => uSI end) /\
       forall x, x <> "language" -> x <> "case_insensitive" -> x <> "units" -> st' x = st x).
Proof.
  intros line st r s w rest V D S E. destruct (reach rd line st r s _ _ w rest V lang_table S D E) as (k' & l & s0 & K & F & V0 & P). rewrite P. cbn [one_of].
  destruct (key_eq (ci_of st) line k' r s0 K V0) as (s1 & E1 & H1). rewrite F in H1. destruct H1 as [O1 V1]. exists s1. split; [exact V1|].
  unfold entry; cbv zeta; rewrite E1; cbn [txt obind]; rewrite O1. split; [intros ->; reflexivity|]. intros l' s2 ->. cbn [txt obind].
  eexists. split; [reflexivity|]. split; [reflexivity|]. split; [reflexivity|]. split; [destruct l' as [[c []]|]; reflexivity|].
  intros x N1 N2 N3. unfold put. destruct (String.eqb_spec x "units"); [contradiction|]. destruct (String.eqb_spec x "case_insensitive"); [contradiction|].
  destruct (String.eqb_spec x "language"); [contradiction|]. reflexivity.
Qed.

(* A word that is no option is passed over and nothing changes. *)
Definition names : list string := map fst spec.
Theorem C78_unknown : forall line st r s c w rest, vw line r s -> dropbl r = (c :: w) ++ rest -> word_end rest ->
  Forall (fun d => ~ word_end [d]) (c :: w) -> c <> "/"%char -> c <> "'"%char ->
  (forall k, In k names -> ~ spells (ci_of st) (parse k) (c :: w)) ->
  (forall k v n o u x, In (k, v) flags -> c :: w = n :: o :: u ++ x -> same_char (ci_of st) n "n" -> same_char (ci_of st) o "o" -> ~ spells (ci_of st) (parse k) u) ->
  exists s1 r1, vw line r1 s1 /\ suffix r1 r /\ (List.length r1 < List.length r)%nat /\ pass rd st s = Done (st, s1).
Proof.
  intros line st r s c w rest V D E In0 N1 N2 Hk Hn.
  assert (In1 : Forall (fun d => inner d = true) (c :: w)).
  { eapply Forall_impl; [|exact In0]. intros d Hd. unfold inner. destruct (fterm TERM d) eqn:T; [|reflexivity]. elim Hd. apply fterm_ok. exact T. }
  destruct (one_of_skip rd line st r table [] s V) as (s1 & P & V1).
  { apply Forall_forall. intros [k a] I. pose proof (key_ok _ I) as K. cbn [fst] in *. split; [exact K|]. split; cbn [fst snd].
    - destruct (found (ci_of st) (parse k) r) as [x|] eqn:F; [|reflexivity]. exfalso.
      destruct (found_spelled _ _ _ _ K F) as (w' & S' & D' & E'). rewrite D in D'.
      destruct (word_same (c :: w) rest w' x In1 E (spelled_inner _ _ _ K S') E' D') as [<- _].
      apply (Hk k); [|exact S']. apply (in_map fst) in I as I2. unfold names. apply table_spec in I. exact (in_map fst _ _ I).
    - destruct a; try discriminate. intros _. destruct (mt (ci_of st) (no_key k) (dropbl r)) as [x|] eqn:F; [|reflexivity]. exfalso.
      pose proof (no_wordy k K) as W. destruct (mt_sound _ _ _ _ W F) as (u & S & Du). rewrite D in Du.
      destruct (word_prefix (c :: w) rest u x In1 E (spells_inner _ _ u W S) Du) as (y & Ey).
      destruct S as (n & u1 & -> & Sn & o & u2 & -> & So & S). apply (Hn k v n o u2 y); [|exact Ey|exact Sn|exact So|exact S].
      apply table_spec in I. unfold spec in I. repeat (apply in_app_or in I; destruct I as [I|I]).
      + apply in_map_iff in I. destruct I as ([[k1 v1] []] & X & _); discriminate X.
      + apply in_map_iff in I. destruct I as ([k1 v1] & X & Y). cbn [fst snd] in X. injection X as -> ->. exact Y.
      + apply in_map_iff in I. destruct I as ([k1 v1] & X & _); discriminate X.
      + apply in_map_iff in I. destruct I as ([[k1 v1] l1] & X & _); discriminate X.
      + destruct I as [X|[]]. discriminate X. }
  rewrite app_nil_r in P. unfold pass. rewrite P. cbn [one_of]. unfold check. destruct (skipbl_vw _ _ _ V1) as (s2 & E2 & V2 & _). rewrite E2. cbn [bind].
  rewrite (peek_vw _ _ _ V2). cbn [bind]. rewrite D in *. change (head ((c :: w) ++ rest)) with c.
  destruct (Ascii.eqb_spec c "/"); [contradiction|]. destruct (Ascii.eqb_spec c "'"); [contradiction|].
  assert (Nc : inner c = true) by now inversion In1.
  destruct (Ascii.eqb_spec c ";") as [->|_]; [discriminate Nc|]. destruct (Ascii.eqb_spec c NUL) as [->|Nn]; [discriminate Nc|]. cbn [orb txt obind].
  destruct (skiparg_vw line _ (set_ok s2 false) (vw_ok _ _ _ _ V2)) as (s3 & r3 & E3 & V3 & S3 & _ & L3). rewrite E3. cbn [txt obind].
  assert (Sd : suffix ((c :: w) ++ rest) r) by (rewrite <- D; apply suffix_drop).
  exists s3, r3. split; [exact V3|]. split; [now apply suffix_trans with ((c :: w) ++ rest)|]. split; [|reflexivity].
  apply suffix_len in Sd. assert (List.length r3 < List.length ((c :: w) ++ rest))%nat; [|lia]. apply L3.
  assert (Dd : dropbl ((c :: w) ++ rest) = (c :: w) ++ rest) by (rewrite <- D; apply drop_idem; apply dropbl_head). rewrite Dd. exact Nn.
Qed.

(* ---- a whole command ---- *)
Context (rd_stays : forall line r s l s', vw line r s -> rd s = Some (l, s') -> exists r', vw line r' s' /\ suffix r' r).
Lemma pass_done : forall line r st s st1 s1, vw line r s -> pass rd st s = Done (st1, s1) ->
  exists r1, vw line r1 s1 /\ suffix r1 r /\ (List.length r1 = List.length r -> st1 = st) /\ (head (dropbl r) <> NUL -> (List.length r1 < List.length r)%nat).
Proof. intros line r st s st1 s1 V P. pose proof (pass_any rd rd_stays line st r s V) as H. rewrite P in H. exact H. Qed.
Lemma more_len : forall r, (List.length (dropbl r) <= List.length r)%nat.
Proof. intros r. apply drop_len. Qed.
Lemma loop_same : forall line n n' here here' c c' r st s, vw line r s -> head (dropbl r) <> NUL -> (here <= cnt s)%Z -> (here' <= cnt s)%Z ->
  (List.length r < n)%nat -> (List.length r < n')%nat -> loop rd n here c st s = loop rd n' here' c' st s.
Proof.
  intros line n. induction n as [|n IH]; intros n' here here' c c' r st s V N H H' L L'; [lia|]. destruct n' as [|n']; [lia|]. cbn [loop].
  destruct (pass rd st s) as [[st1 s1]| | |] eqn:P; cbn [obind]; try reflexivity.
  destruct (pass_done _ _ _ _ _ _ V P) as (r1 & V1 & S1 & _ & M1). specialize (M1 N).
  pose proof (vw_cnt _ _ _ V) as C. pose proof (vw_cnt _ _ _ V1) as C1.
  replace (here <? cnt s1)%Z with true by (symmetry; apply Z.ltb_lt; lia). replace (here' <? cnt s1)%Z with true by (symmetry; apply Z.ltb_lt; lia). cbn [orb].
  destruct (more_vw _ _ _ V1) as (s2 & E2 & V2 & _). rewrite E2. cbn [txt obind]. rewrite andb_true_r.
  destruct (Ascii.eqb_spec (head (dropbl r1)) NUL) as [|N1]; [reflexivity|]. cbn [negb].
  pose proof (vw_cnt _ _ _ V2) as C2. pose proof (more_len r1) as L2.
  apply IH with (dropbl r1); [exact V2| |lia|lia|lia|lia]. replace (dropbl (dropbl r1)) with (dropbl r1) by (symmetry; apply drop_idem; apply dropbl_head). exact N1.
Qed.
Lemma vw_cmd : forall line r s, vw line r s -> (List.length r < S (S (List.length (cmd s))))%nat.
Proof. intros line r s V. pose proof (vw_le _ _ _ V). replace (cmd s) with line by (symmetry; apply V). lia. Qed.
(* The settings of a line are made one after the other: after the first, the rest is a line of its own. *)
Theorem C78_sequence : forall line r st s st1 s1 s2, vw line r s -> head (dropbl r) <> NUL ->
  pass rd st s = Done (st1, s1) -> more s1 = Some (true, s2) -> set_values rd st s = set_values rd st1 s2.
Proof.
  intros line r st s st1 s1 s2 V N P M. destruct (pass_done _ _ _ _ _ _ V P) as (r1 & V1 & S1 & _ & M1). specialize (M1 N).
  destruct (more_vw _ _ _ V1) as (s2' & E2 & V2 & _). rewrite M in E2. injection E2 as B <-.
  unfold set_values. set (f := S (List.length (cmd s))). set (f2 := S (S (List.length (cmd s2)))).
  replace (loop rd (S f) (cnt s) false st s) with (loop rd f2 (cnt s2) false st1 s2); [reflexivity|]. cbn [loop]. rewrite P. cbn [obind].
  replace (cnt s <? cnt s1)%Z with true by (symmetry; apply Z.ltb_lt; rewrite (vw_cnt _ _ _ V), (vw_cnt _ _ _ V1); lia). cbn [orb].
  rewrite M. cbn [txt obind andb]. symmetry.
  pose proof (more_len r1) as L2. pose proof (vw_cmd _ _ _ V) as Lc. pose proof (vw_cmd _ _ _ V2) as Lc2.
  assert (N1 : head (dropbl (dropbl r1)) <> NUL).
  { replace (dropbl (dropbl r1)) with (dropbl r1) by (symmetry; apply drop_idem; apply dropbl_head).
    symmetry in B. apply negb_true_iff in B. now apply Ascii.eqb_neq in B. }
  apply loop_same with line (dropbl r1); [exact V2|exact N1| | |unfold f; lia|exact Lc2].
  - rewrite (vw_cnt _ _ _ V1), (vw_cnt _ _ _ V2). lia.
  - lia.
Qed.
(* When the last one is made, the limits follow reltol and the number of digits is kept between 3 and 20. *)
Theorem C78_last : forall line r st s st1 s1 s2 q n, vw line r s -> head (dropbl r) <> NUL ->
  pass rd st s = Done (st1, s1) -> more s1 = Some (false, s2) -> st1 "reltol" = VQ q -> st1 "numdgt" = VZ n ->
  exists st', set_values rd st s = Done (true, st', s2) /\ st' "lowlim" = VQ (1 - q) /\ st' "uplim" = VQ (1 + q) /\
    st' "numdgt" = VZ (if (n <? 3)%Z then 3 else if (20 <? n)%Z then 20 else n)%Z /\
    forall x, x <> "lowlim" -> x <> "uplim" -> x <> "numdgt" -> st' x = st1 x.
Proof.
  intros line r st s st1 s1 s2 q n V N P M Hq Hn. destruct (pass_done _ _ _ _ _ _ V P) as (r1 & V1 & S1 & _ & M1). specialize (M1 N).
  unfold set_values. cbn [loop]. rewrite P. cbn [obind].
  replace (cnt s <? cnt s1)%Z with true by (symmetry; apply Z.ltb_lt; rewrite (vw_cnt _ _ _ V), (vw_cnt _ _ _ V1); lia). cbn [orb].
  rewrite M. cbn [txt obind andb]. eexists. split; [reflexivity|]. unfold settle. rewrite Hq, Hn. cbv zeta.
  split; [reflexivity|]. split; [reflexivity|]. split.
  - transitivity (VZ (to_range 3 n 20)); [reflexivity|]. f_equal. unfold to_range. destruct (Z.ltb_spec n 3), (Z.ltb_spec 20 n); lia.
  - intros x A B C. unfold put. destruct (String.eqb_spec x "numdgt"); [contradiction|]. destruct (String.eqb_spec x "uplim"); [contradiction|].
    destruct (String.eqb_spec x "lowlim"); [contradiction|]. reflexivity.
Qed.
(* It always comes to an end and fails no assertion, whatever is written. *)
Lemma loop_ends : forall line n here c r st s, vw line r s -> (here <= cnt s)%Z -> (List.length r < n)%nat -> (c = true -> head (dropbl r) <> NUL) ->
  ends False (fun x => match x with (c', st', s') => c' = false -> c = false /\ st' = st end) (loop rd n here c st s).
Proof.
  intros line n. induction n as [|n IH]; intros here c r st s V H L Hc; [lia|]. cbn [loop].
  apply ends_bind with (P := pass_ok line r st); [exact (pass_any rd rd_stays line st r s V)|].
  intros [st1 s1] (r1 & V1 & S1 & Q1 & M1). destruct (more_vw _ _ _ V1) as (s2 & E2 & V2 & _). rewrite E2. cbn [txt obind].
  pose proof (vw_cnt _ _ _ V) as C. pose proof (vw_cnt _ _ _ V1) as C1. pose proof (vw_cnt _ _ _ V2) as C2. pose proof (suffix_len _ _ S1) as L1. pose proof (more_len r1) as L2.
  destruct (negb (Ascii.eqb (head (dropbl r1)) NUL) && ((here <? cnt s1)%Z || c)) eqn:B.
  - apply andb_true_iff in B. destruct B as [B1 B2]. rewrite B2. apply negb_true_iff in B1. apply Ascii.eqb_neq in B1.
    assert (N2 : head (dropbl (dropbl r1)) <> NUL) by (replace (dropbl (dropbl r1)) with (dropbl r1) by (symmetry; apply drop_idem; apply dropbl_head); exact B1).
    assert (Lr : (List.length (dropbl r1) < n)%nat).
    { destruct (Nat.eq_dec (List.length r1) (List.length r)) as [Er|]; [|lia]. apply suffix_same in S1; [|exact Er]. subst r1. specialize (M1 B1). lia. }
    apply ends_imp with False (fun x => match x with (c', st', s') => c' = false -> true = false /\ st' = st1 end); [|auto|].
    + apply IH with (dropbl r1); [exact V2|lia|exact Lr|]. intros _. exact N2.
    + intros [[c' st'] s'] X Y. destruct (X Y) as [Z _]. discriminate Z.
  - cbn [ends]. intros E. apply orb_false_iff in E. destruct E as [E1 ->]. split; [reflexivity|]. apply Q1. apply Z.ltb_ge in E1. lia.
Qed.
Theorem C78_ends : forall line r st s, vw line r s -> set_values rd st s <> NoEnd /\ set_values rd st s <> Assert.
Proof.
  intros line r st s V. unfold set_values.
  pose proof (loop_ends line (S (S (List.length (cmd s)))) (cnt s) false r st s V ltac:(lia) (vw_cmd _ _ _ V) ltac:(discriminate)) as H.
  destruct (loop rd _ (cnt s) false st s) as [[[c st'] s']| | |]; cbn [ends obind] in *; split; try discriminate; contradiction.
Qed.
(* A command that says it changed nothing has changed nothing. *)
Theorem C78_unchanged : forall line r st s st' s', vw line r s -> set_values rd st s = Done (false, st', s') -> st' = st.
Proof.
  intros line r st s st' s' V E. unfold set_values in E.
  pose proof (loop_ends line (S (S (List.length (cmd s)))) (cnt s) false r st s V ltac:(lia) (vw_cmd _ _ _ V) ltac:(discriminate)) as H.
  destruct (loop rd _ (cnt s) false st s) as [[[c st1] s1]| | |]; cbn [ends obind] in *; try discriminate E.
  injection E as -> <- <-. now apply H.
Qed.

(* ---- what holds of the options after any commands ---- *)
(* the options that are never negative, and those that stay between two whole numbers *)
Definition sizes : list string :=
  ["gmin"; "bypasstol"; "loadtol"; "reltol"; "abstol"; "vntol"; "trtol"; "chgtol"; "pivtol"; "pivrel"; "defl"; "defw"; "defad"; "defas"; "dampmax"; "dampmin"; "floor"; "vfloor"; "roundofftol"; "shortckt"; "ydivisions"; "dtmin"; "dtratio"; "trstepgrow"; "trstephold"; "trstepshrink"; "trreject"].
Definition bounds : list (string * Z * Z) :=
  [("numdgt", 3, 20); ("trsteporder", 1, 3); ("picky", 0, 6); ("method", 1, 8); ("phase", 0, 3); ("order", 1, 3); ("mode", 1, 3); ("units", 0, 1)]%Z.
(* commands, one after the other *)
Fixpoint run (cmds : list cs) (st : opts) : out opts :=
  match cmds with [] => Done st | s :: cmds => do (_, st, _) <- set_values rd st s; run cmds st end.

Definition is_size (v : string) : bool := existsb (String.eqb v) sizes.
Definition bound (v : string) : option (Z * Z) :=
  match find (fun x => String.eqb v (fst (fst x))) (tl bounds) with Some (_, lo, hi) => Some (lo, hi) | None => None end.
Definition is_limit (v : string) : bool := String.eqb v "lowlim" || String.eqb v "uplim".
Definition allowed (v : string) (x : val) : bool :=
  if is_limit v then false
  else if is_size v then match x with VQ q => Qle_bool 0 q | _ => false end
  else match bound v with
       | Some (lo, hi) => match x with VZ z => (lo <=? z)%Z && (z <=? hi)%Z | _ => false end
       | None => if String.eqb v "numdgt" then match x with VZ _ => true | _ => false end else true
       end.
Definition anyz (v : string) : bool := negb (is_limit v) && negb (is_size v) && match bound v with None => true | _ => false end.
Definition anyx (v : string) : bool := anyz v && negb (String.eqb v "numdgt").
Lemma anyz_ok : forall v z, anyz v = true -> allowed v (VZ z) = true.
Proof.
  intros v z H. unfold anyz in H. apply andb_true_iff in H. destruct H as [H C]. apply andb_true_iff in H. destruct H as [A B]. unfold allowed.
  destruct (is_limit v); [discriminate A|]. destruct (is_size v); [discriminate B|]. destruct (bound v); [discriminate C|]. now destruct (String.eqb v "numdgt").
Qed.
Lemma anyx_ok : forall v x, anyx v = true -> allowed v x = true.
Proof.
  intros v x H. unfold anyx, anyz in H. apply andb_true_iff in H. destruct H as [H D]. apply andb_true_iff in H. destruct H as [H C]. apply andb_true_iff in H. destruct H as [A B].
  unfold allowed. destruct (is_limit v); [discriminate A|]. destruct (is_size v); [discriminate B|]. destruct (bound v); [discriminate C|].
  destruct (String.eqb v "numdgt"); [discriminate D|reflexivity].
Qed.
Definition okact (a : act) : bool :=
  match a with
  | Flag v | Real v => anyx v
  | Int v | Oct v | Uint v => anyz v
  | Pos v => anyx v || (is_size v && negb (is_limit v))
  | Order v => String.eqb v "trsteporder"
  | Level v z => allowed v (VZ z)
  | Choice v l => forallb (fun x => allowed v (VZ (snd x))) l
  | Lang => anyx "language" && anyx "case_insensitive" && allowed "units" (VZ 0) && allowed "units" (VZ 1)
  end.
Definition step_ok (st st' : opts) : Prop := forall v, st' v = st v \/ allowed v (st' v) = true.
Lemma step_refl : forall st, step_ok st st. Proof. intros st v. now left. Qed.
Lemma step_trans : forall a b c, step_ok a b -> step_ok b c -> step_ok a c.
Proof. intros a b c H K v. destruct (K v) as [E|E]; [|now right]. rewrite E. apply H. Qed.
Lemma put_ok : forall st v x, allowed v x = true -> step_ok st (put st v x).
Proof. intros st v x H k. unfold put. destruct (String.eqb_spec k v) as [->|_]; [now right|now left]. Qed.
Lemma choose_step : forall v l st s b st' s', forallb (fun x => allowed v (VZ (snd x))) l = true -> choose v l st s = Done (b, st', s') -> step_ok st st'.
Proof.
  intros v l st. induction l as [|[k z] l IH]; intros s b st' s' H E; cbn [choose] in E; [injection E as <- <- <-; apply step_refl|].
  cbn [forallb snd] in H. apply andb_true_iff in H. destruct H as [A B].
  destruct (umatch (ci_of st) (str k ++ [" "%char]) s) as [s1|]; [|discriminate E]. cbn [txt obind] in E. destruct (ok s1); [|now apply IH in E].
  injection E as <- <- <-. now apply put_ok.
Qed.
Lemma entry_step : forall k a st s b st' s', okact a = true -> entry rd k a st s = Done (b, st', s') -> step_ok st st'.
Proof.
  intros k a st s b st' s' O E.
  assert (G : forall (X : Type) (x : option X) (f : X -> out (bool * opts * cs)), obind (txt x) f = Done (b, st', s') -> exists y, x = Some y /\ f y = Done (b, st', s')).
  { intros X [y|] f H; [now exists y|discriminate H]. }
  assert (T : forall q (f : Z -> out (bool * opts * cs)), (do z <- to_int q; f z) = Done (b, st', s') -> exists z, f z = Done (b, st', s')).
  { intros q f H. unfold to_int in H. cbv zeta in H. destruct (_ && _) in H; cbn [obind] in H; [eauto|discriminate H]. }
  destruct a; unfold entry in E; cbv zeta in E; apply G in E; destruct E as (s1 & _ & E); (destruct (ok s1) eqn:O1; [|try (injection E as <- <- <-; apply step_refl)]).
  - apply G in E. destruct E as (s2 & _ & E). destruct (ok s2).
    + apply G in E. destruct E as ([c s3] & _ & E). injection E as <- <- <-. apply put_ok. now apply anyx_ok.
    + injection E as <- <- <-. apply put_ok. now apply anyx_ok.
  - apply G in E. destruct E as (s2 & _ & E). destruct (ok s2); injection E as <- <- <-; [apply put_ok; now apply anyx_ok|apply step_refl].
  - apply G in E. destruct E as ([q s2] & _ & E). apply T in E. destruct E as (z & E). injection E as <- <- <-. apply put_ok. now apply anyz_ok.
  - apply G in E. destruct E as ([q s2] & _ & E). injection E as <- <- <-. apply put_ok. now apply anyz_ok.
  - apply G in E. destruct E as ([q s2] & _ & E). injection E as <- <- <-. apply put_ok. now apply anyz_ok.
  - apply G in E. destruct E as ([q s2] & _ & E). injection E as <- <- <-. apply put_ok. now apply anyx_ok.
  - apply G in E. destruct E as ([q s2] & _ & E). injection E as <- <- <-. apply put_ok. cbn [okact] in O. apply orb_true_iff in O. destruct O as [O|O]; [now apply anyx_ok|].
    apply andb_true_iff in O. destruct O as [A B]. unfold allowed. apply negb_true_iff in B. rewrite A, B. apply Qle_bool_iff. apply Qabs_nonneg.
  - apply G in E. destruct E as ([q s2] & _ & E). apply T in E. destruct E as (z & E). injection E as <- <- <-. apply put_ok. cbn [okact] in O. apply String.eqb_eq in O. subst v.
    change (allowed "trsteporder" (VZ (to_range 1 z 3))) with ((1 <=? to_range 1 z 3)%Z && (to_range 1 z 3 <=? 3)%Z).
    apply andb_true_iff. unfold to_range. split; apply Z.leb_le; lia.
  - injection E as <- <- <-. now apply put_ok.
  - exact (choose_step _ _ _ _ _ _ _ O E).
  - apply G in E. destruct E as ([l s2] & _ & E). injection E as <- <- <-. cbn [okact] in O.
    apply andb_true_iff in O. destruct O as [O O4]. apply andb_true_iff in O. destruct O as [O O3]. apply andb_true_iff in O. destruct O as [O1' O2].
    eapply step_trans; [apply put_ok; apply anyx_ok; exact O1'|]. eapply step_trans; [apply put_ok; apply anyx_ok; exact O2|].
    apply put_ok. destruct l as [[c []]|]; [exact O3|exact O4|exact O3].
Qed.
Lemma table_okact : forallb (fun x => okact (snd x)) table = true. Proof. vm_compute. reflexivity. Qed.
Lemma one_of_step : forall l st s st' s', (forall x, In x l -> In x table) -> one_of rd l st s = Done (st', s') -> step_ok st st'.
Proof.
  induction l as [|[k a] l IH]; intros st s st' s' T E; cbn [one_of] in E.
  - destruct (check (ci_of st) s) as [s1|]; [|discriminate E]. cbn [txt obind] in E. destruct (skiparg s1); [|discriminate E]. injection E as <- <-. apply step_refl.
  - destruct (entry rd k a st s) as [[[b st1] s1]| | |] eqn:En; try discriminate E. cbn [obind] in E.
    assert (O : okact a = true). { pose proof table_okact as H. rewrite forallb_forall in H. apply (H (k, a)). apply T. now left. }
    pose proof (entry_step _ _ _ _ _ _ _ O En) as S1. destruct b; [injection E as <- <-; exact S1|].
    apply step_trans with st1; [exact S1|]. apply IH with s1 s'; [intros x X; apply T; now right|exact E].
Qed.
Lemma loop_step : forall n here c st s c' st' s', loop rd n here c st s = Done (c', st', s') -> step_ok st st'.
Proof.
  induction n as [|n IH]; intros here c st s c' st' s' E; [discriminate E|]. cbn [loop] in E.
  destruct (pass rd st s) as [[st1 s1]| | |] eqn:P; try discriminate E. cbn [obind] in E. pose proof (one_of_step _ _ _ _ _ (fun x X => X) P) as S1.
  destruct (more s1) as [[b s2]|]; [|discriminate E]. cbn [txt obind] in E. destruct (b && _); [|injection E as <- <- <-; exact S1].
  apply step_trans with st1; [exact S1|]. now apply IH in E.
Qed.
Definition inv (st : opts) : Prop :=
  (forall v, is_limit v = false -> allowed v (st v) = true) /\ (exists z, st "numdgt" = VZ z /\ (3 <= z <= 20)%Z) /\
  exists q, st "reltol" = VQ q /\ st "lowlim" = VQ (1 - q) /\ st "uplim" = VQ (1 + q).
Lemma inv_defaults : inv defaults.
Proof.
  split; [|split; [exists 5%Z; split; [reflexivity|lia]|exists (1 # 1000); repeat split; reflexivity]].
  intros v L. unfold allowed. rewrite L. destruct (is_size v) eqn:S.
  - unfold is_size in S. apply existsb_exists in S. destruct S as (x & X & E). apply String.eqb_eq in E. subst x. revert v X L.
    assert (H : forallb (fun v => match defaults v with VQ q => Qle_bool 0 q | _ => false end) sizes = true) by (vm_compute; reflexivity).
    rewrite forallb_forall in H. intros v X _. now apply H.
  - unfold bound. destruct (find (fun x => String.eqb v (fst (fst x))) (tl bounds)) as [[[k lo] hi]|] eqn:F.
    + apply find_some in F. destruct F as [I E]. cbn [fst] in E. apply String.eqb_eq in E. subst k.
      assert (H : forallb (fun x => match x with (v, lo, hi) => match defaults v with VZ z => (lo <=? z)%Z && (z <=? hi)%Z | _ => false end end) (tl bounds) = true) by (vm_compute; reflexivity).
      rewrite forallb_forall in H. exact (H _ I).
    + destruct (String.eqb_spec v "numdgt") as [->|_]; reflexivity.
Qed.
Lemma inv_step : forall line r st s c st' s', vw line r s -> inv st -> set_values rd st s = Done (c, st', s') -> inv st'.
Proof.
  intros line r st s c st' s' V (A & B & q & Q) E. destruct c; [|rewrite (C78_unchanged _ _ _ _ _ _ V E); split; [exact A|]; split; [exact B|now exists q]].
  unfold set_values in E. destruct (loop rd _ (cnt s) false st s) as [[[c1 st1] s1]| | |] eqn:Lp; try discriminate E. cbn [obind] in E.
  pose proof (loop_step _ _ _ _ _ _ _ _ Lp) as S1. injection E as -> E <-. rewrite <- E.
  assert (A1 : forall v, is_limit v = false -> allowed v (st1 v) = true).
  { intros v Lv. destruct (S1 v) as [Ev|Ev]; [rewrite Ev; now apply A|exact Ev]. }
  pose proof (A1 "reltol" eq_refl) as R. pose proof (A1 "numdgt" eq_refl) as N.
  change (allowed "reltol" (st1 "reltol")) with (match st1 "reltol" with VQ q => Qle_bool 0 q | _ => false end) in R.
  change (allowed "numdgt" (st1 "numdgt")) with (match st1 "numdgt" with VZ _ => true | _ => false end) in N.
  destruct (st1 "reltol") as [| |q1|] eqn:Er; try discriminate R. destruct (st1 "numdgt") as [|z1| |] eqn:En; try discriminate N.
  unfold settle. rewrite Er, En. cbv zeta. split; [|split].
  - intros v Lv. unfold put. destruct (String.eqb_spec v "numdgt") as [->|_]; [reflexivity|].
    unfold is_limit in Lv. apply orb_false_iff in Lv. destruct Lv as [L1 L2]. rewrite L1, L2. apply A1. unfold is_limit. now rewrite L1, L2.
  - exists (to_range 3 z1 20). split; [reflexivity|]. unfold to_range. lia.
  - exists q1. split; [exact Er|]. split; reflexivity.
Qed.
(* Whatever commands are given, from the start of the program. *)
Theorem C78_invariant : forall cmds st, Forall (fun s => exists line r, vw line r s) cmds -> run cmds defaults = Done st ->
  (forall v, In v sizes -> exists q, st v = VQ q /\ 0 <= q) /\
  (forall v lo hi, In (v, lo, hi) bounds -> exists z, st v = VZ z /\ (lo <= z <= hi)%Z) /\
  exists q, st "reltol" = VQ q /\ st "lowlim" = VQ (1 - q) /\ st "uplim" = VQ (1 + q).
Proof.
  intros cmds st F R. assert (I : inv st).
  { pose proof inv_defaults as I. revert R I. generalize defaults. induction F as [|s cmds (line & r & V) _ IH]; intros d R I; cbn [run] in R; [injection R as <-; exact I|].
    destruct (set_values rd d s) as [[[c d1] s1]| | |] eqn:E; try discriminate R. cbn [obind] in R. apply (IH d1 R). exact (inv_step _ _ _ _ _ _ _ V I E). }
  destruct I as (A & B & C). split; [|split; [|exact C]].
  - intros v X. assert (H : forallb (fun v => negb (is_limit v)) sizes = true) by (vm_compute; reflexivity).
    rewrite forallb_forall in H. specialize (H v X). apply negb_true_iff in H. specialize (A v H). unfold allowed in A. rewrite H in A.
    replace (is_size v) with true in A by (symmetry; apply existsb_exists; exists v; split; [exact X|apply String.eqb_refl]).
    destruct (st v) as [| |q|]; try discriminate A. exists q. split; [reflexivity|now apply Qle_bool_iff].
  - intros v lo hi X. destruct X as [X|X]; [injection X as <- <- <-; exact B|].
    assert (H : forallb (fun x => match x with (v, lo, hi) => negb (is_limit v) && negb (is_size v) &&
      match bound v with Some (a, b) => Z.eqb a lo && Z.eqb b hi | None => false end end) (tl bounds) = true) by (vm_compute; reflexivity).
    rewrite forallb_forall in H. specialize (H _ X). apply andb_true_iff in H. destruct H as [H H3]. apply andb_true_iff in H. destruct H as [H1 H2].
    apply negb_true_iff in H1. apply negb_true_iff in H2. specialize (A v H1). unfold allowed in A. rewrite H1, H2 in A.
    destruct (bound v) as [[a b]|]; [|discriminate H3]. apply andb_true_iff in H3. destruct H3 as [H3 H4]. apply Z.eqb_eq in H3. apply Z.eqb_eq in H4. subst a b.
    destruct (st v) as [|z| |]; try discriminate A. exists z. split; [reflexivity|]. apply andb_true_iff in A. destruct A as [A1 A2].
    apply Z.leb_le in A1. apply Z.leb_le in A2. lia.
Qed.

(* ---- what print writes is read back ---- *)
Definition exact (k name : string) : bool :=
  keyok k && match mt false (parse k) (str name), mt true (parse k) (str name) with Some [], Some [] => true | _, _ => false end.
Lemma exact_ok : forall ci k name, exact k name = true -> spells ci (parse k) (str name).
Proof.
  intros ci k name H. apply andb_true_iff in H. destruct H as [K H]. apply keyok_parts in K. destruct K as (W & _).
  destruct (mt false (parse k) (str name)) as [[|]|] eqn:F; try discriminate H. destruct (mt true (parse k) (str name)) as [[|]|] eqn:T; try discriminate H.
  destruct ci; [destruct (mt_sound _ _ _ _ W T) as (w & S & E)|destruct (mt_sound _ _ _ _ W F) as (w & S & E)]; rewrite app_nil_r in E; now subst w.
Qed.
Definition not_exact (k name : string) : bool :=
  keyok k && match mt false (parse k) (str name), mt true (parse k) (str name) with Some [], _ => false | _, Some [] => false | _, _ => true end.
Lemma not_exact_ok : forall ci k name, not_exact k name = true -> ~ spells ci (parse k) (str name).
Proof.
  intros ci k name H S. apply andb_true_iff in H. destruct H as [K H]. apply keyok_parts in K. destruct K as (W & _).
  pose proof (mt_complete ci _ _ [] W S Logic.I) as M. rewrite app_nil_r in M.
  destruct ci; rewrite M in H; [destruct (mt false (parse k) (str name)) as [[|]|]; discriminate H|discriminate H].
Qed.
Lemma eq_word_end : forall x, word_end ("="%char :: x).
Proof. intros x. cbn. right. right. auto. Qed.
Lemma after_eq_sign : forall x, after_eq ("="%char :: x) = dropcom x.
Proof. reflexivity. Qed.
Definition is_choice (v : string) : bool := existsb (fun x => String.eqb v (snd (fst x))) choices.
Theorem C78_printed_number : forall line st r s name v x, vw line r s -> In (name, v) printed -> (forall k l, ~ In (k, v, l) choices) -> v <> "language" ->
  dropbl r = str name ++ "="%char :: x ->
  exists kd s1, (exists k, In (k, v, kd) numbers) /\ vw line (dropcom x) s1 /\ pass rd st s = do (y, s2) <- value kd (u_of st) s1; Done (put st v y, s2).
Proof.
  intros line st r s name v x V I NC NL D.
  assert (H : forallb (fun p => is_choice (snd p) || String.eqb (snd p) "language" ||
     existsb (fun n => String.eqb (snd p) (snd (fst n)) && exact (fst (fst n)) (fst p)) numbers) printed = true) by (vm_compute; reflexivity).
  rewrite forallb_forall in H. specialize (H _ I). cbn [fst snd] in H. apply orb_true_iff in H. destruct H as [H|H].
  - exfalso. apply orb_true_iff in H. destruct H as [H|H]; [|apply String.eqb_eq in H; contradiction].
    unfold is_choice in H. apply existsb_exists in H. destruct H as ([[k v'] l] & X & E). cbn [fst snd] in E. apply String.eqb_eq in E. subst v'. now apply (NC k l).
  - apply existsb_exists in H. destruct H as ([[k v'] kd] & X & E). cbn [fst snd] in E. apply andb_true_iff in E. destruct E as [E1 E2].
    apply String.eqb_eq in E1. subst v'.
    destruct (C78_number line st r s k v kd (str name) ("="%char :: x) V X D (exact_ok _ _ _ E2) (eq_word_end x)) as (s1 & V1 & P).
    exists kd, s1. split; [now exists k|]. split; [exact V1|exact P].
Qed.
Theorem C78_printed_flag : forall line st r s v yes no rest, vw line r s -> In (v, yes, no) printed_flags -> word_end rest ->
  (dropbl r = str yes ++ rest -> head (after_word rest) <> "="%char -> exists s1, vw line (after_word rest) s1 /\ pass rd st s = Done (put st v (VB true), s1)) /\
  (dropbl r = str no ++ rest -> exists s1, vw line (dropcom rest) s1 /\ pass rd st s = Done (put st v (VB false), s1)).
Proof.
  intros line st r s v yes no rest V I E.
  assert (H : forallb (fun p => match p with (v, yes, no) => existsb (fun n => String.eqb v (snd n) && exact (fst n) yes) flags && String.eqb no ("no" ++ yes) end) printed_flags = true)
    by (vm_compute; reflexivity).
  rewrite forallb_forall in H. specialize (H _ I). cbn beta iota in H. apply andb_true_iff in H. destruct H as [H1 H2]. apply String.eqb_eq in H2. subst no.
  apply existsb_exists in H1. destruct H1 as ([k v'] & X & Y). cbn [fst snd] in Y. apply andb_true_iff in Y. destruct Y as [Y1 Y2]. apply String.eqb_eq in Y1. subst v'.
  split.
  - intros D N. destruct (C78_flag line st r s k v (str yes) rest V X D (exact_ok _ _ _ Y2) E) as [_ B]. now apply B.
  - intros D. apply (C78_no line st r s k v "n" "o" (str yes) rest V X D (or_introl eq_refl) (or_introl eq_refl) (exact_ok _ _ _ Y2) E).
Qed.
Fixpoint pick (name : string) (l : list (string * Z)) : option Z :=
  match l with [] => None | (k, z) :: l => if exact k name then Some z else if not_exact k name then pick name l else None end.
Lemma pick_ok : forall ci name l z, pick name l = Some z -> exists l1 ck l2, l = l1 ++ (ck, z) :: l2 /\ spells ci (parse ck) (str name) /\
  forall c y, In (c, y) l1 -> ~ spells ci (parse c) (str name).
Proof.
  intros ci name l z. induction l as [|[k y] l IH]; intros H; [discriminate H|]. cbn [pick] in H. destruct (exact k name) eqn:E.
  - injection H as <-. exists [], k, l. split; [reflexivity|]. split; [now apply exact_ok|]. intros c y' [].
  - destruct (not_exact k name) eqn:N; [|discriminate H]. destruct (IH H) as (l1 & ck & l2 & -> & S & F). exists ((k, y) :: l1), ck, l2. split; [reflexivity|].
    split; [exact S|]. intros c y' [X|X]; [injection X as <- <-; now apply not_exact_ok|now apply F with y'].
Qed.
Theorem C78_printed_choice : forall line st r s v z name rest, vw line r s -> In (v, z, name) printed_choices -> word_end rest ->
  dropbl r = str v ++ "="%char :: str name ++ rest ->
  In (v, v) printed /\ exists s1, vw line (after_word rest) s1 /\ pass rd st s = Done (put st v (VZ z), s1).
Proof.
  intros line st r s v z name rest V I E D.
  assert (H : forallb (fun p => match p with (v, z, name) => existsb (fun q => String.eqb v (fst q) && String.eqb v (snd q)) printed &&
      existsb (fun c => match c with (k, v', l) => String.eqb v v' && exact k v && match pick name l with Some y => Z.eqb z y | None => false end end) choices &&
      match str name with c :: _ => isgraph c && negb (Ascii.eqb c ",") && negb (Ascii.eqb c NUL) | [] => false end end) printed_choices = true)
    by (vm_compute; reflexivity).
  rewrite forallb_forall in H. specialize (H _ I). cbn beta iota in H. apply andb_true_iff in H. destruct H as [H H3]. apply andb_true_iff in H. destruct H as [H1 H2].
  apply existsb_exists in H1. destruct H1 as ([a b] & X & Y). cbn [fst snd] in Y. apply andb_true_iff in Y. destruct Y as [Y1 Y2].
  apply String.eqb_eq in Y1. apply String.eqb_eq in Y2. subst a b. split; [exact X|]. clear X.
  apply existsb_exists in H2. destruct H2 as ([[k v'] l] & X & Y). apply andb_true_iff in Y. destruct Y as [Y Y3]. apply andb_true_iff in Y. destruct Y as [Y1 Y2].
  apply String.eqb_eq in Y1. subst v'. destruct (pick name l) as [y|] eqn:P; [|discriminate Y3]. apply Z.eqb_eq in Y3. subst y.
  destruct (pick_ok (ci_of st) name l z P) as (l1 & ck & l2 & -> & S & F).
  apply (C78_choice line st r s k v l1 ck z l2 (str v) ("="%char :: str name ++ rest) (str name) rest V X D (exact_ok _ _ _ Y2) (eq_word_end _)); try assumption.
  rewrite after_eq_sign. destruct (str name) as [|c n]; [discriminate H3|]. apply andb_true_iff in H3. destruct H3 as [H3 H5]. apply andb_true_iff in H3. destruct H3 as [H3 H4].
  assert (B : fblank c = false) by (unfold fblank; rewrite H3; apply andb_false_r).
  unfold dropcom, eat1b. unfold dropbl at 2. cbn [app drop_while]. rewrite B. cbn [eat1].
  replace (fcomma c) with false; [unfold dropbl; cbn [drop_while]; now rewrite B|]. unfold fcomma, in_set, mem. cbn [existsb str list_ascii_of_string].
  apply negb_true_iff in H4. rewrite H4. now rewrite andb_false_r.
Qed.
End C78.
Print Assumptions C78_number.
Print Assumptions C78_flag.
Print Assumptions C78_no.
Print Assumptions C78_level.
Print Assumptions C78_choice.
Print Assumptions C78_language.
Print Assumptions C78_unknown.
Print Assumptions C78_sequence.
Print Assumptions C78_last.
Print Assumptions C78_ends.
Print Assumptions C78_unchanged.
Print Assumptions C78_invariant.
Print Assumptions C78_printed_number.
Print Assumptions C78_printed_flag.
Print Assumptions C78_printed_choice.

(* A whole number is the number without its fraction; one too large for an int is undefined. *)
Theorem C78_whole : forall q z, to_int q = Done z <->
  (-2147483648 <= z <= 2147483647)%Z /\ (0 <= q -> inject_Z z <= q /\ q < inject_Z (z + 1)) /\ (q <= 0 -> inject_Z (z - 1) < q /\ q <= inject_Z z).
Proof.
  intros [n d] z. unfold to_int. cbn [Qnum Qden]. pose proof (Z.quot_rem' n (Zpos d)) as Q.
  assert (E : forall y, ((0 <= n # d -> inject_Z y <= n # d /\ n # d < inject_Z (y + 1)) /\ (n # d <= 0 -> inject_Z (y - 1) < n # d /\ n # d <= inject_Z y)) <-> y = Z.quot n (Zpos d)).
  { intros y. unfold Qle, Qlt, inject_Z. cbn [Qnum Qden]. rewrite ?Z.mul_1_r, ?Pos.mul_1_l, ?Z.mul_0_l, ?Z.mul_1_l.
    split.
    - intros [A B]. destruct (Z.le_ge_cases 0 n) as [S|S].
      + specialize (A S). pose proof (Z.rem_bound_pos n (Zpos d) S ltac:(lia)). nia.
      + specialize (B S). pose proof (Z.rem_bound_pos_neg n (Zpos d) ltac:(lia) S). nia.
    - intros ->. split; intros S; [pose proof (Z.rem_bound_pos n (Zpos d) S ltac:(lia))|pose proof (Z.rem_bound_pos_neg n (Zpos d) ltac:(lia) S)]; nia. }
  cbv zeta. rewrite E. set (y := Z.quot n (Zpos d)). destruct (Z.leb_spec (-2147483648) y), (Z.leb_spec y 2147483647); cbn [andb]; split; intros H1;
    try (injection H1 as <-); try discriminate H1; try (destruct H1 as [H1 ->]); try lia; try reflexivity.
Qed.
Print Assumptions C78_whole.

(* ---- where the command does not do what it says ---- *)
Definition no_lang : cs -> option (option (bool * units) * cs) := fun _ => None.
Definition after_text (t v : string) : option val := match set_values no_lang defaults (cs_string (str t)) with Done (true, st, _) => Some (st v) | _ => None end.
(* print writes the iteration limits in a form that set_values does not know: they are not restored *)
Theorem C78_itl_refuted : exists t, t = ("options " ++ printed_itl "1" ++ "20")%string /\
  after_text (printed_itl "1" ++ "20") "itl1" = Some (defaults "itl1") /\ after_text "itl1=20" "itl1" = Some (VZ 20) /\ defaults "itl1" <> VZ 20.
Proof. eexists. split; [reflexivity|]. split; [vm_compute; reflexivity|]. split; [vm_compute; reflexivity|discriminate]. Qed.
Print Assumptions C78_itl_refuted.
(* a wrong word after a choice is taken for another option *)
Theorem C78_wrong_choice_refuted : after_text "phase=nobypass" "bypass" = Some (VB false) /\ after_text "phase=nobypass" "phase" = Some (defaults "phase") /\
  after_text "nobypass" "bypass" = Some (VB false) /\ after_text "order=vmin 3" "vmin" = Some (VQ 3).
Proof. vm_compute. repeat split. Qed.
Print Assumptions C78_wrong_choice_refuted.
(* one spelling stands for two methods: the first in the list wins *)
Theorem C78_method_refuted : spells false (parse "t{rap}e{uler}") (str "trape") /\ spells false (parse "trap{ezoidal}") (str "trape") /\
  after_text "method=trape" "method" = Some (VZ 3) /\ after_text "method=trapeu" "method" = Some (VZ 8).
Proof. split; [now apply exact_ok|]. split; [now apply exact_ok|]. vm_compute. repeat split. Qed.
Print Assumptions C78_method_refuted.
(* no with the name of a flag is taken without looking for the end of the word *)
Theorem C78_no_refuted : after_text "nobypasstol" "bypass" = Some (VB false) /\ after_text "nomode" "mod" = Some (VB false).
Proof. vm_compute. repeat split. Qed.
Print Assumptions C78_no_refuted.
(* a number too large for an int is undefined, and so is a line that ends in a slash *)
Theorem C78_undefined_refuted : set_values no_lang defaults (cs_string (str "itl1=3000000000")) = Undef /\
  set_values no_lang defaults (cs_string (str "//")) = Undef.
Proof. vm_compute. split; reflexivity. Qed.
Print Assumptions C78_undefined_refuted.

(* ---- cases ---- *)
Definition line1 := str "  RELTOL=-2m, noBYP temp 50 phase=rad numdgt=30 trsteporder=9 itl4=12.9 warn edit=no out=80 damps=21 zzz".
Definition rd1 : cs -> option (option (bool * units) * cs) := fun s => Some (Some (true, uSPICE), s).
Lemma rd1_stays : forall line r s l s', vw line r s -> rd1 s = Some (l, s') -> exists r', vw line r' s' /\ suffix r' r.
Proof. intros line r s l s' V H. injection H as <- <-. exists r. split; [exact V|apply suffix_refl]. Qed.
Definition start : opts := put defaults "case_insensitive" (VB true).
Example ex_C78 :
  (* a line with many settings, capitals and abbreviations *)
  match set_values rd1 start (cs_string line1) with
  | Done (c, st, _) => (c, map st ["reltol"; "bypass"; "temp_c"; "phase"; "numdgt"; "trsteporder"; "itl4"; "picky"; "edit"; "outwidth"; "dampstrategy"; "vmax"])
  | _ => (false, []) end =
  (true, [VQ (2 # 1000); VB false; VQ 50; VZ 1; VZ 20; VZ 3; VZ 12; VZ 5; VB false; VZ 80; VZ 17; VQ 5]) /\
  (* the first setting, as in C78_number *)
  vw line1 line1 (cs_string line1) /\ In ("reltol", "reltol", Size) numbers /\ dropbl line1 = str "RELTOL" ++ str "=-2m, noBYP temp 50 phase=rad numdgt=30 trsteporder=9 itl4=12.9 warn edit=no out=80 damps=21 zzz" /\
  spells (ci_of start) (parse "reltol") (str "RELTOL") /\ word_end (str "=-2m").
Proof.
  split; [vm_compute; reflexivity|]. split; [apply vw_start|]. split; [vm_compute; auto 20|]. split; [reflexivity|].
  split; [|cbn; auto]. change (ci_of start) with true.
  destruct (mt_sound true (parse "reltol") (str "RELTOL") [] eq_refl eq_refl) as (w & S & E). rewrite app_nil_r in E. now rewrite E.
Qed.
Example ex_C78_flag : In ("edit", "edit") flags /\ spells false (parse "edit") (str "edit") /\ after_word (str " = no ") = str "= no " /\
  after_text "edit = no" "edit" = Some (VB false) /\ after_text "acct" "acct" = Some (VB true) /\
  (* a flag turned off *)
  In ("byp{ass}", "bypass") flags /\ spells false (parse "byp{ass}") (str "bypa") /\ word_end [] /\ after_text "nobypa" "bypass" = Some (VB false).
Proof.
  split; [vm_compute; auto 30|]. split; [now apply exact_ok|]. split; [reflexivity|]. split; [vm_compute; reflexivity|]. split; [vm_compute; reflexivity|].
  split; [vm_compute; auto 30|]. split; [now apply exact_ok|]. split; [exact I|vm_compute; reflexivity].
Qed.
Example ex_C78_choice :
  (exists l1 l2, In ("method", "method", l1 ++ ("t{rap}g{ear}", 7%Z) :: l2) choices /\ spells false (parse "t{rap}g{ear}") (str "trag") /\
     (forall c y, In (c, y) l1 -> ~ spells false (parse c) (str "trag"))) /\
  after_text "method = trag" "method" = Some (VZ 7) /\
  In ("warn{ing}", 5%Z) levels /\ after_text "warni" "picky" = Some (VZ 5) /\
  match set_values rd1 defaults (cs_string (str "lang=spice")) with Done (_, st, _) => (ci_of st, u_of st) | _ => (false, uSI) end = (true, uSPICE).
Proof.
  split; [|split; [vm_compute; reflexivity|]; split; [vm_compute; auto 20|]; split; vm_compute; reflexivity].
  exists [("euler", 1); ("eulero{nly}", 2); ("trap{ezoidal}", 3); ("trapo{nly}", 4); ("gear{2}", 5); ("gear2o{nly}", 6)]%Z, [("t{rap}e{uler}", 8)]%Z.
  split; [vm_compute; auto|]. split; [now apply exact_ok|]. intros c y H. cbn [In] in H.
  repeat (destruct H as [H|H]; [injection H as <- <-; now apply not_exact_ok|]). contradiction.
Qed.
Example ex_C78_unknown : (forall k, In k names -> ~ spells false (parse k) (str "zzz")) /\
  (forall k v n o u x, In (k, v) flags -> str "zzz" = n :: o :: u ++ x -> same_char false n "n" -> same_char false o "o" -> ~ spells false (parse k) u) /\
  Forall (fun d => ~ word_end [d]) (str "zzz").
Proof.
  split; [|split].
  - assert (H : forallb (fun k => not_exact k "zzz") names = true) by (vm_compute; reflexivity). rewrite forallb_forall in H.
    intros k I. apply not_exact_ok. now apply H.
  - intros k v n o u x _ E N. cbn in E. injection E as <- _ _. destruct N as [N|[N _]]; discriminate N.
  - repeat constructor; intros H; apply fterm_ok in H; vm_compute in H; discriminate H.
Qed.
(* the line of ex_C78 in steps, and commands in a row *)
Example ex_C78_sequence : head (dropbl line1) <> NUL /\
  (exists st1 s1 s2, pass rd1 start (cs_string line1) = Done (st1, s1) /\ more s1 = Some (true, s2) /\ st1 "reltol" = VQ (Qabs (-2 # 1000))) /\
  (exists st1 s1 s2, pass rd1 defaults (cs_string (str "numdgt 1")) = Done (st1, s1) /\ more s1 = Some (false, s2) /\ st1 "reltol" = VQ (1 # 1000) /\ st1 "numdgt" = VZ 1) /\
  Forall (fun s => exists line r, vw line r s) [cs_string line1; cs_string (str "numdgt=1")] /\
  match run rd1 [cs_string (str "reltol=-.5 units=spice"); cs_string (str "numdgt=1")] defaults with Done st => map st ["lowlim"; "numdgt"; "units"] | _ => [] end =
    [VQ (1 - (5 # 10)); VZ 3; VZ 1] /\
  (exists s', set_values rd1 defaults (cs_string []) = Done (false, defaults, s')).
Proof.
  split; [discriminate|]. split; [do 3 eexists; split; [vm_compute; reflexivity|]; split; vm_compute; reflexivity|].
  split; [do 3 eexists; split; [vm_compute; reflexivity|]; split; [|split]; vm_compute; reflexivity|].
  split; [repeat constructor; (exists line1, line1; apply vw_start) || (eexists _, _; apply vw_start)|].
  split; [vm_compute; reflexivity|]. eexists. vm_compute. reflexivity.
Qed.
Example ex_C78_printed : In ("dampstrategy", "dampstrategy") printed /\ (forall k l, ~ In (k, "dampstrategy", l) choices) /\ In ("listing", "list", "nolist") printed_flags /\
  In ("method", 8%Z, "trapeuler") printed_choices /\
  after_text "dampstrategy=17  nolist  method=trapeuler" "dampstrategy" = Some (VZ 15) /\ after_text "dampstrategy=17  nolist  method=trapeuler" "method" = Some (VZ 8) /\
  after_text "dampstrategy=17  list  method=trapeuler" "listing" = Some (VB true).
Proof.
  split; [cbn; auto 60|]. split; [intros k l H; vm_compute in H; repeat (destruct H as [H|H]; [discriminate H|]); contradiction|].
  split; [cbn; auto|]. split; [cbn; auto 20|]. vm_compute. repeat split.
Qed.
Example ex_C78_whole : to_int (-129 # 10) = Done (-12)%Z /\ to_int (3000000000 # 1) = Undef.
Proof. vm_compute. split; reflexivity. Qed.
