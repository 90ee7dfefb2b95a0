(* Lemmas about one pass of the options command. *)
Require Import String.
Require Import ZArith QArith Qabs List Ascii Bool Lia.
Require Import Verif.Loops Verif.Wmatch_Model Verif.CS_Model Verif.CS_Proofs Verif.CS_Ops Verif.CS_Word Verif.P_Scanner Verif.Probes_Model Verif.Probes_Text.
Require Import Verif.Opts_Model Verif.Opts_Proofs.
Import ListNotations.
Local Open Scope string_scope.
Local Open Scope list_scope.

Lemma skiparg_dead : forall s, more s = None -> skiparg s = None.
Proof.
  intros s H. unfold skiparg, skipcom, skip1b. unfold more in H. destruct (skipbl s) as [s1|]; [|reflexivity]. cbn [bind] in *. unfold ns_more in H.
  unfold skip1, match1. destruct (peek s1); [discriminate H|reflexivity].
Qed.
Definition leqb (a b : list ascii) : bool := if list_eq_dec ascii_dec a b then true else false.
Definition keyok (k : string) : bool :=
  wordy (parse k) && leqb (flat (parse k)) (str k) && match parse k with Lit _ :: _ => true | _ => false end.
Lemma leqb_ok : forall a b, leqb a b = true -> a = b.
Proof. intros a b. unfold leqb. destruct (list_eq_dec ascii_dec a b); [auto|discriminate]. Qed.
Lemma keyok_parts : forall k, keyok k = true -> wordy (parse k) = true /\ flat (parse k) = str k /\ exists c p, parse k = Lit c :: p.
Proof.
  intros k H. apply andb_true_iff in H. destruct H as [H C]. apply andb_true_iff in H. destruct H as [A B].
  split; [exact A|]. split; [now apply leqb_ok|]. destruct (parse k) as [|[c|o|] p]; try discriminate C. now exists c, p.
Qed.
Lemma flat_app : forall p q, flat (p ++ q) = flat p ++ flat q.
Proof. intros. unfold flat. now rewrite map_app, concat_app. Qed.
Definition eqsign : list ascii := ["="%char].
Definition no_key (k : string) : list seg := Lit "n" :: Lit "o" :: parse k.
Lemma blank_pat : forall k, keyok k = true -> str k ++ [" "%char] = flat (parse k ++ [Bl]) /\ Forall okseg (parse k ++ [Bl]).
Proof.
  intros k H. apply keyok_parts in H. destruct H as (W & F & _). rewrite flat_app, F. split; [reflexivity|].
  apply Forall_app. split; [now apply wordy_ok|]. constructor; [exact I|constructor].
Qed.
Lemma eq_pat : forall k, keyok k = true -> str k ++ str " {=}" = flat (parse k ++ [Bl; Op eqsign]) /\ Forall okseg (parse k ++ [Bl; Op eqsign]).
Proof.
  intros k H. apply keyok_parts in H. destruct H as (W & F & _). rewrite flat_app, F. split; [reflexivity|].
  apply Forall_app. split; [now apply wordy_ok|]. constructor; [exact I|]. constructor; [|constructor].
  constructor; [|constructor]. now apply plainb_ok.
Qed.
Lemma no_wordy : forall k, keyok k = true -> wordy (no_key k) = true.
Proof. intros k H. apply keyok_parts in H. destruct H as (W & _). unfold no_key. cbn [wordy]. rewrite W. reflexivity. Qed.
Lemma no_pat : forall k, keyok k = true -> str "no" ++ str k = flat (no_key k) /\ Forall okseg (no_key k).
Proof.
  intros k H. split; [|apply wordy_ok; now apply no_wordy]. apply keyok_parts in H. destruct H as (_ & F & _).
  unfold no_key. change (flat (Lit "n" :: Lit "o" :: parse k)) with ("n"%char :: "o"%char :: flat (parse k)). now rewrite F.
Qed.

(* what is left after the key, the end of its word and an optional equals sign *)
Definition past_eq (r : list ascii) : list ascii := match r with c :: x => if Ascii.eqb c "=" then x else r | [] => [] end.
Definition after_eq (rest : list ascii) : list ascii := dropcom (past_eq (dropbl rest)).
Definition after_word (rest : list ascii) : list ascii := dropcom (dropbl rest).
Lemma lower_eq : forall c, Ascii.eqb (to_lower c) "=" = Ascii.eqb c "=".
Proof. intros [[] [] [] [] [] [] [] []]; reflexivity. Qed.
Lemma eat_eq : forall ci r, eat_some ci eqsign r = past_eq r.
Proof.
  intros ci [|c r]; [reflexivity|]. cbn [eat_some eqsign past_eq]. unfold sameb. change (to_lower "=") with "="%char. rewrite lower_eq.
  destruct (Ascii.eqb c "="); destruct ci; cbn [orb andb]; (destruct r; reflexivity) || reflexivity.
Qed.

(* the key k stands at r and its word ends: rest follows *)
Definition found (ci : bool) (p : list seg) (r : list ascii) : option (list ascii) :=
  match mt ci p (dropbl r) with Some x => if fterm TERM (head x) then Some x else None | None => None end.
Lemma key_blank : forall ci line k r s, keyok k = true -> vw line r s ->
  exists s', umatch ci (str k ++ [" "%char]) s = Some s' /\
    match found ci (parse k) r with Some x => ok s' = true /\ vw line (after_word x) s' | None => ok s' = false /\ vw line r s' end.
Proof.
  intros ci line k r s K V. destruct (blank_pat k K) as [E F]. rewrite E.
  destruct (umatch_seg ci line _ r s F V) as (s' & E' & H). exists s'. split; [exact E'|]. rewrite mt_app in H. unfold found.
  destruct (mt ci (parse k) (dropbl r)) as [x|]; [|exact H]. cbn [mt] in H. now destruct (fterm TERM (head x)).
Qed.
Lemma key_eq : forall ci line k r s, keyok k = true -> vw line r s ->
  exists s', umatch ci (str k ++ str " {=}") s = Some s' /\
    match found ci (parse k) r with Some x => ok s' = true /\ vw line (after_eq x) s' | None => ok s' = false /\ vw line r s' end.
Proof.
  intros ci line k r s K V. destruct (eq_pat k K) as [E F]. rewrite E.
  destruct (umatch_seg ci line _ r s F V) as (s' & E' & H). exists s'. split; [exact E'|]. rewrite mt_app in H. unfold found.
  destruct (mt ci (parse k) (dropbl r)) as [x|]; [|exact H]. cbn [mt] in H. destruct (fterm TERM (head x)); [|exact H].
  rewrite eat_eq in H. exact H.
Qed.
Lemma key_no : forall ci line k r s, keyok k = true -> vw line r s ->
  exists s', umatch ci (str "no" ++ str k) s = Some s' /\
    match mt ci (no_key k) (dropbl r) with Some x => ok s' = true /\ vw line (dropcom x) s' | None => ok s' = false /\ vw line r s' end.
Proof. intros ci line k r s K V. destruct (no_pat k K) as [E F]. rewrite E. exact (umatch_seg ci line _ r s F V). Qed.

Section E.
Context (rd : cs -> option (option (bool * units) * cs)).

Definition is_flag (a : act) : bool := match a with Flag _ => true | _ => false end.
Definition misses (ci : bool) (r : list ascii) (ka : string * act) : Prop :=
  found ci (parse (fst ka)) r = None /\ (is_flag (snd ka) = true -> mt ci (no_key (fst ka)) (dropbl r) = None).
Lemma entry_miss : forall line k a st r s, keyok k = true -> vw line r s -> misses (ci_of st) r (k, a) ->
  exists s', entry rd k a st s = Done (false, st, s') /\ vw line r s'.
Proof.
  intros line k a st r s K V [M N]. cbn [fst snd] in M, N.
  destruct (key_eq (ci_of st) line k r s K V) as (s1 & E1 & H1). rewrite M in H1. destruct H1 as [O1 V1].
  destruct (key_blank (ci_of st) line k r s K V) as (s2 & E2 & H2). rewrite M in H2. destruct H2 as [O2 V2].
  destruct a; cbn [is_flag] in N; unfold entry; cbv zeta;
    try (rewrite E1; cbn [txt obind]; rewrite O1; exists s1; now split);
    try (rewrite E2; cbn [txt obind]; rewrite O2; exists s2; now split).
  rewrite E2. cbn [txt obind]. rewrite O2. destruct (key_no (ci_of st) line k r s2 K V2) as (s3 & E3 & H3).
  rewrite (N eq_refl) in H3. destruct H3 as [O3 V3]. rewrite E3. cbn [txt obind]. rewrite O3. exists s3. now split.
Qed.
Lemma one_of_skip : forall line st r l1 l2 s, vw line r s -> Forall (fun ka => keyok (fst ka) = true /\ misses (ci_of st) r ka) l1 ->
  exists s', one_of rd (l1 ++ l2) st s = one_of rd l2 st s' /\ vw line r s'.
Proof.
  intros line st r l1 l2. induction l1 as [|[k a] l1 IH]; intros s V F; [exists s; now split|]. inversion_clear F as [|? ? [K M] Fl].
  cbn [app one_of]. destruct (entry_miss line k a st r s K V M) as (s1 & E1 & V1). rewrite E1. cbn [obind]. now apply IH.
Qed.
Lemma first_hit : forall ci r (l : list (string * act)), (exists ka, In ka l /\ ~ misses ci r ka) ->
  exists l1 ka l2, l = l1 ++ ka :: l2 /\ Forall (misses ci r) l1 /\ ~ misses ci r ka.
Proof.
  intros ci r l. induction l as [|ka l IH]; intros (x & I & H); [contradiction|].
  assert (D : misses ci r ka \/ ~ misses ci r ka).
  { unfold misses. destruct (found ci (parse (fst ka)) r); [right; intros [A _]; discriminate A|].
    destruct (is_flag (snd ka)); [|left; split; [reflexivity|discriminate]].
    destruct (mt ci (no_key (fst ka)) (dropbl r)); [right; intros [_ A]; specialize (A eq_refl); discriminate A|left; split; reflexivity]. }
  destruct D as [D|D]; [|exists [], ka, l; split; [reflexivity|]; split; [constructor|exact D]].
  destruct I as [->|I]; [contradiction|]. destruct IH as (l1 & y & l2 & -> & F & N); [now exists x|].
  exists (ka :: l1), y, l2. split; [reflexivity|]. split; [now constructor|exact N].
Qed.

Definition act_eqb (a b : act) : bool :=
  match a, b with
  | Flag v, Flag w | Int v, Int w | Oct v, Oct w | Uint v, Uint w | Real v, Real w | Pos v, Pos w | Order v, Order w => String.eqb v w
  | Level v z, Level w y => String.eqb v w && Z.eqb z y
  | Choice v l, Choice w m => String.eqb v w && if list_eq_dec (fun x y : string * Z =>
      match string_dec (fst x) (fst y), Z.eq_dec (snd x) (snd y) with
      | left e, left f => left (injective_projections x y e f)
      | right n, _ => right (fun e => n (f_equal fst e))
      | _, right n => right (fun e => n (f_equal snd e)) end) l m then true else false
  | Lang, Lang => true
  | _, _ => false
  end.
Lemma act_eqb_ok : forall a b, act_eqb a b = true -> a = b.
Proof.
  intros [] []; cbn [act_eqb]; intros H; try discriminate H; try (apply String.eqb_eq in H; congruence); try reflexivity.
  - apply andb_true_iff in H. destruct H as [A B]. apply String.eqb_eq in A. apply Z.eqb_eq in B. congruence.
  - apply andb_true_iff in H. destruct H as [A B]. apply String.eqb_eq in A. subst. destruct list_eq_dec; [congruence|discriminate B].
Qed.

Definition all_pairs (f : string * act -> string * act -> bool) : bool := forallb (fun x => forallb (f x) table) table.
Lemma all_pairs_ok : forall f, all_pairs f = true -> forall x y, In x table -> In y table -> f x y = true.
Proof. intros f H x y X Y. unfold all_pairs in H. rewrite forallb_forall in H. specialize (H x X). rewrite forallb_forall in H. now apply H. Qed.
Definition meets (f : list ascii -> list ascii -> bool) (l m : list (list ascii)) : bool := existsb (fun x => existsb (f x) m) l.
Lemma meets_not : forall f l m x y, meets f l m = false -> In x l -> In y m -> f x y = false.
Proof.
  intros f l m x y H X Y. destruct (f x y) eqn:E; [|reflexivity]. rewrite <- H. symmetry. unfold meets. apply existsb_exists. exists x.
  split; [exact X|]. apply existsb_exists. now exists y.
Qed.
(* no word of one key is a word of another, unless both do the same; none begins with no and the key of a flag *)
Definition check_keys : bool := all_pairs (fun x y =>
  (negb (meets sameword (words (parse (fst x))) (words (parse (fst y)))) || act_eqb (snd x) (snd y)) &&
  (negb (is_flag (snd y)) || negb (meets begins (words (no_key (fst y))) (words (parse (fst x)))))).
Definition check_no : bool := all_pairs (fun x y =>
  negb (is_flag (snd x)) ||
  (negb (meets sameword (words (no_key (fst x))) (words (parse (fst y)))) &&
   (negb (is_flag (snd y)) || negb (meets begins (words (no_key (fst y))) (words (no_key (fst x)))) || (String.eqb (fst x) (fst y) && act_eqb (snd x) (snd y))))).
Lemma keys_ok : check_keys = true. Proof. vm_compute. reflexivity. Qed.
Lemma nos_ok : check_no = true. Proof. vm_compute. reflexivity. Qed.
Lemma table_keys : forallb (fun x => keyok (fst x)) table = true. Proof. vm_compute. reflexivity. Qed.
Lemma key_ok : forall ka, In ka table -> keyok (fst ka) = true.
Proof. intros ka I. pose proof table_keys as H. rewrite forallb_forall in H. exact (H ka I). Qed.

Definition choice_keys (ka : string * act) : bool := match snd ka with Choice _ l => forallb (fun x => keyok (fst x)) l | _ => true end.
Lemma table_choices : forallb choice_keys table = true. Proof. vm_compute. reflexivity. Qed.
Lemma choice_key_ok : forall k v l, In (k, Choice v l) table -> Forall (fun x => keyok (fst x) = true) l.
Proof.
  intros k v l I. pose proof table_choices as H. rewrite forallb_forall in H. specialize (H _ I). cbn [choice_keys snd] in H.
  apply Forall_forall. intros x X. rewrite forallb_forall in H. now apply H.
Qed.
Local Opaque table.
Lemma sameword_refl : forall x, sameword x x = true.
Proof. intros x. unfold sameword. pose proof (begins_app x []) as H. rewrite app_nil_r in H. now rewrite H. Qed.
Lemma found_spelled : forall ci k r x, keyok k = true -> found ci (parse k) r = Some x ->
  exists w, spells ci (parse k) w /\ dropbl r = w ++ x /\ word_end x.
Proof.
  intros ci k r x K H. unfold found in H. destruct (mt ci (parse k) (dropbl r)) as [y|] eqn:E; [|discriminate H].
  destruct (fterm TERM (head y)) eqn:T; [|discriminate H]. injection H as ->. apply keyok_parts in K. destruct K as (W & _).
  destruct (mt_sound ci _ _ _ W E) as (w & S & D). exists w. split; [exact S|]. split; [exact D|now apply fterm_ok].
Qed.
Lemma found_word : forall ci k r w rest, keyok k = true -> spells ci (parse k) w -> dropbl r = w ++ rest -> word_end rest ->
  found ci (parse k) r = Some rest.
Proof.
  intros ci k r w rest K S D E. unfold found. apply keyok_parts in K. destruct K as (W & _). rewrite D, (mt_complete ci _ w rest W S E).
  apply fterm_ok in E. now rewrite E.
Qed.
Lemma spelled_inner : forall ci k w, keyok k = true -> spells ci (parse k) w -> Forall (fun c => inner c = true) w.
Proof. intros ci k w K. apply keyok_parts in K. destruct K as (W & _). now apply spells_inner. Qed.
(* a word of inner letters that is found by no key but those with the act a *)
Lemma not_missed : forall ci r ka, ~ misses ci r ka ->
  (exists x, found ci (parse (fst ka)) r = Some x) \/
  (found ci (parse (fst ka)) r = None /\ is_flag (snd ka) = true /\ exists x, mt ci (no_key (fst ka)) (dropbl r) = Some x).
Proof.
  intros ci r ka H. unfold misses in H. destruct (found ci (parse (fst ka)) r) as [x|]; [left; now exists x|]. right. split; [reflexivity|].
  destruct (is_flag (snd ka)); [|elim H; split; [reflexivity|discriminate]]. split; [reflexivity|].
  destruct (mt ci (no_key (fst ka)) (dropbl r)) as [x|]; [now exists x|]. elim H. split; reflexivity.
Qed.
Lemma no_prefix : forall ci k r w rest x, keyok k = true -> Forall (fun c => inner c = true) w -> dropbl r = w ++ rest -> word_end rest ->
  mt ci (no_key k) (dropbl r) = Some x -> exists u v, In (map to_lower u) (words (no_key k)) /\ w = u ++ v.
Proof.
  intros ci k r w rest x K I D E H. pose proof (no_wordy k K) as W. destruct (mt_sound ci _ _ _ W H) as (u & S & Du). rewrite D in Du.
  destruct (word_prefix w rest u x I E (spells_inner ci _ u W S) Du) as (v & ->). exists u, v. split; [now apply spells_words with ci|reflexivity].
Qed.
Lemma reach : forall line st r s k a w rest, vw line r s -> In (k, a) table -> spells (ci_of st) (parse k) w -> dropbl r = w ++ rest -> word_end rest ->
  exists k' l2 s0, keyok k' = true /\ found (ci_of st) (parse k') r = Some rest /\ vw line r s0 /\ pass rd st s = one_of rd ((k', a) :: l2) st s0.
Proof.
  intros line st r s k a w rest V I S D E. set (ci := ci_of st) in *. pose proof (key_ok _ I) as K. cbn [fst] in K.
  pose proof (found_word ci k r w rest K S D E) as F. pose proof (spelled_inner ci k w K S) as In1.
  destruct (first_hit ci r table) as (l1 & [k' a'] & l2 & T & M & N).
  { exists (k, a). split; [exact I|]. intros [A _]. cbn [fst] in A. rewrite F in A. discriminate A. }
  assert (I' : In (k', a') table) by (rewrite T; apply in_or_app; right; now left).
  pose proof (key_ok _ I') as K'. cbn [fst] in K'.
  assert (C := all_pairs_ok _ keys_ok (k, a) (k', a') I I'). cbn [fst snd] in C. apply andb_true_iff in C. destruct C as [C1 C2].
  destruct (not_missed ci r (k', a') N) as [(x & Fx)|(_ & B & x & Mx)]; cbn [fst snd] in *.
  - destruct (found_spelled ci k' r x K' Fx) as (w' & S' & D' & E'). rewrite D in D'.
    destruct (word_same w rest w' x In1 E (spelled_inner ci k' w' K' S') E' D') as [<- <-].
    apply orb_true_iff in C1. destruct C1 as [C1|C1].
    + exfalso. apply negb_true_iff in C1. pose proof (meets_not _ _ _ _ _ C1 (spells_words _ _ _ S) (spells_words _ _ _ S')) as Q.
      rewrite sameword_refl in Q. discriminate Q.
    + apply act_eqb_ok in C1. subst a'. destruct (one_of_skip line st r l1 ((k', a) :: l2) s V) as (s0 & E0 & V0).
      { apply Forall_forall. intros y Y. split; [apply key_ok; rewrite T; apply in_or_app; now left|]. rewrite Forall_forall in M. now apply M. }
      exists k', l2, s0. split; [exact K'|]. split; [exact Fx|]. split; [exact V0|]. unfold pass. now rewrite T.
  - exfalso. rewrite B in C2. cbn [negb orb] in C2. apply negb_true_iff in C2.
    destruct (no_prefix ci k' r w rest x K' In1 D E Mx) as (u & v & U & ->).
    pose proof (meets_not _ _ _ _ _ C2 U (spells_words _ _ _ S)) as Q. rewrite map_app, begins_app in Q. discriminate Q.
Qed.
Lemma reach_no : forall line st r s k v w rest, vw line r s -> In (k, Flag v) table -> spells (ci_of st) (no_key k) w -> dropbl r = w ++ rest -> word_end rest ->
  exists l2 s0, keyok k = true /\ found (ci_of st) (parse k) r = None /\ mt (ci_of st) (no_key k) (dropbl r) = Some rest /\ vw line r s0 /\
    pass rd st s = one_of rd ((k, Flag v) :: l2) st s0.
Proof.
  intros line st r s k v w rest V I S D E. set (ci := ci_of st) in *. pose proof (key_ok _ I) as K. cbn [fst] in K.
  pose proof (no_wordy k K) as W. pose proof (mt_complete ci _ w rest W S E) as F. rewrite <- D in F. pose proof (spells_inner ci _ w W S) as In1.
  destruct (first_hit ci r table) as (l1 & [k' a'] & l2 & T & M & N).
  { exists (k, Flag v). split; [exact I|]. intros [_ A]. cbn [fst snd is_flag] in A. rewrite F in A. specialize (A eq_refl). discriminate A. }
  assert (I' : In (k', a') table) by (rewrite T; apply in_or_app; right; now left).
  pose proof (key_ok _ I') as K'. cbn [fst] in K'.
  assert (C := all_pairs_ok _ nos_ok (k, Flag v) (k', a') I I'). cbn [fst snd is_flag negb orb] in C. apply andb_true_iff in C. destruct C as [C1 C2].
  destruct (not_missed ci r (k', a') N) as [(x & Fx)|(Fn & B & x & Mx)]; cbn [fst snd] in *.
  - exfalso. destruct (found_spelled ci k' r x K' Fx) as (w' & S' & D' & E'). rewrite D in D'.
    destruct (word_same w rest w' x In1 E (spelled_inner ci k' w' K' S') E' D') as [<- <-].
    apply negb_true_iff in C1. pose proof (meets_not _ _ _ _ _ C1 (spells_words _ _ _ S) (spells_words _ _ _ S')) as Q.
    rewrite sameword_refl in Q. discriminate Q.
  - rewrite B in C2. cbn [negb orb] in C2. apply orb_true_iff in C2. destruct C2 as [C2|C2].
    + exfalso. apply negb_true_iff in C2. destruct (no_prefix ci k' r w rest x K' In1 D E Mx) as (u & z & U & ->).
      pose proof (meets_not _ _ _ _ _ C2 U (spells_words _ _ _ S)) as Q. rewrite map_app, begins_app in Q. discriminate Q.
    + apply andb_true_iff in C2. destruct C2 as [Ek Ea]. apply String.eqb_eq in Ek. apply act_eqb_ok in Ea. subst k' a'.
      destruct (one_of_skip line st r l1 ((k, Flag v) :: l2) s V) as (s0 & E0 & V0).
      { apply Forall_forall. intros y Y. split; [apply key_ok; rewrite T; apply in_or_app; now left|]. rewrite Forall_forall in M. now apply M. }
      exists l2, s0. split; [exact K|]. split; [exact Fn|]. split; [exact F|]. split; [exact V0|]. unfold pass. now rewrite T.
Qed.

(* ---- any text ---- *)
Context (rd_stays : forall line r s l s', vw line r s -> rd s = Some (l, s') -> exists r', vw line r' s' /\ suffix r' r).
Definition shorter (r' r : list ascii) : Prop := suffix r' r /\ (List.length r' < List.length r)%nat.
Lemma found_shorter : forall ci k r x, keyok k = true -> found ci (parse k) r = Some x -> shorter x r.
Proof.
  intros ci k r x K H. destruct (found_spelled ci k r x K H) as (w & S & D & _).
  destruct (keyok_parts k K) as (_ & _ & c & p & P). rewrite P in S. destruct S as (d & w' & -> & _).
  assert (Sx : suffix (dropbl r) r) by apply suffix_drop. pose proof (suffix_len _ _ Sx) as L. rewrite D in *. split.
  - eapply suffix_trans; [|exact Sx]. now exists (d :: w').
  - cbn in L. rewrite app_length in L. lia.
Qed.
Lemma no_shorter : forall ci k r x, keyok k = true -> mt ci (no_key k) (dropbl r) = Some x -> shorter x r.
Proof.
  intros ci k r x K H. destruct (mt_sound ci _ _ _ (no_wordy k K) H) as (w & S & D).
  destruct S as (d & w' & -> & _).
  assert (Sx : suffix (dropbl r) r) by apply suffix_drop. pose proof (suffix_len _ _ Sx) as L. rewrite D in *. split.
  - eapply suffix_trans; [|exact Sx]. now exists (d :: w').
  - cbn in L. rewrite app_length in L. lia.
Qed.
Lemma shorter_trans : forall a b c, suffix a b -> shorter b c -> shorter a c.
Proof. intros a b c S [T L]. split; [now apply suffix_trans with b|]. apply suffix_len in S. lia. Qed.
Lemma suffix_past_eq : forall r, suffix (past_eq r) r.
Proof. intros [|c r]; [apply suffix_refl|]. cbn. destruct (Ascii.eqb c "="); [now exists [c]|apply suffix_refl]. Qed.
Lemma suffix_after_eq : forall r, suffix (after_eq r) r.
Proof.
  intros r. unfold after_eq. eapply suffix_trans; [apply suffix_eat1b|]. eapply suffix_trans; [apply suffix_past_eq|apply suffix_drop].
Qed.
Lemma suffix_after_word : forall r, suffix (after_word r) r.
Proof. intros r. unfold after_word. eapply suffix_trans; [apply suffix_eat1b|apply suffix_drop]. Qed.
Lemma conv_some : forall T line cond f (g : T -> ascii -> option T), f NUL = false -> (forall r s, vw line r s -> cond s = Some (f (head r))) ->
  forall n v r s v' s', vw line r s -> conv_loop n cond g v s = Some (v', s') -> exists r', vw line r' s' /\ suffix r' r.
Proof.
  intros T line cond f g N C n. induction n as [|n IH]; intros v r s v' s' V H; [discriminate H|]. cbn [conv_loop] in H.
  rewrite (C r s V) in H. cbn [bind] in H. destruct (f (head r)) eqn:F; [|injection H as <- <-; exists r; split; [exact V|apply suffix_refl]].
  destruct r as [|c r]; [cbn in F; congruence|]. destruct (ctoc_vw _ _ _ _ V) as (s1 & E1 & V1 & _). rewrite E1 in H. cbn [bind] in H.
  destruct (g v c) as [v1|]; [|discriminate H]. cbn [bind] in H. destruct (IH _ _ _ _ _ V1 H) as (r' & V' & S). exists r'. split; [exact V'|].
  now apply suffix_cons.
Qed.
Lemma ctoo_some : forall line r s v s', vw line r s -> ctoo s = Some (v, s') -> exists r', vw line r' s' /\ suffix r' r.
Proof.
  intros line r s v s' V H. unfold ctoo in H. destruct (skipbl_vw _ _ _ V) as (s1 & E1 & V1 & _). rewrite E1 in H. cbn [bind] in H. unfold conv in H.
  destruct (conv_loop (rounds s1) is_digit (int_digit 8) 0%Z s1) as [[v2 s2]|] eqn:E2; [|discriminate H]. cbn [bind] in H.
  destruct (conv_some _ line is_digit fdigit (int_digit 8) eq_refl (is_digit_vw line) _ _ _ _ _ _ V1 E2) as (r2 & V2 & S2).
  destruct (skipcom_vw _ _ _ V2) as (s3 & E3 & V3 & _). rewrite E3 in H. cbn [bind] in H. injection H as <- <-.
  exists (dropcom r2). split; [now apply vw_ok|]. eapply suffix_trans; [apply suffix_eat1b|]. eapply suffix_trans; [exact S2|apply suffix_drop].
Qed.
Lemma ctou_some : forall line r s v s', vw line r s -> ctou s = Some (v, s') -> exists r', vw line r' s' /\ suffix r' r.
Proof.
  intros line r s v s' V H. destruct (ctou_vw _ _ _ V) as (s1 & E1 & V1 & _). rewrite E1 in H. injection H as <- <-.
  exists (uns_rest fdigit r). split; [exact V1|]. eapply suffix_trans; [apply suffix_uns_rest|apply suffix_drop].
Qed.
(* one line of the table: it says no and changes nothing, or says yes and has moved on *)
Definition outcome_ok (line r : list ascii) (st : opts) (x : bool * opts * cs) : Prop :=
  match x with (b, st', s') => exists r', vw line r' s' /\ if b then shorter r' r else suffix r' r /\ st' = st end.
Lemma choose_any : forall line v l st r s, Forall (fun x => keyok (fst x) = true) l -> vw line r s -> ends False (outcome_ok line r st) (choose v l st s).
Proof.
  intros line v l st r s F. revert s. induction F as [|[k z] l K F IH]; intros s V; cbn [choose].
  - cbn [ends outcome_ok]. exists r. split; [exact V|]. split; [apply suffix_refl|reflexivity].
  - cbn [fst] in K. destruct (key_blank (ci_of st) line k r s K V) as (s1 & E1 & H1). rewrite E1. cbn [txt obind].
    destruct (found (ci_of st) (parse k) r) as [x|] eqn:Fx; destruct H1 as [O1 V1]; rewrite O1; [|now apply IH].
    cbn [ends outcome_ok]. exists (after_word x). split; [exact V1|]. apply shorter_trans with x; [apply suffix_after_word|now apply found_shorter with (ci_of st) k].
Qed.
Lemma read_any : forall A B line r (x : option (A * cs)) (f : A -> cs -> out B) P,
  (forall a s', x = Some (a, s') -> exists r', vw line r' s' /\ suffix r' r) ->
  (forall a s' r', vw line r' s' -> suffix r' r -> ends False P (f a s')) -> ends False P (do (a, s) <- txt x; f a s).
Proof. intros A B line r [[a s]|] f P H K; cbn [txt obind]; [|exact I]. destruct (H a s eq_refl) as (r' & V & S). now apply K with r'. Qed.
Lemma entry_any : forall line k a st r s, In (k, a) table -> vw line r s -> ends False (outcome_ok line r st) (entry rd k a st s).
Proof.
  intros line k a st r s I V. pose proof (key_ok _ I) as K. cbn [fst] in K.
  destruct (key_eq (ci_of st) line k r s K V) as (s1 & E1 & H1).
  destruct (key_blank (ci_of st) line k r s K V) as (s2 & E2 & H2).
  assert (Miss : forall s', vw line r s' -> ends False (outcome_ok line r st) (Done (false, st, s'))).
  { intros s' V'. cbn [ends outcome_ok]. exists r. split; [exact V'|]. split; [apply suffix_refl|reflexivity]. }
  destruct (found (ci_of st) (parse k) r) as [x|] eqn:F.
  - pose proof (found_shorter _ _ _ _ K F) as Sx. destruct H1 as [O1 V1]. destruct H2 as [O2 V2].
    pose proof (shorter_trans _ _ _ (suffix_after_eq x) Sx) as S1. pose proof (shorter_trans _ _ _ (suffix_after_word x) Sx) as S2.
    assert (Y : forall st' s' r', vw line r' s' -> suffix r' (after_eq x) -> ends False (outcome_ok line r st) (Done (true, st', s'))).
    { intros st' s' r' V' S'. cbn [ends outcome_ok]. exists r'. split; [exact V'|]. now apply shorter_trans with (after_eq x). }
    assert (Num : forall u (f : Q -> cs -> out (bool * opts * cs)), (forall q s' r', vw line r' s' -> suffix r' (after_eq x) -> ends False (outcome_ok line r st) (f q s')) ->
      ends False (outcome_ok line r st) (do (q, s) <- txt (ctof u s1); f q s)).
    { intros u f Hf. apply read_any with (line := line) (r := after_eq x); [|exact Hf]. intros q s' Eq. exact (ctof_some _ _ _ _ _ _ V1 Eq). }
    assert (Tr : forall q (f : Z -> out (bool * opts * cs)), (forall z, ends False (outcome_ok line r st) (f z)) ->
      ends False (outcome_ok line r st) (do z <- to_int q; f z)).
    { intros q f Hf. unfold to_int. cbv zeta. destruct (_ && _); cbn [obind]; [apply Hf|exact Logic.I]. }
    destruct a; unfold entry; cbv zeta; try (rewrite E1; cbn [txt obind]; rewrite O1).
    + rewrite E2. cbn [txt obind]. rewrite O2. destruct (skip1bc_vw line (after_word x) s2 "=") as (s3 & E3 & V3 & _ & O3); [discriminate|exact V2|].
      rewrite E3. cbn [txt obind]. assert (S3 : suffix (eat1b (fun c => Ascii.eqb c "=") (after_word x)) (after_word x)) by apply suffix_eat1b.
      destruct (ok s3).
      * destruct (ctob_safe (ci_of st) line _ s3 V3) as (b & s4 & r4 & E4 & V4 & S4 & _). rewrite E4. cbn [txt obind ends outcome_ok].
        exists r4. split; [exact V4|]. apply shorter_trans with (after_word x); [|exact S2].
        eapply suffix_trans; [exact S4|]. eapply suffix_trans; [apply suffix_drop|exact S3].
      * cbn [ends outcome_ok]. eexists. split; [exact V3|]. now apply shorter_trans with (after_word x).
    + apply Num. intros. apply Tr. intros. now apply Y with r'.
    + apply read_any with (line := line) (r := after_eq x); [intros ? ? Eq; exact (ctoo_some _ _ _ _ _ V1 Eq)|]. intros. now apply Y with r'.
    + apply read_any with (line := line) (r := after_eq x); [intros ? ? Eq; exact (ctou_some _ _ _ _ _ V1 Eq)|]. intros. now apply Y with r'.
    + apply Num. intros. now apply Y with r'.
    + apply Num. intros. now apply Y with r'.
    + apply Num. intros. apply Tr. intros. now apply Y with r'.
    + rewrite E2. cbn [txt obind]. rewrite O2. cbn [ends outcome_ok]. exists (after_word x). split; [exact V2|exact S2].
    + apply ends_imp with False (outcome_ok line (after_eq x) st); [|auto|].
      * apply choose_any; [now apply choice_key_ok with k v|exact V1].
      * intros [[b st'] s'] (r' & V' & H'). exists r'. split; [exact V'|]. destruct b.
        { apply shorter_trans with (after_eq x); [apply H'|exact S1]. }
        { split; [|apply H']. apply suffix_trans with (after_eq x); [apply H'|apply S1]. }
    + apply read_any with (line := line) (r := after_eq x); [intros ? ? Eq; exact (rd_stays _ _ _ _ _ V1 Eq)|]. intros. now apply Y with r'.
  - destruct H1 as [O1 V1]. destruct H2 as [O2 V2].
    destruct a; unfold entry; cbv zeta; try (rewrite E1; cbn [txt obind]; rewrite O1; now apply Miss).
    + rewrite E2. cbn [txt obind]. rewrite O2. destruct (key_no (ci_of st) line k r s2 K V2) as (s3 & E3 & H3). rewrite E3. cbn [txt obind].
      destruct (mt (ci_of st) (no_key k) (dropbl r)) as [x|] eqn:Fx; destruct H3 as [O3 V3]; rewrite O3; [|now apply Miss].
      cbn [ends outcome_ok]. exists (dropcom x). split; [exact V3|]. apply shorter_trans with x; [apply suffix_eat1b|now apply no_shorter with (ci_of st) k].
    + rewrite E2. cbn [txt obind]. rewrite O2. now apply Miss.
Qed.
(* one pass: nothing changes, or the cursor has moved on; if there is text it moves on *)
Definition pass_ok (line r : list ascii) (st : opts) (x : opts * cs) : Prop :=
  match x with (st', s') => exists r', vw line r' s' /\ suffix r' r /\ (List.length r' = List.length r -> st' = st) /\
    (head (dropbl r) <> NUL -> (List.length r' < List.length r)%nat) end.
Lemma last_ok : forall line st r r0 s, vw line r s -> suffix r r0 -> ends False (pass_ok line r0 st) (one_of rd [] st s).
Proof.
  intros line st r r0 s V S. cbn [one_of]. destruct (check_any (ci_of st) line r s V) as (s1 & E1 & [(r1 & V1 & S1)|D1]); rewrite E1; cbn [txt obind].
  - destruct (skiparg_vw line r1 s1 V1) as (s2 & r2 & E2 & V2 & S2 & _ & L2). rewrite E2. cbn [txt obind ends pass_ok].
    exists r2. split; [exact V2|]. assert (S02 : suffix r2 r0) by (eapply suffix_trans; [exact S2|]; now apply suffix_trans with r).
    split; [exact S02|]. split; [reflexivity|]. intros N.
    apply suffix_len in S1. apply suffix_len in S2. pose proof (suffix_len _ _ S) as S3.
    destruct (Nat.eq_dec (List.length r2) (List.length r0)) as [Eq|]; [|lia]. exfalso.
    assert (Er : r1 = r0).
    { apply suffix_same; [|lia]. destruct S as (a & ->). assert (a = []) as ->.
      { destruct a; [reflexivity|]. cbn in *. rewrite app_length in *. lia. }
      cbn [app] in *. assert (H1 : List.length r1 = List.length r) by lia. clear -S2 V1 V H1 L2 E1 S1.
      destruct (check_any (ci_of st) line r s V) as (s1' & E1' & [(r1' & V1' & S1')|D1']); rewrite E1 in E1'; injection E1' as <-.
      - rewrite (vw_fun _ _ _ _ V1 V1'). exact S1'.
      - exfalso. destruct (more_vw _ _ _ V1) as (z & Ez & _). rewrite Ez in D1'. discriminate D1'. }
    subst r1. specialize (L2 N). lia.
  - rewrite (skiparg_dead _ D1). exact I.
Qed.
Lemma one_of_any : forall line st r0 l r s, (forall x, In x l -> In x table) -> vw line r s -> suffix r r0 -> ends False (pass_ok line r0 st) (one_of rd l st s).
Proof.
  intros line st r0 l. induction l as [|[k a] l IH]; intros r s T V S; [now apply last_ok with r|].
  cbn [one_of]. apply ends_bind with (P := outcome_ok line r st); [apply entry_any; [apply T; now left|exact V]|].
  intros [[b st'] s'] (r' & V' & H). destruct b.
  - cbn [ends pass_ok]. exists r'. split; [exact V'|]. destruct (shorter_trans _ _ _ (suffix_refl r') H) as [A L]. apply suffix_len in S as L0.
    split; [now apply suffix_trans with r|]. split; [lia|]. intros _. lia.
  - destruct H as [S' ->]. apply IH with r'; [intros x X; apply T; now right|exact V'|now apply suffix_trans with r].
Qed.
Lemma pass_any : forall line st r s, vw line r s -> ends False (pass_ok line r st) (pass rd st s).
Proof. intros line st r s V. apply one_of_any with r; [auto|exact V|apply suffix_refl]. Qed.
End E.
