(* C79: the command delete removes the cards named and no others *)
Require Import String Ascii List Bool ZArith Lia.
Require Import Verif.Loops Verif.Wmatch_Model Verif.CS_Model Verif.CS_Proofs Verif.CS_Ops Verif.CS_Word Verif.Verilog_Proofs Verif.Probes_Model Verif.Probes_Text Verif.Probes_Canon.
Require Verif.P_Wmatch.
Require Import Verif.Delete_Model Verif.Delete_Proofs.
Import ListNotations.
Local Open Scope list_scope.

(* ---- vocabulary ---- *)
(* the card has that name, up to case if case does not matter *)
Definition named (ci : bool) (nm : list ascii) (c : card) : Prop := Forall2 (CS_Word.same_char ci) (label c) nm.
Definition nobody (ci : bool) (nm : list ascii) (l : list card) : Prop := Forall (fun c => ~ named ci nm c) l.
Definition simple (nm : list ascii) : Prop := ~ In "."%char nm.
Definition patterned (nm : list ascii) : Prop := In "*"%char nm \/ In "?"%char nm.
(* what may be left: some cards gone, here or inside cards that are no devices; the rest as before and in order *)
Inductive part_of : list card -> list card -> Prop :=
| p_nil : part_of [] []
| p_keep : forall c a b, part_of a b -> part_of (c :: a) (c :: b)
| p_drop : forall c a b, part_of a b -> part_of a (c :: b)
| p_inside : forall n i l' l a b, part_of l' l -> part_of a b -> part_of (Card n i false (Some l') :: a) (Card n i false (Some l) :: b).
(* exactly one card gone *)
Inductive one_less : list card -> list card -> Prop :=
| o_here : forall c b, one_less b (c :: b)
| o_later : forall c a b, one_less a b -> one_less (c :: a) (c :: b)
| o_inside : forall n i l' l b, one_less l' l -> one_less (Card n i false (Some l') :: b) (Card n i false (Some l) :: b).

Lemma named_ok : forall ci nm c, same_name ci (label c) nm = true <-> named ci nm c.
Proof. intros. apply same_name_ok. Qed.
Lemma not_named : forall ci nm c, same_name ci (label c) nm = false <-> ~ named ci nm c.
Proof.
  intros ci nm c. rewrite <- named_ok. now rewrite not_true_iff_false.
Qed.
Lemma nobody_ok : forall ci nm l, Forall (fun x => same_name ci (label x) nm = false) l <-> nobody ci nm l.
Proof. intros ci nm l. unfold nobody. split; intros F; (eapply Forall_impl; [|exact F]); intros a H; now apply not_named. Qed.
Lemma part_refl : forall l, part_of l l.
Proof. induction l; now constructor. Qed.

(* ---- a plain name: the first card of that name, and only that one ---- *)
Theorem C79_exact : forall ci nm pre c post, simple nm -> ~ patterned nm -> nobody ci nm pre -> named ci nm c ->
  delete_one_name ci nm (pre ++ c :: post) = Done (true, pre ++ post).
Proof.
  intros ci nm pre c post S W N M. rewrite delete_step. apply cut_first_none in S. rewrite S.
  assert (Ew : wild nm = false). { destruct (wild nm) eqn:E; [|reflexivity]. elim W. now apply wild_ok. }
  rewrite Ew, (find_is ci nm pre c post); [reflexivity|now apply named_ok|now apply nobody_ok].
Qed.
Theorem C79_unknown : forall ci nm l, simple nm -> ~ patterned nm -> nobody ci nm l -> delete_one_name ci nm l = Done (false, l).
Proof.
  intros ci nm l S W N. rewrite delete_step. apply cut_first_none in S. rewrite S.
  assert (Ew : wild nm = false). { destruct (wild nm) eqn:E; [|reflexivity]. elim W. now apply wild_ok. }
  rewrite Ew, find_isnt; [reflexivity|now apply nobody_ok].
Qed.

(* ---- a pattern: all that fit, and only those ---- *)
Theorem C79_pattern : forall ci nm l, simple nm -> patterned nm ->
  exists d l', delete_one_name ci nm l = Done (d, l') /\ part_of l' l /\
    (forall c, In c l' <-> In c l /\ wmatch ci (label c) nm = false) /\
    (d = true <-> exists c, In c l /\ wmatch ci (label c) nm = true).
Proof.
  intros ci nm l S W. rewrite delete_step. apply cut_first_none in S. rewrite S. apply wild_ok in W. rewrite W, erase_wild_is.
  eexists _, _. split; [reflexivity|]. split; [|split].
  - clear. induction l as [|c l IH]; [constructor|]. cbn [filter]. destruct (wmatch ci (label c) nm); now constructor.
  - intros c. rewrite filter_In. now destruct (wmatch ci (label c) nm).
  - rewrite existsb_exists. reflexivity.
Qed.
(* the same in terms of the meaning of the pattern: ? stands for one character, * for any number of them *)
Theorem C79_pattern_means : forall ci nm l d l', simple nm -> patterned nm -> ~ P_Wmatch.ends_in_star nm -> Forall (fun c => P_Wmatch.no_star (label c)) l ->
  delete_one_name ci nm l = Done (d, l') -> forall c, In c l -> (~ In c l' <-> P_Wmatch.glob (P_Wmatch.same_char ci) (label c) nm).
Proof.
  intros ci nm l d l' S W Ns F E c I. destruct (C79_pattern ci nm l S W) as (d2 & l2 & E2 & _ & H & _). rewrite E in E2. injection E2 as <- <-.
  rewrite <- (P_Wmatch.C13_wildcard_exact ci (label c) nm); [|exact (proj1 (Forall_forall _ _) F c I)|exact Ns].
  rewrite H. destruct (wmatch ci (label c) nm); split; intros X; try reflexivity; try discriminate X; [intros [_ Y]; discriminate Y|].
  elim X. now split.
Qed.

(* ---- a dotted name: inside the subcircuit of that name, with the subcircuit first or last ---- *)
Theorem C79_inside : forall ci box nm pre n i l post, simple box -> nobody ci box pre -> named ci box (Card n i false (Some l)) ->
  delete_one_name ci (box ++ "."%char :: nm) (pre ++ Card n i false (Some l) :: post) =
  do (d, l') <- delete_one_name ci nm l; Done (d, pre ++ Card n i false (Some l') :: post).
Proof.
  intros ci box nm pre n i l post S N M. rewrite delete_step, (cut_first_is box nm S), (find_is ci box pre _ post); [reflexivity|now apply named_ok|now apply nobody_ok].
Qed.
Theorem C79_inside_last : forall ci first rest whole box nm pre n i l post,
  whole = first ++ "."%char :: rest -> simple first -> nobody ci first (pre ++ Card n i false (Some l) :: post) ->
  whole = nm ++ "."%char :: box -> simple box -> nobody ci box pre -> named ci box (Card n i false (Some l)) ->
  delete_one_name ci whole (pre ++ Card n i false (Some l) :: post) =
  do (d, l') <- delete_one_name ci nm l; Done (d, pre ++ Card n i false (Some l') :: post).
Proof.
  intros ci first rest whole box nm pre n i l post E1 S1 N1 E2 S2 N2 M. rewrite delete_step. rewrite E1 at 1. rewrite (cut_first_is first rest S1).
  rewrite find_isnt by now apply nobody_ok. rewrite E2, (cut_last_is nm box S2), (find_is ci box pre _ post); [reflexivity|now apply named_ok|now apply nobody_ok].
Qed.
(* no card of either name, or a device: no match, and nothing changes *)
Theorem C79_outside : forall ci first rest nm last l,
  first ++ "."%char :: rest = nm ++ "."%char :: last -> simple first -> simple last ->
  nobody ci first l -> nobody ci last l -> delete_one_name ci (first ++ "."%char :: rest) l = Done (false, l).
Proof.
  intros ci first rest nm last l E S1 S2 N1 N2. rewrite delete_step, (cut_first_is first rest S1), find_isnt by now apply nobody_ok.
  rewrite E, (cut_last_is nm last S2), find_isnt by now apply nobody_ok. reflexivity.
Qed.
Theorem C79_instance : forall ci box nm pre c post, simple box -> nobody ci box pre -> named ci box c -> device c = true ->
  delete_one_name ci (box ++ "."%char :: nm) (pre ++ c :: post) = Done (false, pre ++ c :: post).
Proof.
  intros ci box nm pre c post S N M D. rewrite delete_step, (cut_first_is box nm S), (find_is ci box pre c post); [|now apply named_ok|now apply nobody_ok].
  cbn [fst snd]. now rewrite D.
Qed.

(* ---- for every name ---- *)
Lemma part_app : forall a a' b b', part_of a' a -> part_of b' b -> part_of (a' ++ b') (a ++ b).
Proof.
  intros a a' b b' H K. induction H as [|c a1 b1 H IH|c a1 b1 H IH|n i l' l a1 b1 H _ H2 IH]; cbn [app]; [exact K|now constructor|now constructor|now constructor].
Qed.
Lemma one_app : forall a b' b, one_less b' b -> one_less (a ++ b') (a ++ b).
Proof. intros a b' b H. induction a as [|c a IH]; [exact H|]. cbn [app]. now constructor. Qed.
Lemma all_names : forall ci n nm scope d l, delete_one ci n nm scope = Done (d, l) ->
  part_of l scope /\ (d = false -> l = scope) /\ (d = true -> ~ patterned nm -> one_less l scope) /\
  (d = true -> (List.length l < List.length scope)%nat \/ In "."%char nm).
Proof.
  intros ci n. induction n as [|n IH]; intros nm scope d l H; [discriminate H|]. cbn [delete_one] in H.
  destruct (cut_first nm) as [[ct dev]|] eqn:Ec.
  2:{ destruct (wild nm) eqn:Ew.
      - rewrite erase_wild_is in H. injection H as <- <-. split; [|split; [|split]].
        + clear. induction scope as [|c l IH]; [constructor|]. cbn [filter]. destruct (wmatch ci (label c) nm); now constructor.
        + clear. induction scope as [|c l IH]; [reflexivity|]. cbn [existsb filter]. intros H. apply orb_false_iff in H. destruct H as [H1 H2]. rewrite H1. cbn [negb]. now rewrite IH.
        + intros _ W. elim W. now apply wild_ok.
        + intros E. left. revert E. assert (Le : forall l, (List.length (filter (fun c => negb (wmatch ci (label c) nm)) l) <= List.length l)%nat).
          { induction l as [|c l IHl]; cbn [filter List.length]; [lia|]. destruct (wmatch ci (label c) nm); cbn [negb List.length]; lia. }
          clear -Le. induction scope as [|c l IH]; [discriminate|]. cbn [existsb filter List.length]. destruct (wmatch ci (label c) nm); cbn [orb negb List.length]; intros E; [pose proof (Le l); lia|].
          specialize (IH E). lia.
      - destruct (find_card ci nm scope) as [[[a c] b]|] eqn:Ef; injection H as <- <-.
        + destruct (find_some _ _ _ _ _ _ Ef) as (-> & _ & _). split; [|split; [|split]].
          * apply part_app; [apply part_refl|]. constructor. apply part_refl.
          * discriminate.
          * intros _ _. apply one_app. constructor.
          * intros _. left. rewrite !app_length. cbn [List.length]. lia.
        + split; [apply part_refl|]. split; [reflexivity|]. split; discriminate. }
  apply cut_first_some in Ec. destruct Ec as [En _].
  assert (Id : In "."%char nm) by (rewrite En; apply in_or_app; right; now left).
  assert (K : forall x dv, (forall a c b, x = Some (a, c, b) -> scope = a ++ c :: b) -> (patterned dv -> patterned nm) ->
     match x with
     | None => Done (false, scope)
     | Some (a, c, b) => if device c then Done (false, scope) else match sub c with
        | None => Assert | Some l => do (d, l) <- delete_one ci n dv l; Done (d, a ++ with_sub c l :: b) end end = Done (d, l) ->
     part_of l scope /\ (d = false -> l = scope) /\ (d = true -> ~ patterned nm -> one_less l scope)).
  { intros x dv Hx Hd E. destruct x as [[[a c] b]|].
    2:{ injection E as <- <-. split; [apply part_refl|]. split; [reflexivity|discriminate]. }
    rewrite (Hx a c b eq_refl) in *. destruct (device c) eqn:Dc.
    { injection E as <- <-. split; [apply part_refl|]. split; [reflexivity|discriminate]. }
    destruct (sub c) as [l0|] eqn:Sc; [|discriminate E]. destruct c as [nn i dd ss]. cbn [device sub] in Dc, Sc. subst dd ss.
    destruct (delete_one ci n dv l0) as [[d1 l1]| | |] eqn:Ed; try discriminate E. cbn [obind with_sub] in E. injection E as <- <-.
    destruct (IH dv l0 d1 l1 Ed) as (P1 & P2 & P3 & _). split; [|split].
    - apply part_app; [apply part_refl|]. apply p_inside; [exact P1|apply part_refl].
    - intros Z. now rewrite (P2 Z).
    - intros Z W. apply one_app. apply o_inside. apply P3; [exact Z|]. intros X. apply W. now apply Hd. }
  assert (Hf : forall ct a c b, find_card ci ct scope = Some (a, c, b) -> scope = a ++ c :: b) by (intros ct0 a c b X; now apply find_some in X).
  assert (R : part_of l scope /\ (d = false -> l = scope) /\ (d = true -> ~ patterned nm -> one_less l scope)).
  { destruct (find_card ci ct scope) as [x|] eqn:Ef.
    - apply (K (Some x) dev); [intros a c b [= ->]; now apply (Hf ct)| |exact H]. unfold patterned. rewrite En. rewrite !in_app_iff. cbn [In]. tauto.
    - destruct (cut_last nm) as [[dv ct']|] eqn:El.
      + apply cut_last_some in El. destruct El as [En' _]. apply (K (find_card ci ct' scope) dv); [intros a c b X; now apply (Hf ct')| |exact H].
        unfold patterned. rewrite En'. rewrite !in_app_iff. cbn [In]. tauto.
      + apply (K None dev); [discriminate| |exact H]. unfold patterned. rewrite En. rewrite !in_app_iff. cbn [In]. tauto. }
  destruct R as (R1 & R2 & R3). split; [exact R1|]. split; [exact R2|]. split; [exact R3|]. intros _. now right.
Qed.
(* nothing is added, moved or renamed, and nothing inside a device is touched; no match means no change; and a name
   without a pattern takes away exactly one card *)
Theorem C79_only : forall ci nm scope d l, delete_one_name ci nm scope = Done (d, l) ->
  part_of l scope /\ (d = false -> l = scope) /\ (d = true -> ~ patterned nm -> one_less l scope).
Proof. intros ci nm scope d l H. destruct (all_names _ _ _ _ _ _ H) as (A & B & C & _). auto. Qed.
(* it fails only for a dotted name *)
Theorem C79_done : forall ci nm scope, simple nm -> exists d l, delete_one_name ci nm scope = Done (d, l).
Proof.
  intros ci nm scope S. destruct (delete_name_ends ci (Datatypes.S (List.length nm)) nm scope) as [H|[_ I]]; [lia|exact H|contradiction].
Qed.

(* ---- the command ---- *)
(* a name that can be written as it is: visible characters that end no word, not beginning with a quote *)
Definition writable (w : list ascii) : Prop :=
  w <> [] /\ Forall (fun c => isgraph c = true /\ ~ In c (str ",=(){};")) w /\ ~ In (hd NUL w) ["034"%char; "'"%char].
(* spaces, or a comma with spaces around it; not empty *)
Definition gap (t : list ascii) : Prop := sep t /\ t <> [].
(* names with something between them *)
Inductive listed : list (list ascii) -> list ascii -> Prop :=
| l_none : listed [] []
| l_last : forall w, writable w -> listed [w] w
| l_more : forall w t ws r, writable w -> gap t -> listed ws r -> listed (w :: ws) (w ++ t ++ r).
(* one after the other *)
Fixpoint in_turn (ci : bool) (ws : list (list ascii)) (scope : list card) : out (list card * list bool) :=
  match ws with
  | [] => Done (scope, [])
  | w :: ws => do (d, scope) <- delete_one_name ci w scope; do (scope, l) <- in_turn ci ws scope; Done (scope, d :: l)
  end.

Lemma graph_ok : forall c, isgraph c = true -> ~ In c (str ",=(){};") -> fterm TERM c = false.
Proof. intros [[] [] [] [] [] [] [] []]; vm_compute; intros G H; try discriminate G; try reflexivity; exfalso; apply H; tauto. Qed.
Lemma writable_head : forall w, writable w -> exists c q, w = c :: q /\ isgraph c = true /\ ~ In c (str ",=(){};") /\ ~ In c QB.
Proof.
  intros [|c q] (N & F & Q); [contradiction|]. inversion_clear F as [|? ? [G T] _]. exists c, q. split; [reflexivity|]. split; [exact G|]. split; [exact T|].
  cbn [hd] in Q. intros [I|[I|[I|[]]]]; [apply Q; now left|apply Q; right; now left|]. apply T. subst c. cbn. tauto.
Qed.
Lemma gap_term : forall t r, gap t -> fterm TERM (CS_Proofs.head (t ++ r)) = true.
Proof.
  assert (Sp : forall c, isspace c = true -> fterm TERM c = true) by (intros [[] [] [] [] [] [] [] []]; vm_compute; congruence).
  intros t r [[S|(b1 & b2 & B1 & B2 & ->)] N].
  - destruct t as [|c t]; [contradiction|]. inversion_clear S as [|? ? H _]. now apply Sp.
  - destruct b1 as [|c b1]; [reflexivity|]. inversion_clear B1 as [|? ? H _]. now apply Sp.
Qed.
Lemma listed_firm : forall ws r, listed ws r -> firm r.
Proof.
  assert (W : forall w x, writable w -> firm (w ++ x)).
  { intros w x H. destruct (writable_head w H) as (c & q & -> & G & T & _). cbn [app]. apply firm_cons; [exact G|]. intros ->. apply T. now left. }
  intros ws r H. destruct H as [|w H|w t ws r H _ _]; [intros c q X; discriminate X| |now apply W]. rewrite <- (app_nil_r w). now apply W.
Qed.
Lemma read_word : forall line w x s, writable w -> fterm TERM (CS_Proofs.head x) = true -> vw line (w ++ x) s ->
  exists s', ctos TERM QB QE s = Some (w, s') /\ vw line (dropcom x) s'.
Proof.
  intros line w x s W T V. destruct (writable_head w W) as (c & q & Ew & G & _ & Q).
  destruct (ctos_plain line TERM QB QE w x _ s eq_refl V) as (s' & E & V' & _).
  - rewrite Ew. cbn [app]. now apply dropbl_graph.
  - destruct W as (_ & F & _). eapply Forall_impl; [|exact F]. intros a [A B]. now apply graph_ok.
  - exact T.
  - right. rewrite Ew. apply find_pos_out. exact Q.
  - exists s'. auto.
Qed.
Lemma graph_nul : forall c, isgraph c = true -> Ascii.eqb c NUL = false.
Proof. intros [[] [] [] [] [] [] [] []]; vm_compute; congruence. Qed.
Lemma names_run : forall ci line ws r, listed ws r -> forall n scope s, (List.length ws < n)%nat -> vw line r s -> names ci n scope s = in_turn ci ws scope.
Proof.
  intros ci line ws r H. induction H as [|w W|w t ws r W G Hl IH]; intros n scope s L V; (destruct n as [|n]; [cbn in L; lia|]); cbn [names in_turn].
  - destruct (more_vw _ _ _ V) as (s1 & E1 & _). rewrite E1. reflexivity.
  - destruct (more_vw _ _ _ V) as (s1 & E1 & V1 & _). destruct (writable_head w W) as (c & q & Ew & Gc & _).
    assert (D : dropbl w = w) by (rewrite Ew; now apply dropbl_graph). rewrite D in E1, V1.
    assert (Hn : negb (Ascii.eqb (CS_Proofs.head w) NUL) = true) by (rewrite Ew; change (CS_Proofs.head (c :: q)) with c; now rewrite graph_nul). rewrite Hn in E1.
    rewrite E1. cbn [txt obind]. destruct (read_word line w [] s1 W eq_refl) as (s2 & E2 & V2); [now rewrite app_nil_r|]. rewrite E2. cbn [txt obind].
    destruct (delete_one_name ci w scope) as [[d l]| | |]; cbn [obind]; try reflexivity.
    destruct n as [|n]; [cbn in L; lia|]. cbn [names]. destruct (more_vw _ _ _ V2) as (s3 & E3 & _). rewrite E3. reflexivity.
  - destruct (more_vw _ _ _ V) as (s1 & E1 & V1 & _). destruct (writable_head w W) as (c & q & Ew & Gc & _).
    assert (D : dropbl (w ++ t ++ r) = w ++ t ++ r) by (rewrite Ew; cbn [app]; now apply dropbl_graph). rewrite D in E1, V1.
    assert (Hn : negb (Ascii.eqb (CS_Proofs.head (w ++ t ++ r)) NUL) = true) by (rewrite Ew; change (CS_Proofs.head ((c :: q) ++ t ++ r)) with c; now rewrite graph_nul). rewrite Hn in E1.
    rewrite E1. cbn [txt obind]. destruct (read_word line w (t ++ r) s1 W (gap_term t r G) V1) as (s2 & E2 & V2). rewrite E2. cbn [txt obind].
    rewrite (dropcom_sep t r (proj1 G) (listed_firm _ _ Hl)) in V2.
    destruct (delete_one_name ci w scope) as [[d l]| | |]; cbn [obind]; try reflexivity. rewrite (IH n l s2); [reflexivity|cbn in L; lia|exact V2].
Qed.
Lemma eat_all_sound : forall ci m r x, eat_all ci m r = Some x -> exists m', Forall2 (CS_Word.same_char ci) m' m /\ r = m' ++ x.
Proof.
  intros ci m. induction m as [|c m IH]; intros r x H; cbn in H; [injection H as <-; exists []; split; [constructor|reflexivity]|].
  destruct r as [|k r]; [discriminate H|]. destruct (sameb ci k c) eqn:E; [|discriminate H].
  destruct (IH r x H) as (m' & F & ->). exists (k :: m'). split; [constructor; [now apply sameb_ok|assumption]|reflexivity].
Qed.
Lemma letter_term : forall ci k c, CS_Word.same_char ci k c -> In c (str "all") -> fterm TERM k = false.
Proof.
  assert (K : forall k, (to_lower k = "a"%char \/ to_lower k = "l"%char) -> fterm TERM k = false).
  { intros [[] [] [] [] [] [] [] []]; vm_compute; intros [H|H]; try discriminate H; reflexivity. }
  intros ci k c [->|[_ E]] I.
  - apply K. destruct I as [<-|[<-|[<-|[]]]]; vm_compute; auto.
  - apply K. rewrite E. destruct I as [<-|[<-|[<-|[]]]]; vm_compute; auto.
Qed.
(* the first word is not all *)
Lemma not_all : forall ci w x, Forall (fun c => fterm TERM c = false) w -> fterm TERM (CS_Proofs.head x) = true -> ~ Forall2 (CS_Word.same_char ci) w (str "all") ->
  starts ci (str "all") (w ++ x) = None.
Proof.
  intros ci w x F T N. unfold starts. destruct (eat_all ci (str "all") (w ++ x)) as [y|] eqn:E; [|reflexivity].
  apply eat_all_sound in E. destruct E as (m' & Fm & E). destruct (fterm TERM (CS_Proofs.head y)) eqn:Ty; [|reflexivity]. exfalso.
  assert (G : forall m w, Forall (fun c => fterm TERM c = false) w -> forall m', Forall2 (CS_Word.same_char ci) m' m -> (forall c, In c m -> In c (str "all")) ->
     w ++ x = m' ++ y -> Forall2 (CS_Word.same_char ci) w m).
  { clear -T Ty. intros m w F. revert m. induction F as [|c w Hc F IH]; intros m m' Fm A E.
    - destruct Fm as [|k c m' m Hk Fm]; [constructor|]. cbn [app] in E. rewrite E in T. change (CS_Proofs.head (k :: m' ++ y)) with k in T.
      rewrite (letter_term ci k c Hk) in T; [discriminate T|]. apply A. now left.
    - destruct Fm as [|k d m' m Hk Fm]; cbn [app] in E.
      + rewrite <- E in Ty. change (CS_Proofs.head (c :: w ++ x)) with c in Ty. congruence.
      + injection E as -> E. constructor; [exact Hk|]. apply (IH m m' Fm); [|exact E]. intros z I. apply A. now right. }
  apply N. apply (G _ w F m' Fm); auto.
Qed.

(* names one after the other, with spaces or commas between them *)
Theorem C79_list : forall ci n scope ws sp r, spaces sp -> listed ws r -> (List.length ws < n)%nat ->
  ~ Forall2 (CS_Word.same_char ci) (hd [] ws) (str "all") ->
  command ci n scope (cs_string (sp ++ r)) = in_turn ci ws scope.
Proof.
  intros ci n scope ws sp r Hs H L N. unfold command. pose proof (vw_start (sp ++ r)) as V.
  assert (Pl : Forall plain (str "all")) by (repeat constructor; try discriminate; intros I; cbn in I; intuition discriminate).
  destruct (umatch_blank ci _ _ _ (str "all") Pl V) as (s1 & E1 & U1). change (str "all" ++ [" "%char]) with (str "all ") in E1. rewrite E1. cbn [txt obind].
  assert (D : dropbl (sp ++ r) = r) by now apply dropbl_bl, (listed_firm ws).
  assert (X : starts ci (str "all") (dropbl (sp ++ r)) = None).
  { rewrite D. destruct H as [|w W|w t ws r W G Hl]; [reflexivity| |]; cbn [hd] in N.
    - rewrite <- (app_nil_r w). apply not_all; [|reflexivity|exact N]. destruct W as (_ & F & _). eapply Forall_impl; [|exact F]. intros a [A B]. now apply graph_ok.
    - apply not_all; [|now apply gap_term|exact N]. destruct W as (_ & F & _). eapply Forall_impl; [|exact F]. intros a [A B]. now apply graph_ok. }
  rewrite X in U1. destruct U1 as [O1 V1]. rewrite O1.
  destruct n as [|n]; [lia|]. cbn [names].
  destruct (more_vw _ _ _ V1) as (s2 & E2 & V2 & _). rewrite D in V2, E2.
  pose proof (names_run ci (sp ++ r) ws r H (Datatypes.S n) scope s2 L V2) as R. cbn [names] in R.
  destruct (more_vw _ _ _ V2) as (s3 & E3 & V3 & _). rewrite (dropbl_firm r (listed_firm _ _ H)) in E3, V3.
  rewrite E2. rewrite E3 in R. cbn [txt obind] in *. destruct (negb (Ascii.eqb (CS_Proofs.head r) NUL)) eqn:Eh; [clear R|exact R].
  destruct H as [|w W|w t ws r W G Hl]; [discriminate Eh| |].
  - destruct (read_word (sp ++ w) w [] s2 W eq_refl) as (s4 & E4 & V4); [now rewrite app_nil_r|].
    rewrite E4. cbn [txt obind in_turn]. destruct (delete_one_name ci w scope) as [[d l]| | |]; cbn [obind]; try reflexivity.
    rewrite (names_run ci (sp ++ w) [] [] l_none n l s4); [|cbn in L |- *; lia|exact V4]. reflexivity.
  - destruct (read_word _ w (t ++ r) s2 W (gap_term t r G) V2) as (s4 & E4 & V4). rewrite E4.
    rewrite (dropcom_sep t r (proj1 G) (listed_firm _ _ Hl)) in V4. cbn [txt obind in_turn].
    destruct (delete_one_name ci w scope) as [[d l]| | |]; cbn [obind]; try reflexivity.
    rewrite (names_run ci (sp ++ w ++ t ++ r) ws r Hl n l s4); [reflexivity|cbn in L; lia|exact V4].
Qed.
(* the word all takes everything *)
Theorem C79_all : forall ci n scope sp w rest, spaces sp -> Forall2 (CS_Word.same_char ci) w (str "all") -> word_end rest ->
  command ci n scope (cs_string (sp ++ w ++ rest)) = Done ([], []).
Proof.
  intros ci n scope sp w rest Hs Hw He. unfold command. pose proof (vw_start (sp ++ w ++ rest)) as V.
  assert (Pl : Forall plain (str "all")) by (repeat constructor; try discriminate; intros I; cbn in I; intuition discriminate).
  destruct (umatch_blank ci _ _ _ (str "all") Pl V) as (s1 & E1 & U1). change (str "all" ++ [" "%char]) with (str "all ") in E1. rewrite E1. cbn [txt obind].
  assert (Dw : dropbl (w ++ rest) = w ++ rest).
  { inversion Hw as [|k c w' m Hk Hr]; subst. cbn [app]. apply drop_idem. change (CS_Proofs.head (k :: w' ++ rest)) with k.
    assert (K : forall k, to_lower k = "a"%char -> fblank k = false) by (intros [[] [] [] [] [] [] [] []]; vm_compute; congruence).
    apply K. destruct Hk as [->|[_ E]]; [reflexivity|exact E]. }
  assert (X : starts ci (str "all") (dropbl (sp ++ w ++ rest)) = Some rest).
  { rewrite (Verif.P_Keyword.dropbl_app sp _ (space_blank _ Hs)), Dw. unfold starts. assert (A : forall m w, Forall2 (CS_Word.same_char ci) w m -> eat_all ci m (w ++ rest) = Some rest).
    { clear. intros m w F. induction F as [|k c w m Hk _ IH]; [reflexivity|]. cbn. apply sameb_ok in Hk. now rewrite Hk. }
    rewrite (A _ _ Hw). apply fterm_ok in He. now rewrite He. }
  rewrite X in U1. destruct U1 as [O1 _]. now rewrite O1.
Qed.

(* ---- does it end ---- *)
Definition stops : list ascii := str "=();}".
Lemma not_stop : forall c, ~ In c stops -> c <> NUL -> fblank c = false -> find_pos c QB <> None \/ fterm TERM c = false \/ c = ","%char.
Proof.
  intros [[] [] [] [] [] [] [] []]; vm_compute; intros H N B; try discriminate B; try (right; left; reflexivity); try (left; discriminate);
    try (right; right; reflexivity); exfalso; first [now apply N|apply H; tauto].
Qed.
(* every card that is no device has a list inside, at every level *)
Inductive boxed : list card -> Prop :=
| b_nil : boxed []
| b_dev : forall n i s l, boxed l -> boxed (Card n i true s :: l)
| b_box : forall n i l' l, boxed l' -> boxed l -> boxed (Card n i false (Some l') :: l).
Lemma boxed_app : forall a b, boxed (a ++ b) <-> boxed a /\ boxed b.
Proof.
  intros a b. induction a as [|c a IH]; cbn [app]; [split; [intros H; split; [constructor|exact H]|tauto]|]. split.
  - intros H. inversion H; subst; apply IH in H1 || apply IH in H3; split; try tauto; constructor; tauto.
  - intros [H K]. inversion H; subst; constructor; try assumption; apply IH; tauto.
Qed.
Lemma boxed_one : forall ci n nm scope, (List.length nm < n)%nat -> boxed scope -> exists d l, delete_one ci n nm scope = Done (d, l) /\ boxed l.
Proof.
  intros ci n. induction n as [|n IH]; intros nm scope L B; [lia|]. cbn [delete_one].
  destruct (cut_first nm) as [[ct dev]|] eqn:Ec.
  2:{ destruct (wild nm).
      - rewrite erase_wild_is. eexists _, _. split; [reflexivity|]. clear -B. induction B as [|m i s l B IH|m i l' l B1 IH1 B2 IH2]; cbn [filter]; [constructor| |].
        + destruct (negb (wmatch ci (label (Card m i true s)) nm)); [now constructor|exact IH].
        + destruct (negb (wmatch ci (label (Card m i false (Some l'))) nm)); [now constructor|exact IH2].
      - destruct (find_card ci nm scope) as [[[a c] b]|] eqn:Ef; [|eauto]. apply find_some in Ef. destruct Ef as (-> & _). eexists _, _. split; [reflexivity|].
        apply boxed_app in B. destruct B as [B1 B2]. apply boxed_app. split; [exact B1|]. now inversion B2. }
  apply cut_first_some in Ec. destruct Ec as [En _].
  assert (L1 : (List.length nm = List.length ct + Datatypes.S (List.length dev))%nat) by (rewrite En, app_length; reflexivity).
  assert (K : forall x dv, (forall a c b, x = Some (a, c, b) -> scope = a ++ c :: b) -> (List.length dv < n)%nat -> exists d l, match x with
     | None => Done (false, scope)
     | Some (a, c, b) => if device c then Done (false, scope) else match sub c with
        | None => Assert | Some l => do (d, l) <- delete_one ci n dv l; Done (d, a ++ with_sub c l :: b) end end = Done (d, l) /\ boxed l).
  { intros x dv Hx Ld. destruct x as [[[a c] b]|]; [|eauto]. rewrite (Hx a c b eq_refl) in *. apply boxed_app in B. destruct B as [B1 B2].
    inversion B2 as [|m i s l B3|m i l' l B3 B4]; subst; cbn [device sub].
    - eexists _, _. split; [reflexivity|]. apply boxed_app. auto.
    - destruct (IH dv l' Ld B3) as (d & l2 & E & B5). rewrite E. cbn [obind with_sub]. eexists _, _. split; [reflexivity|]. apply boxed_app. split; [exact B1|]. now constructor. }
  assert (Hf : forall ct a c b, find_card ci ct scope = Some (a, c, b) -> scope = a ++ c :: b) by (intros ct0 a c b X; now apply find_some in X).
  destruct (find_card ci ct scope) as [x|] eqn:Ef; [apply (K (Some x)); [intros a c b [= ->]; now apply (Hf ct)|lia]|].
  destruct (cut_last nm) as [[dv ct']|] eqn:El; [|apply (K None dev); [discriminate|lia]]. apply cut_last_some in El. destruct El as [En' _].
  assert (L' : (List.length nm = List.length dv + Datatypes.S (List.length ct'))%nat) by (rewrite En', app_length; reflexivity).
  apply (K (find_card ci ct' scope) dv); [intros a c b X; now apply (Hf ct')|lia].
Qed.
Lemma names_end : forall ci line n r scope s, Forall (fun c => ~ In c stops) r -> vw line r s -> (List.length r < n)%nat ->
  (exists l b, names ci n scope s = Done (l, b) /\ part_of l scope /\ (boxed scope -> boxed l)) \/ (names ci n scope s = Assert /\ ~ boxed scope).
Proof.
  assert (Tr : forall a b, part_of a b -> forall c, part_of b c -> part_of a c).
  { intros a b H c K. revert a H. induction K as [|x b c K IH|x b c K IH|m i l' l b c K1 IH1 K2 IH2]; intros a H; [exact H| | |].
    - inversion H as [|y a' b' H'|y a' b' H'|m i l' l a' b' H1 H']; subst; [apply p_keep; auto|apply p_drop; auto|apply p_inside; auto].
    - apply p_drop. auto.
    - inversion H as [|y a' b' H'|y a' b' H'|m' i' l1 l2 a' b' H1 H']; subst; [apply p_inside; auto|apply p_drop; auto|apply p_inside; auto]. }
  intros ci line n. induction n as [|n IH]; intros r scope s F V L; [lia|]. cbn [names].
  destruct (more_vw _ _ _ V) as (s1 & E1 & V1 & _). rewrite E1. cbn [txt obind].
  destruct (Ascii.eqb_spec (CS_Proofs.head (dropbl r)) NUL) as [En|En]; cbn [negb]; [left; eexists _, _; split; [reflexivity|split; [apply part_refl|auto]]|].
  destruct (ctos_any line (dropbl r) s1 TERM QB QE eq_refl) as (x & s2 & r2 & E2 & V2 & S2 & P2); [cbn; intuition discriminate|exact V1|].
  assert (D : dropbl (dropbl r) = dropbl r) by (apply drop_idem, dropbl_head). rewrite D in S2, P2.
  rewrite E2. cbn [txt obind].
  assert (Fd : Forall (fun c => ~ In c stops) (dropbl r)). { destruct (suffix_drop fblank r) as (a & Ea). rewrite Ea in F. apply Forall_app in F. apply F. }
  assert (L2 : (List.length r2 < List.length (dropbl r))%nat).
  { apply P2; [exact En|]. apply not_stop; [|exact En|apply dropbl_head]. destruct (CS_Proofs.head_cons _ En) as (c & q & Eq & Ec). rewrite Ec. rewrite Eq in Fd. now inversion_clear Fd. }
  assert (F2 : Forall (fun c => ~ In c stops) r2). { destruct S2 as (a & Ea). rewrite Ea in Fd. apply Forall_app in Fd. apply Fd. }
  pose proof (drop_len fblank r) as Ld. fold (dropbl r) in Ld.
  destruct (delete_name_ends ci (Datatypes.S (List.length x)) x scope) as [(d & l & Ed)|[Ed Id]]; [lia| |].
  - assert (Bl : boxed scope -> boxed l).
    { intros B. destruct (boxed_one ci (Datatypes.S (List.length x)) x scope) as (d3 & l3 & E3 & B3); [lia|exact B|]. rewrite Ed in E3. now injection E3 as _ <-. }
    fold (delete_one_name ci x scope) in Ed. rewrite Ed. cbn [obind].
    destruct (IH r2 l s2 F2 V2) as [(l2 & b2 & E3 & P3 & B3)|[E3 B3]]; [lia| |]; rewrite E3; cbn [obind].
    + left. eexists _, _. split; [reflexivity|]. split; [apply (Tr l2 l P3); now apply (C79_only ci x scope d l)|]. auto.
    + right. split; [reflexivity|]. auto.
  - right. split; [fold (delete_one_name ci x scope) in Ed; now rewrite Ed|]. intros B.
    destruct (boxed_one ci (Datatypes.S (List.length x)) x scope) as (d3 & l3 & E3 & B3); [lia|exact B|]. congruence.
Qed.
(* a line without any of = ( ) ; } comes to an end, and what is left is part of what there was; an assertion can fail
   only if some card that is no device has no list inside *)
Theorem C79_ends : forall ci scope line n, Forall (fun c => ~ In c stops) line -> (List.length line < n)%nat ->
  (exists l b, command ci n scope (cs_string line) = Done (l, b) /\ part_of l scope) \/ (command ci n scope (cs_string line) = Assert /\ ~ boxed scope).
Proof.
  intros ci scope line n F L. unfold command. pose proof (vw_start line) as V.
  assert (Pl : Forall plain (str "all")) by (repeat constructor; try discriminate; intros I; cbn in I; intuition discriminate).
  destruct (umatch_blank ci _ _ _ (str "all") Pl V) as (s1 & E1 & U1). change (str "all" ++ [" "%char]) with (str "all ") in E1. rewrite E1. cbn [txt obind].
  destruct (starts ci (str "all") (dropbl line)) as [x|]; destruct U1 as [O1 V1]; rewrite O1.
  - left. eexists _, _. split; [reflexivity|]. clear. induction scope; now constructor.
  - destruct (names_end ci line n line scope s1 F V1 L) as [(l & b & E & P & _)|H]; [left; eauto|now right].
Qed.
(* one of = ( ) ; } after a name: the command never ends *)
Lemma stuck : forall ci line c q n scope s, In c stops -> vw line (c :: q) s -> names ci n scope s = NoEnd.
Proof.
  intros ci line c q n. induction n as [|n IH]; intros scope s I V; [reflexivity|]. cbn [names].
  assert (K : fblank c = false /\ Ascii.eqb c NUL = false /\ fterm TERM c = true /\ find_pos c QB = None /\ isgraph c = true /\ c <> ","%char).
  { cbn in I. repeat destruct I as [<-|I]; try contradiction; repeat split; try reflexivity; discriminate. }
  destruct K as (K1 & K2 & K3 & K4 & K5 & K6). assert (D : dropbl (c :: q) = c :: q) by now apply dropbl_graph.
  destruct (more_vw _ _ _ V) as (s1 & E1 & V1 & _). rewrite D in E1, V1. change (CS_Proofs.head (c :: q)) with c in E1. rewrite K2 in E1. rewrite E1. cbn [txt obind negb].
  destruct (ctos_plain line TERM QB QE [] (c :: q) (c :: q) s1 eq_refl V1) as (s2 & E2 & V2 & _); [exact D|constructor|exact K3|right; exact K4|].
  rewrite (dropcom_firm (c :: q)) in V2 by now apply firm_cons. rewrite E2. cbn [txt obind].
  destruct (C79_done ci [] scope) as (d & l & Ed); [intros []|]. rewrite Ed. cbn [obind]. now rewrite (IH l s2 I V2).
Qed.
Theorem C79_ends_refuted : forall ci n scope sp w c q, spaces sp -> writable w -> simple w -> In c stops ->
  ~ Forall2 (CS_Word.same_char ci) w (str "all") -> command ci n scope (cs_string (sp ++ w ++ c :: q)) = NoEnd.
Proof.
  intros ci n scope sp w c q Hs W Sw I N. unfold command. pose proof (vw_start (sp ++ w ++ c :: q)) as V.
  assert (Pl : Forall plain (str "all")) by (repeat constructor; try discriminate; intros J; cbn in J; intuition discriminate).
  destruct (umatch_blank ci _ _ _ (str "all") Pl V) as (s1 & E1 & U1). change (str "all" ++ [" "%char]) with (str "all ") in E1. rewrite E1. cbn [txt obind].
  assert (T : fterm TERM c = true) by (cbn in I; repeat destruct I as [<-|I]; try contradiction; reflexivity).
  destruct (writable_head w W) as (d & w' & Ew & G & Td & _).
  assert (Fi : firm (w ++ c :: q)) by (rewrite Ew; cbn [app]; apply firm_cons; [exact G|intros ->; apply Td; now left]).
  assert (D : dropbl (sp ++ w ++ c :: q) = w ++ c :: q) by now apply dropbl_bl.
  rewrite D, (not_all ci w (c :: q)) in U1; [|destruct W as (_ & F & _); eapply Forall_impl; [|exact F]; intros a [A B]; now apply graph_ok|exact T|exact N].
  destruct U1 as [O1 V1]. rewrite O1. destruct n as [|n]; [reflexivity|]. cbn [names].
  destruct (more_vw _ _ _ V1) as (s2 & E2 & V2 & _). rewrite D in E2, V2.
  assert (Hn : negb (Ascii.eqb (CS_Proofs.head (w ++ c :: q)) NUL) = true) by (rewrite Ew; change (CS_Proofs.head ((d :: w') ++ c :: q)) with d; now rewrite graph_nul).
  rewrite Hn in E2. rewrite E2. cbn [txt obind]. destruct (read_word _ w (c :: q) s2 W T V2) as (s3 & E3 & V3). rewrite E3. cbn [txt obind].
  rewrite (dropcom_firm (c :: q)) in V3.
  2:{ apply firm_cons; cbn in I; repeat destruct I as [<-|I]; try contradiction; try reflexivity; discriminate. }
  destruct (C79_done ci w scope Sw) as (dd & l & Ed). rewrite Ed. cbn [obind]. now rewrite (stuck ci _ c q n l s3 I V3).
Qed.

(* a dotted name whose first part is a model: the assertion that there is a list inside fails *)
Theorem C79_model_refuted : exists nm i, forall ci pre post, nobody ci (str "nch") pre ->
  delete_one_name ci nm (pre ++ Card (str "nch") i false None :: post) = Assert.
Proof.
  exists (str "nch.m1"), 1%Z. intros ci pre post N. rewrite delete_step. change (cut_first (str "nch.m1")) with (Some (str "nch", str "m1")). cbv beta iota.
  rewrite (find_is ci (str "nch") pre (Card (str "nch") 1 false None) post); [reflexivity| |now apply nobody_ok].
  apply named_ok. unfold named. cbn [label]. assert (R : forall l, Forall2 (CS_Word.same_char ci) l l) by (induction l; constructor; [now left|assumption]). apply R.
Qed.
(* a card with a dot in its own name is not deleted under that name *)
Theorem C79_dotted_label_refuted : exists c, forall ci, device c = true /\ delete_one_name ci (label c) [c] = Done (false, [c]).
Proof. exists (Card (str "r.1") 1 true None). intros []; split; reflexivity. Qed.

(* ---- cases ---- *)
Definition circuit : list card :=
  [Card (str "R1") 1 true None; Card (str "amp") 2 false (Some [Card (str "r1") 3 true None; Card (str "c1") 4 true None]);
   Card (str "r1") 5 true None; Card (str "x1") 6 true (Some [Card (str "r1") 7 true None]); Card (str "r22") 8 true None].
Definition left_of (o : out (list card * list bool)) : option (list Z * list bool) :=
  match o with Done (l, b) => Some (map (fun c => match c with Card _ i _ _ => i end) l, b) | _ => None end.
Example ex_C79 : nobody true (str "amp") (firstn 1 circuit) /\ named true (str "R1") (Card (str "r1") 5 true None) /\
  delete_one_name true (str "r1") circuit = Done (true, tl circuit) /\
  (exists l, delete_one_name false (str "r1") circuit = Done (true, l) /\ List.length l = 4%nat /\ In (Card (str "R1") 1 true None) l) /\
  delete_one_name true (str "x1.r1") circuit = Done (false, circuit).
Proof.
  split. { repeat constructor. intros H. inversion H as [|? ? ? ? _ H2]. inversion H2 as [|? ? ? ? A _]. destruct A as [A|[_ A]]; discriminate A. }
  split. { repeat constructor; (now left) || (right; split; reflexivity). }
  split; [reflexivity|]. split; [|reflexivity]. eexists. split; [reflexivity|]. split; [reflexivity|]. now left.
Qed.
Example ex_C79_inside : exists l, delete_one_name true (str "amp.r?") circuit = Done (true, l) /\ delete_one_name true (str "r?.amp") circuit = Done (true, l) /\
  nth 1 l (Card [] 0 true None) = Card (str "amp") 2 false (Some [Card (str "c1") 4 true None]) /\ one_less l circuit.
Proof.
  eexists. split; [reflexivity|]. split; [reflexivity|]. split; [reflexivity|]. apply o_later. cbn. apply o_inside. apply o_here.
Qed.
Example ex_C79_list : left_of (command true 30 circuit (cs_string (str " r1, amp.c1 r* zz x1"))) = Some ([2%Z], [true; true; true; false; true]) /\
  listed [str "r1"; str "x1"] (str "r1 , x1") /\ left_of (command true 30 circuit (cs_string (str "ALL "))) = Some ([], []) /\
  boxed circuit /\ Forall (fun c => ~ In c stops) (str " r1, amp.c1 r* zz x1") /\ command true 30 circuit (cs_string (str "r1=5")) = NoEnd /\ writable (str "r1").
Proof.
  assert (Wd : forall c, isgraph c = true -> ~ In c (str ",=(){};") -> isgraph c = true /\ ~ In c (str ",=(){};")) by auto.
  assert (W1 : writable (str "r1")). { split; [discriminate|]. split; [|cbn; intuition discriminate]. repeat constructor; cbn; intuition discriminate. }
  assert (W2 : writable (str "x1")). { split; [discriminate|]. split; [|cbn; intuition discriminate]. repeat constructor; cbn; intuition discriminate. }
  split; [reflexivity|]. split.
  { apply (l_more (str "r1") (str " , ") [str "x1"] (str "x1") W1); [|now apply l_last]. split; [|discriminate]. right. exists [" "%char], [" "%char].
    split; [repeat constructor|]. split; [repeat constructor|reflexivity]. }
  split; [reflexivity|]. split; [repeat constructor|]. split; [|split; [reflexivity|exact W1]]. repeat constructor; cbn; intuition discriminate.
Qed.

Print Assumptions C79_exact.
Print Assumptions C79_unknown.
Print Assumptions C79_pattern.
Print Assumptions C79_pattern_means.
Print Assumptions C79_inside.
Print Assumptions C79_inside_last.
Print Assumptions C79_outside.
Print Assumptions C79_instance.
Print Assumptions C79_only.
Print Assumptions C79_done.
Print Assumptions C79_list.
Print Assumptions C79_all.
Print Assumptions C79_ends.
Print Assumptions C79_ends_refuted.
Print Assumptions C79_model_refuted.
Print Assumptions C79_dotted_label_refuted.
