(* Lemmas for C63: what each reading step of the verilog instance parser does to the text after the cursor. *)
Require Import ZArith List Ascii String Bool Lia.
Require Import ZifyBool.
Require Import Verif.Loops Verif.Wmatch_Model Verif.CS_Model Verif.CS_Proofs Verif.CS_Ops Verif.CS_Word Verif.Quote_Proofs Verif.Parse_Model Verif.Parse_Scan.
Require Import Verif.P_Scanner Verif.P_Keyword Verif.P_Quote Verif.Verilog_Model.
Import ListNotations.
Local Open Scope Z_scope.

Definition space (c : ascii) : Prop := isspace c = true.
Notation spaces := (Forall space).
Lemma space_blank : forall b, spaces b -> Forall blank b.
Proof.
  intros b H. eapply Forall_impl; [|exact H]. intros c E. unfold blank. revert E. destruct c as [[] [] [] [] [] [] [] []]; vm_compute; intros E; try discriminate E; (split; [discriminate|reflexivity]).
Qed.
(* the text goes on with a visible character other than a comma, or is at its end *)
Definition firm (r : text) : Prop := forall c q, r = c :: q -> isgraph c = true /\ c <> ","%char.
Lemma firm_cons : forall c q, isgraph c = true -> c <> ","%char -> firm (c :: q).
Proof. intros c q G N d q' [= <- <-]. now split. Qed.
Lemma graph_nblank : forall c, isgraph c = true -> fblank c = false.
Proof. intros c H. unfold fblank. rewrite H. apply andb_false_r. Qed.
Lemma dropbl_graph : forall c q, isgraph c = true -> dropbl (c :: q) = c :: q.
Proof. intros c q H. apply drop_idem. now apply graph_nblank. Qed.
Lemma dropbl_firm : forall r, firm r -> dropbl r = r.
Proof. intros [|c q] H; [reflexivity|]. now apply dropbl_graph, (H c q). Qed.
Lemma fcomma_not : forall c, c <> ","%char -> fcomma c = false.
Proof. intros c N. destruct (fcomma c) eqn:F; [|reflexivity]. apply in_set_In in F. destruct F as [F|[]]. now elim N. Qed.
Lemma dropcom_firm : forall r, firm r -> dropcom r = r.
Proof.
  intros r H. unfold dropcom, eat1b. rewrite (dropbl_firm r H). destruct r as [|c q]; [reflexivity|]. cbn [eat1].
  rewrite fcomma_not by (now apply (H c q)). now apply dropbl_firm.
Qed.
Lemma dropcom_app : forall b r, spaces b -> dropcom (b ++ r) = dropcom r.
Proof. intros b r B. unfold dropcom, eat1b. now rewrite (dropbl_app b r (space_blank _ B)). Qed.
Lemma dropcom_bl : forall b r, spaces b -> firm r -> dropcom (b ++ r) = r.
Proof. intros b r B F. rewrite (dropcom_app b r B). now apply dropcom_firm. Qed.
Lemma dropbl_bl : forall b r, spaces b -> firm r -> dropbl (b ++ r) = r.
Proof. intros b r B F. rewrite (dropbl_app b r (space_blank _ B)). now apply dropbl_firm. Qed.

(* spaces, or a comma between spaces *)
Definition sep (t : text) : Prop := spaces t \/ exists b1 b2, spaces b1 /\ spaces b2 /\ t = b1 ++ ","%char :: b2.
Lemma dropcom_sep : forall t r, sep t -> firm r -> dropcom (t ++ r) = r.
Proof.
  intros t r [B|(b1 & b2 & B1 & B2 & ->)] F; [now apply dropcom_bl|].
  rewrite <- app_assoc. cbn [app]. rewrite (dropcom_app b1 _ B1). unfold dropcom, eat1b. rewrite dropbl_graph by reflexivity. cbn [eat1].
  replace (fcomma ",") with true by reflexivity. now apply dropbl_bl.
Qed.
Lemma eat_comma : forall t r, sep t -> firm r -> eat1b (fun c => Ascii.eqb c ",") (t ++ r) = r.
Proof.
  intros t r S F. rewrite <- (dropcom_sep t r S F) at 2. unfold dropcom, eat1b. f_equal. destruct (dropbl (t ++ r)) as [|c q]; [reflexivity|].
  cbn [eat1]. destruct (Ascii.eqb_spec c ",") as [->|N]; [reflexivity|]. now rewrite fcomma_not.
Qed.
Lemma eat_none : forall f r, firm r -> f (head r) = false -> eat1b f r = r.
Proof. intros f r F E. unfold eat1b. rewrite (dropbl_firm r F), eat1_id by assumption. now apply dropbl_firm. Qed.
Lemma firm_nc : forall r, firm r -> Ascii.eqb (head r) "," = false.
Proof. intros [|c q] F; [reflexivity|]. destruct (F c q eq_refl) as [_ N]. unfold head. cbn [hd]. now destruct (Ascii.eqb_spec c ","). Qed.

(* skip1b(char) in front of the character and in front of another *)
Lemma char_vw : forall line b c b' r s, isgraph c = true -> spaces b -> spaces b' -> firm r -> vw line (b ++ c :: b' ++ r) s ->
  exists s', skip1bc c s = Some s' /\ vw line r s' /\ ok s' = true.
Proof.
  intros line b c b' r s G B B' F V. assert (N : c <> NUL) by (intros ->; discriminate G).
  destruct (skip1bc_vw _ _ _ c N V) as (s' & E & V' & _ & O). exists s'. split; [exact E|].
  unfold eat1b in V'. rewrite (dropbl_app b _ (space_blank _ B)), (dropbl_graph c _ G) in V', O. cbn [eat1] in V'. unfold head in O. cbn [hd] in O. rewrite Ascii.eqb_refl in V', O.
  rewrite (dropbl_bl b' r B' F) in V'. now split.
Qed.
Lemma nochar_vw : forall line c r s, c <> NUL -> firm r -> head r <> c -> vw line r s ->
  exists s', skip1bc c s = Some s' /\ vw line r s' /\ ok s' = false.
Proof.
  intros line c r s N F H V. destruct (skip1bc_vw _ _ _ c N V) as (s' & E & V' & _ & O). exists s'. split; [exact E|].
  rewrite (dropbl_firm r F) in O. assert (Q : Ascii.eqb (head r) c = false) by (now destruct (Ascii.eqb_spec (head r) c)).
  rewrite (eat_none _ r F) in V' by exact Q. split; [exact V'|]. now rewrite O.
Qed.

(* CS >> "literal" *)
Lemma umatch_lit : forall ci line w r s, Forall opchar w -> vw line r s ->
  exists s', umatch ci w s = Some s' /\
    match strip w (dropbl r) with Some x => ok s' = true /\ vw line (dropcom x) s' | None => ok s' = false /\ vw line r s' end.
Proof.
  intros ci line w r s Hw V. unfold umatch. destruct (skipbl_vw _ _ _ V) as (s1 & E1 & V1 & _). inb E1.
  pose proof (op_loop ci line (cnt s) w [] Hw (or_introl eq_refl) (umatch_rounds w) (dropbl r) s1) as L.
  rewrite app_nil_r in L. specialize (L ltac:(unfold umatch_rounds; lia) V1). destruct (strip w (dropbl r)) as [x|].
  - destruct L as (n' & s2 & Ln & V2 & E2). inb E2. destruct n' as [|n']; [cbn in Ln; lia|]. cbn [umatch_loop bind ok set_ok].
    destruct (skipcom_vw _ _ _ (vw_m _ _ _ (cnt s1) (cnt s2) (vw_ok _ _ _ true V2))) as (s4 & E4 & V4 & _).
    unfold set_match in *. cbn in *. rewrite E4. cbn [bind]. eexists. split; [reflexivity|]. split; [reflexivity|exact V4].
  - destruct L as (s2 & r2 & V2 & A & _). rewrite (A eq_refl). cbn [bind ok set_ok]. eexists. split; [reflexivity|]. split; [reflexivity|].
    apply (vw_reset_fail _ _ s _ (set_ok s2 false) V (vw_ok _ _ _ false V2)).
Qed.
Lemma lit_hit : forall ci line w x b b' s, Forall opchar w -> (forall c q, w = c :: q -> isgraph c = true) -> w <> [] -> spaces b -> spaces b' -> firm x ->
  vw line (b ++ w ++ b' ++ x) s -> exists s', umatch ci w s = Some s' /\ ok s' = true /\ vw line x s'.
Proof.
  intros ci line w x b b' s Hw G Ne B B' F V. destruct (umatch_lit ci line w _ s Hw V) as (s' & E & H). exists s'. split; [exact E|].
  destruct w as [|c w]; [now elim Ne|]. rewrite (dropbl_app b _ (space_blank _ B)) in H. cbn [app] in H. rewrite dropbl_graph in H by (now apply (G c w)).
  assert (S : strip (c :: w) (c :: w ++ b' ++ x) = Some (b' ++ x)) by (now apply strip_some). rewrite S in H.
  now rewrite (dropcom_bl b' x B' F) in H.
Qed.
Lemma lit_miss : forall ci line w r s, Forall opchar w -> vw line r s -> (forall x, dropbl r <> w ++ x) ->
  exists s', umatch ci w s = Some s' /\ ok s' = false /\ vw line r s'.
Proof.
  intros ci line w r s Hw V N. destruct (umatch_lit ci line w _ s Hw V) as (s' & E & H). exists s'. split; [exact E|].
  destruct (strip w (dropbl r)) as [x|] eqn:S; [|exact H]. apply strip_some in S. now elim (N x).
Qed.

(* ctos where no quote begins *)
Lemma ctos_plain : forall line t bqs eqs w x r s, List.length bqs = List.length eqs -> vw line r s -> dropbl r = w ++ x ->
  Forall (fun c => fterm t c = false) w -> fterm t (head x) = true -> (Ascii.eqb (head (w ++ x)) NUL = true \/ find_pos (head (w ++ x)) bqs = None) ->
  exists s', ctos t bqs eqs s = Some (w, s') /\ vw line (dropcom x) s' /\ ok s' = match w with [] => false | _ => true end.
Proof.
  intros line t bqs eqs w x r s Hl V D Hw Hx Hq. unfold ctos. rewrite Hl, Nat.eqb_refl. cbn [negb].
  destruct (skipbl_vw _ _ _ V) as (s1 & E1 & V1 & _). inb E1. rewrite D in V1. inb (peek_vw _ _ _ V1).
  assert (Q : (if Ascii.eqb (head (w ++ x)) NUL then None else find_pos (head (w ++ x)) bqs) = None).
  { destruct Hq as [Hq|Hq]; rewrite Hq; [reflexivity|]. now destruct (Ascii.eqb (head (w ++ x)) NUL). }
  rewrite Q. cbv iota zeta.
  set (cond := fun s => let* m := ns_more s in if m then let* x := is_term t s in Some (negb x) else Some false).
  set (f := fun c => negb (fterm t c)).
  assert (Hc : forall r s, vw line r s -> cond s = Some (f (head r))).
  { intros r0 s0 V0. unfold cond, f. inb (ns_more_vw _ _ _ V0). destruct (Ascii.eqb (head r0) NUL) eqn:En; cbn [negb].
    - apply Ascii.eqb_eq in En. rewrite En. reflexivity.
    - rewrite (is_term_vw _ _ _ t V0). reflexivity. }
  destruct (skip_while_vw line cond f eq_refl Hc _ _ V1) as (s2 & E2 & V2 & _). inb E2.
  assert (Dw : drop_while f (w ++ x) = x).
  { rewrite drop_app; [apply drop_idem; unfold f; now rewrite Hx|]. eapply Forall_impl; [|exact Hw]. intros c Ec. unfold f. now rewrite Ec. }
  rewrite Dw in V2. pose proof (vw_cnt _ _ _ V1) as C1. pose proof (vw_cnt _ _ _ V2) as C2. rewrite app_length in C1.
  replace (cmd s2) with line by (symmetry; apply V2). replace (cnt s2 - cnt s1) with (Z.of_nat (List.length w)) by lia.
  pose proof V1 as (_ & _ & pre & Ep & Cp). rewrite Cp. inb (substr_vw line pre w x Ep).
  destruct (skipcom_vw _ _ _ V2) as (s3 & E3 & V3 & _). inb E3. eexists. split; [reflexivity|]. split; [exact V3|]. cbn [ok set_ok].
  destruct w; cbn [List.length] in *; lia.
Qed.

(* ---- attributes ---- *)
Definition OPEN := str "(*". Definition CLOSE := str "*)".
Lemma open_ops : Forall opchar OPEN. Proof. repeat constructor; try discriminate; cbn; intuition discriminate. Qed.
Lemma close_ops : Forall opchar CLOSE. Proof. repeat constructor; try discriminate; cbn; intuition discriminate. Qed.
Lemma hash_ops : Forall opchar (str "#("). Proof. repeat constructor; try discriminate; cbn; intuition discriminate. Qed.

(* an attribute text: begins and ends visible, begins with no comma, does not contain its end *)
Definition attribute (a : text) : Prop :=
  firm a /\ (forall p c, a = p ++ [c] -> isgraph c = true) /\ ~ In NUL a /\ (forall p q, a <> p ++ CLOSE ++ q).

(* inside: a is what is still to be read *)
Lemma attr_body_vw : forall ci line x b b' a acc n s, (List.length a < n)%nat -> spaces b -> spaces b' -> firm x ->
  (forall p c, a = p ++ [c] -> isgraph c = true) -> ~ In NUL a -> (forall p q, a <> p ++ CLOSE ++ q) ->
  vw line (a ++ b ++ CLOSE ++ b' ++ x) s ->
  exists s', attr_body ci n acc s = Some (acc ++ a, s') /\ vw line x s'.
Proof.
  intros ci line x b b'. induction a as [|c a IH]; intros acc n s Hn B B' F L Z N V.
  - destruct n as [|n]; [cbn in Hn; lia|]. cbn [attr_body app]. cbn [app] in V. inb (ns_more_vw _ _ _ V).
    assert (H0 : Ascii.eqb (head (b ++ CLOSE ++ b' ++ x)) NUL = false).
    { apply space_blank in B. destruct B as [|d b [Nd _] _]; [reflexivity|]. unfold head. cbn [app hd]. destruct (Ascii.eqb_spec d NUL); [contradiction|reflexivity]. }
    rewrite H0. cbn [negb].
    destruct (lit_hit ci line CLOSE x b b' s close_ops ltac:(intros ? ? [= <- _]; reflexivity) ltac:(discriminate) B B' F V) as (s' & E & O & V').
    unfold CLOSE in E. inb E. rewrite O. exists s'. split; [now rewrite app_nil_r|exact V'].
  - destruct n as [|n]; [cbn in Hn; lia|]. cbn [attr_body]. inb (ns_more_vw _ _ _ V). unfold head. cbn [app hd].
    destruct (Ascii.eqb_spec c NUL) as [->|_]; [elim Z; now left|]. cbn [negb].
    assert (M : forall y, dropbl ((c :: a) ++ b ++ CLOSE ++ b' ++ x) <> CLOSE ++ y).
    { clear IH V. intros y E. destruct (split_blank (c :: a)) as (bl & E1 & B1).
      destruct (dropbl (c :: a)) as [|d q] eqn:Ed.
      - rewrite app_nil_r in E1. destruct (exists_last (l := c :: a) ltac:(discriminate)) as (p & z & Ez). specialize (L p z Ez).
        rewrite Forall_forall in B1. destruct (B1 z) as [_ Bz]; [|congruence]. rewrite <- E1, Ez. apply in_or_app. right. now left.
      - rewrite E1, <- app_assoc, (dropbl_app bl _ B1) in E. assert (G : fblank d = false) by (pose proof (dropbl_head (c :: a)) as H; rewrite Ed in H; exact H).
        cbn [app] in E. unfold dropbl in E. cbn [drop_while] in E. rewrite G in E. destruct q as [|e q].
        + injection E as -> E. apply space_blank in B. destruct B as [|k b [_ Bk] _]; cbn in E; injection E as E _; [discriminate E|]. subst k. discriminate Bk.
        + cbn in E. injection E as -> -> _. apply (N bl q). rewrite E1. reflexivity. }
    destruct (lit_miss ci line CLOSE _ s close_ops V M) as (s1 & E1 & O1 & V1). unfold CLOSE in E1. inb E1. rewrite O1.
    destruct (ctoc_vw _ _ _ _ V1) as (s2 & E2 & V2 & _). inb E2.
    destruct (IH (acc ++ [c]) n s2) as (s' & E' & V'); try assumption.
    + cbn in Hn. lia.
    + intros p z Ez. apply (L (c :: p)). now rewrite Ez.
    + intros I. apply Z. now right.
    + intros p q Eq. apply (N (c :: p) q). now rewrite Eq.
    + exists s'. rewrite E'. split; [now rewrite <- app_assoc|exact V'].
Qed.

(* attribute groups in front of something, as text and as what they say *)
Inductive groups : list text -> text -> Prop :=
  | gr_nil : groups [] []
  | gr_cons a b1 b2 b3 gs t : attribute a -> spaces b1 -> spaces b2 -> spaces b3 -> groups gs t ->
      groups (a :: gs) (OPEN ++ b1 ++ a ++ b2 ++ CLOSE ++ b3 ++ t).
Fixpoint joined (comma : text) (gs : list text) : text :=
  match gs with [] => [] | a :: gs' => comma ++ a ++ joined (str ", ") gs' end.
(* what comes after a list of groups: not a group *)
Definition plain_next (x : text) : Prop := firm x /\ forall y, x <> OPEN ++ y.

Lemma groups_firm : forall gs t x, groups gs t -> firm x -> firm (t ++ x).
Proof. intros gs t x [|a b1 b2 b3 gs' t' _ _ _ _ _] F; [exact F|]. now apply firm_cons. Qed.
Lemma groups_len : forall gs t, groups gs t -> (List.length gs <= List.length t)%nat.
Proof. intros gs t H. induction H as [|a b1 b2 b3 gs t _ _ _ _ _ IH]; [reflexivity|]. rewrite !app_length. cbn. lia. Qed.
Lemma firm_app : forall a x, firm a -> a <> [] -> firm (a ++ x).
Proof. intros [|c a] x F N; [now elim N|]. destruct (F c a eq_refl). now apply firm_cons. Qed.
Lemma groups_vw : forall ci line x gs t, groups gs t -> plain_next x -> forall n comma acc b s, (List.length gs < n)%nat -> spaces b -> vw line (b ++ t ++ x) s ->
  exists s' b', attr_loop ci n comma acc s = Some (acc ++ joined comma gs, s') /\ spaces b' /\ (b = [] -> b' = []) /\ vw line (b' ++ x) s'.
Proof.
  intros ci line x gs t H [Fx Nx]. induction H as [|a b1 b2 b3 gs t Ha B1 B2 B3 Hg IH]; intros n comma acc b0 s Hn B0 V.
  - destruct n as [|n]; [cbn in Hn; lia|]. cbn [attr_loop joined]. cbn [app] in V.
    destruct (lit_miss ci line OPEN _ s open_ops V) as (s' & E & O & V'); [intros y; rewrite (dropbl_bl b0 x B0 Fx); apply Nx|].
    unfold OPEN in E. inb E. rewrite O. exists s', b0. split; [now rewrite app_nil_r|]. auto.
  - destruct n as [|n]; [cbn in Hn; lia|]. cbn [attr_loop joined]. pose proof (groups_firm _ _ x Hg Fx) as Ft.
    assert (Hit : exists s1 b, umatch ci OPEN s = Some s1 /\ ok s1 = true /\ spaces b /\ vw line (a ++ b ++ CLOSE ++ b3 ++ t ++ x) s1).
    { rewrite <- !app_assoc in V. destruct a as [|c a].
      - cbn [app] in V. rewrite (app_assoc b1 b2) in V.
        destruct (lit_hit ci line OPEN (CLOSE ++ b3 ++ t ++ x) b0 (b1 ++ b2) s open_ops ltac:(intros ? ? [= <- _]; reflexivity) ltac:(discriminate)) as (s1 & E & O & V1);
          [assumption|now apply Forall_app|now apply firm_cons|exact V|].
        exists s1, []. split; [assumption|]. split; [assumption|]. split; [apply Forall_nil|exact V1].
      - destruct (lit_hit ci line OPEN ((c :: a) ++ b2 ++ CLOSE ++ b3 ++ t ++ x) b0 b1 s open_ops ltac:(intros ? ? [= <- _]; reflexivity) ltac:(discriminate)) as (s1 & E & O & V1);
          [assumption|assumption|apply firm_app; [apply Ha|discriminate]|exact V|].
        exists s1, b2. auto. }
    destruct Hit as (s1 & b & E & O & B & V1). unfold OPEN in E. inb E. rewrite O. destruct Ha as (_ & L & Z & N).
    destruct (attr_body_vw ci line (t ++ x) b b3 a (acc ++ comma) (rounds s1) s1) as (s2 & E2 & V2); try assumption.
    { rewrite (vw_rounds _ _ _ V1). pose proof (vw_le _ _ _ V1) as Q. rewrite !app_length in Q. lia. }
    inb E2. destruct (IH n (str ", ") ((acc ++ comma) ++ a) [] s2) as (s3 & b' & E3 & B' & N' & V3); [cbn in Hn; lia|apply Forall_nil|exact V2|].
    exists s3, b'. rewrite E3. split; [now rewrite <- !app_assoc|]. split; [exact B'|]. split; [intros _; now apply N'|exact V3].
Qed.
Lemma attributes_sp : forall ci line x gs t b s, groups gs t -> plain_next x -> spaces b -> vw line (b ++ t ++ x) s ->
  exists s' b', parse_attributes ci s = Some (joined [] gs, s') /\ spaces b' /\ (b = [] -> b' = []) /\ vw line (b' ++ x) s'.
Proof.
  intros ci line x gs t b s H P B V. unfold parse_attributes. apply (groups_vw ci line x gs t H P) with (b := b); [|exact B|exact V].
  rewrite (vw_rounds _ _ _ V). pose proof (vw_le _ _ _ V) as Q. rewrite !app_length in Q. pose proof (groups_len _ _ H). lia.
Qed.
Lemma attributes_vw : forall ci line x gs t s, groups gs t -> plain_next x -> vw line (t ++ x) s ->
  exists s', parse_attributes ci s = Some (joined [] gs, s') /\ vw line x s'.
Proof.
  intros ci line x gs t s H P V. destruct (attributes_sp ci line x gs t [] s H P (Forall_nil _) V) as (s' & b' & E & _ & N & V').
  rewrite (N eq_refl) in V'. now exists s'.
Qed.
Lemma no_groups : forall ci line x s, plain_next x -> vw line x s -> exists s', parse_attributes ci s = Some ([], s') /\ vw line x s'.
Proof. intros ci line x s P V. exact (attributes_vw ci line x [] [] s gr_nil P V). Qed.
