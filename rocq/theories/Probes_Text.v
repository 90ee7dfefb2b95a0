(* Proofs about Probes_Model: reading a command, for every text. *)
Require Import ZArith QArith List Ascii String Bool Lia.
Require Import Verif.Loops Verif.Wmatch_Model Verif.CS_Model Verif.CS_Proofs Verif.CS_Ops Verif.CS_Float Verif.Probes_Model Verif.Probes_Proofs.
Import ListNotations.
Local Open Scope Z_scope.
Ltac inb E := rewrite E; cbn [bind].

(* ctos: what is left is behind the blanks, and something was read unless a terminator other than a comma is there *)
Lemma ctos_any : forall line r s t bqs eqs, List.length bqs = List.length eqs -> ~ In NUL eqs -> vw line r s ->
  exists x s' r', ctos t bqs eqs s = Some (x, s') /\ vw line r' s' /\ suffix r' (dropbl r) /\
    (head (dropbl r) <> NUL -> (find_pos (head (dropbl r)) bqs <> None \/ fterm t (head (dropbl r)) = false \/ head (dropbl r) = ","%char) ->
     (List.length r' < List.length (dropbl r))%nat).
Proof.
  intros line r s t bqs eqs Hl Hn V. unfold ctos. rewrite Hl, Nat.eqb_refl. cbn [negb].
  destruct (skipbl_vw _ _ _ V) as (s1 & E1 & V1 & _). inb E1. inb (peek_vw _ _ _ V1).
  assert (Main : exists x b e s2 r2,
    match (if Ascii.eqb (head (dropbl r)) NUL then None else find_pos (head (dropbl r)) bqs) with
    | Some k =>
        let s := skip s1 in
        let* (acc, b, e, s) := quoted (rounds s) (nth k bqs NUL) (nth k eqs NUL) 1 (cnt s) [] s in
        let* piece := substr (cmd s) b (e - b) in
        Some (acc ++ piece, b, e, s)
    | None =>
        let b := cnt s1 in
        let* s := skip_while (fun s => let* m := ns_more s in if m then let* x := is_term t s in Some (negb x) else Some false) s1 in
        let* r := substr (cmd s) b (cnt s - b) in
        Some (r, b, cnt s, s)
    end = Some (x, b, e, s2) /\ vw line r2 s2 /\ suffix r2 (dropbl r) /\
    (head (dropbl r) <> NUL -> find_pos (head (dropbl r)) bqs <> None \/ fterm t (head (dropbl r)) = false -> (List.length r2 < List.length (dropbl r))%nat) /\
    (find_pos (head (dropbl r)) bqs = None -> fterm t (head (dropbl r)) = true -> r2 = dropbl r)).
  { destruct (Ascii.eqb_spec (head (dropbl r)) NUL) as [En|En].
    2: destruct (find_pos (head (dropbl r)) bqs) as [k|] eqn:Ek.
    2:{ destruct (head_cons _ En) as (c & q & Eq & Ec). rewrite Ec in *. rewrite Eq in *.
        destruct (find_pos_nth _ _ _ Ek) as [A B]. destruct (skip_vw _ _ _ _ V1) as [V2 _]. cbv zeta.
        destruct (quoted_safe line (nth k bqs NUL) (nth k eqs NUL)) with (n := rounds (skip s1)) (quotes := 1) (b := cnt (skip s1)) (acc := @nil ascii)
          (r := q) (s := skip s1) as (acc' & b' & e' & s3 & r3 & E3 & V3 & S3 & B1 & B2 & B3).
        - now rewrite A.
        - intros X. apply Hn. rewrite <- X. apply nth_In. lia.
        - rewrite (vw_rounds _ _ _ V2). pose proof (vw_le _ _ _ V2). lia.
        - assumption.
        - pose proof (vw_cnt _ _ _ V2). pose proof (vw_le _ _ _ V2). lia.
        - inb E3. replace (cmd s3) with line by (symmetry; apply V3).
          destruct (substr_some line b' e') as (piece & Ep); [lia|lia|lia|]. inb Ep.
          eexists _, _, _, _, r3. split; [reflexivity|]. split; [assumption|]. split; [now apply suffix_cons|].
          split; [|discriminate]. intros _ _. pose proof (suffix_len _ _ S3). cbn [List.length]. lia. }
    all: cbv zeta; destruct (skip_while_vw line (fun s => let* m := ns_more s in if m then let* x := is_term t s in Some (negb x) else Some false)
       (fun c => negb (Ascii.eqb c NUL) && negb (fterm t c)) eq_refl) with (r := dropbl r) (s := s1) as (s2 & E2 & V2 & _);
      [intros r0 s0 V0; inb (ns_more_vw _ _ _ V0); destruct (Ascii.eqb (head r0) NUL); cbn [negb andb]; [reflexivity|];
       now rewrite (is_term_vw _ _ _ _ V0) | exact V1 | ];
      inb E2; replace (cmd s2) with line by (symmetry; apply V2);
      pose proof (vw_cnt _ _ _ V1); pose proof (vw_le _ _ _ V1); pose proof (vw_cnt _ _ _ V2);
      pose proof (drop_len (fun c => negb (Ascii.eqb c NUL) && negb (fterm t c)) (dropbl r));
      destruct (substr_some line (cnt s1) (cnt s2)) as (piece & Ep); [lia|lia|lia| ]; inb Ep;
      eexists _, _, _, _, _; (split; [reflexivity|]); (split; [exact V2|]); (split; [apply suffix_drop|]); split.
    - intros N. congruence.
    - intros _ F. apply drop_idem. rewrite F. cbn [negb]. apply andb_false_r.
    - intros _ [X|F]; [congruence|]. destruct (head_cons _ En) as (c & q & Eq & Ec). rewrite Eq in *. change (head (c :: q)) with c in *.
      cbn [drop_while]. destruct (Ascii.eqb_spec c NUL) as [|_]; [congruence|]. rewrite F. cbn [negb andb List.length].
      pose proof (drop_len (fun c => negb (Ascii.eqb c NUL) && negb (fterm t c)) q). lia.
    - intros _ F. apply drop_idem. rewrite F. cbn [negb]. apply andb_false_r. }
  destruct Main as (x & b & e & s2 & r2 & E2 & V2 & S2 & P2 & Q2). cbv zeta in E2. cbv zeta. inb E2.
  destruct (skipcom_vw _ _ _ V2) as (s3 & E3 & V3 & _). inb E3.
  eexists _, _, _. split; [reflexivity|]. split; [exact V3|]. split; [eapply suffix_trans; [apply suffix_eat1b|exact S2]|].
  intros N H. pose proof (suffix_len _ _ (suffix_eat1b fcomma r2)) as L2. fold (dropcom r2) in L2.
  destruct (find_pos (head (dropbl r)) bqs) as [k|] eqn:Ek.
  { assert (List.length r2 < List.length (dropbl r))%nat by (apply P2; [exact N|left; discriminate]). lia. }
  destruct (fterm t (head (dropbl r))) eqn:Ft.
  - destruct H as [H|[H|H]]; [congruence|discriminate H|]. rewrite (Q2 eq_refl eq_refl). unfold dropcom, eat1b.
    assert (D : dropbl (dropbl r) = dropbl r) by (apply drop_idem, dropbl_head). rewrite D.
    destruct (head_cons _ N) as (c & q & Eq & Ec). rewrite Eq in *. cbn [head hd] in H. subst c. change (eat1 fcomma ("," :: q)%char) with q.
    cbn [List.length]. unfold dropbl at 1. pose proof (drop_len fblank q). lia.
  - assert (List.length r2 < List.length (dropbl r))%nat by (apply P2; [exact N|right; reflexivity]). lia.
Qed.

(* outcomes: never a failed assert; no end only if allowed *)
Definition ends {A} (ne : Prop) (P : A -> Prop) (x : out A) : Prop :=
  match x with Done a => P a | Assert => False | Undef => True | NoEnd => ne end.
Lemma ends_bind : forall A B ne (P : A -> Prop) (Q : B -> Prop) x f, ends ne P x -> (forall a, P a -> ends ne Q (f a)) -> ends ne Q (obind x f).
Proof. intros A B ne P Q [a| | |] f H K; cbn in *; [now apply K|exact H|exact H|exact H]. Qed.
Lemma ends_imp : forall A (ne ne' : Prop) (P Q : A -> Prop) x, ends ne P x -> (ne -> ne') -> (forall a, P a -> Q a) -> ends ne' Q x.
Proof. intros A ne ne' P Q [a| | |] H N K; cbn in *; auto. Qed.

(* the objects of a scope and of what is inside it *)
Inductive within : scope -> Z -> Prop :=
| in_node : forall sc k l o, In (k, (l, o)) (nodes sc) -> within sc o
| in_card : forall sc k, In k (cards sc) -> within sc (c_id k)
| in_sub : forall sc l o d inner x, In (Card l o d (Some inner)) (cards sc) -> within inner x -> within sc x.

Lemma map_find_in : forall key l o, map_find key l = Some o -> exists k lab, In (k, (lab, o)) l /\ same_text false k key = true.
Proof.
  intros key l. induction l as [|[k [lab x]] l IH]; intros o H; [discriminate H|]. cbn [map_find] in H.
  destruct (same_text false k key) eqn:E.
  - injection H as <-. exists k, lab. split; [now left|exact E].
  - destruct (IH o H) as (k' & lab' & I & E'). exists k', lab'. split; [now right|exact E'].
Qed.
Lemma find_card_in : forall ci key l o, find_card ci key l = Some o -> exists k, In k l /\ c_id k = o.
Proof.
  intros ci key l. induction l as [|k l IH]; intros o H; [discriminate H|]. cbn [find_card] in H.
  destruct (same_text ci (c_label k) key); [injection H as <-; exists k; split; [now left|reflexivity]|].
  destruct (IH o H) as (k' & I & E). exists k'. split; [now right|exact E].
Qed.
Lemma node_named_in : forall ci key sc o, node_named ci key sc = Some o -> within sc o.
Proof.
  intros ci key sc o H. unfold node_named in H. destruct (map_find key (nodes sc)) as [x|] eqn:E.
  - injection H as <-. destruct (map_find_in _ _ _ E) as (k & lab & I & _). now apply in_node with k lab.
  - destruct ci; [|discriminate H]. destruct (map_find_in _ _ _ H) as (k & lab & I & _). now apply in_node with k lab.
Qed.
Lemma add_here_in : forall ci d sc o, In o (add_here ci d sc) -> within sc o.
Proof.
  intros ci d sc o H. unfold add_here in H. destruct (has_wild d).
  - apply in_app_or in H. destruct H as [H|H]; apply in_flat_map in H; destruct H as (x & I & Hx).
    + destruct x as [k [lab y]]. cbn [fst snd] in Hx. destruct (_ && _); [|destruct Hx]. destruct Hx as [<-|[]]. now apply in_node with k lab.
    + destruct (wmatch ci (c_label x) d); [|destruct Hx]. destruct Hx as [<-|[]]. now apply in_card.
  - apply in_app_or in H. destruct H as [H|H].
    + destruct (node_named ci d sc) as [x|] eqn:E; [|destruct H]. destruct H as [<-|[]]. now apply node_named_in with ci d.
    + destruct (find_card ci d (cards sc)) as [x|] eqn:E; [|destruct H]. destruct H as [<-|[]]. destruct (find_card_in _ _ _ _ E) as (k & I & <-). now apply in_card.
Qed.
Lemma look_inside_in : forall ci f c sc o, In o (look_inside ci f c sc) <->
  exists l x inner, In (Card l x true (Some inner)) (cards sc) /\ wmatch ci l c = true /\ In o (f inner).
Proof.
  intros ci f c sc o. unfold look_inside. rewrite in_flat_map. split.
  - intros ([l x d [inner|]] & I & H); [|destruct H]. destruct d, (wmatch ci l c) eqn:E; cbn [andb] in H; try (now destruct H).
    exists l, x, inner. now split.
  - intros (l & x & inner & I & W & H). exists (Card l x true (Some inner)). split; [exact I|]. rewrite W. exact H.
Qed.
Lemma add_branches_n_in : forall ci n d sc o, In o (add_branches_n ci n d sc) -> within sc o.
Proof.
  intros ci n. induction n as [|n IH]; intros d sc o H; [destruct H|]. cbn [add_branches_n] in H.
  destruct (cut_first d) as [[a b]|]; [|now apply add_here_in with ci d].
  apply in_app_or in H. destruct H as [H|H].
  - apply look_inside_in in H. destruct H as (l & x & inner & I & _ & H). eapply in_sub; [exact I|]. now apply (IH b).
  - destruct (cut_last d) as [[a' b']|]; [|destruct H]. apply look_inside_in in H. destruct H as (l & x & inner & I & _ & H). eapply in_sub; [exact I|]. now apply (IH a').
Qed.
Lemma add_branches_in : forall ci d sc o, In o (add_branches ci d sc) -> within sc o.
Proof. intros ci d sc o. apply add_branches_n_in. Qed.
Lemma add_all_in : forall sc o, In o (add_all_nodes sc) -> within sc o.
Proof.
  intros sc o H. unfold add_all_nodes in H. apply in_flat_map in H. destruct H as ([k [lab x]] & I & H). cbn [fst snd] in H.
  destruct (_ && _); [|destruct H]. destruct H as [<-|[]]. now apply in_node with k lab.
Qed.

(* every probe of the list is on an object that is there *)
Definition lives (live : Z -> bool) (l : list probe) : Prop := forall p o, In p l -> p_obj p = Some o -> live o = true.
Definition scope_lives (live : Z -> bool) (sc : scope) : Prop := forall o, within sc o -> live o = true.
Lemma lives_app : forall live a b, lives live a -> lives live b -> lives live (a ++ b).
Proof. intros live a b A B p o I. apply in_app_or in I. destruct I as [I|I]; [now apply A|now apply B]. Qed.
Lemma lives_filter : forall live f l, lives live l -> lives live (filter f l).
Proof. intros live f l A p o I. apply filter_In in I. now apply A. Qed.
Lemma lives_new : forall live what os, (forall o, In o os -> live o = true) -> lives live (map (fun b => Probe what b 0 0) (map Some os)).
Proof. intros live what os H p o I E. rewrite map_map in I. apply in_map_iff in I. destruct I as (x & <- & I). injection E as <-. now apply H. Qed.
Lemma lives_limits : forall live n lo hi l, lives live l -> lives live (set_limits n lo hi l).
Proof.
  intros live n lo hi l A. unfold set_limits. rewrite <- (firstn_skipn n l) in A. apply lives_app.
  - intros p o I. apply A. apply in_or_app. now left.
  - intros p o I E. apply in_map_iff in I. destruct I as (q & <- & I). cbn in E. apply (A q o); [apply in_or_app; now right|exact E].
Qed.
Lemma num_limits : forall o n lo hi l, num o (set_limits n lo hi l) = num o l.
Proof.
  intros o n lo hi l. unfold set_limits. rewrite <- (firstn_skipn n l) at 3. rewrite !num_app. f_equal. induction (skipn n l) as [|p q IH]; [reflexivity|].
  cbn [map]. rewrite !num_cons, IH. reflexivity.
Qed.

(* ---- numbers ---- *)
Lemma conv_loop_none : forall T line cond f (g : T -> ascii -> option T), f NUL = false ->
  (forall r s, vw line r s -> cond s = Some (f (head r))) ->
  forall n v r s, vw line r s -> foldo g v (take_while f r) = None -> conv_loop n cond g v s = None.
Proof.
  intros T line cond f g F0 Hc n. induction n as [|n IH]; intros v r s V Hf; [reflexivity|].
  cbn [conv_loop]. inb (Hc r s V). destruct (f (head r)) eqn:E.
  - destruct r as [|c r]; [unfold head in E; cbn in E; congruence|].
    destruct (ctoc_vw _ _ _ _ V) as (s1 & E1 & V1 & O1 & M1). inb E1.
    change (head (c :: r)) with c in E. cbn [take_while drop_while] in *. rewrite E in *. cbn [foldo] in Hf.
    destruct (g v c) as [w|]; [|reflexivity]. cbn [bind] in *. now apply IH with r.
  - rewrite take_stop in Hf by assumption. discriminate Hf.
Qed.
Lemma scale_none : forall line u r s, vw line r s -> scale_of u r = None -> scale u s = None.
Proof.
  intros line u r s V H. unfold scale, scale_of in *.
  destruct (skip1_vw _ _ _ (str "eE") V) as (s1 & E1 & V1 & O1 & M1 & F1). inb E1. rewrite O1.
  destruct (in_set (str "eE") (head r)) eqn:Ee.
  - rewrite eat1_tl in V1 by (reflexivity || assumption). cbv zeta in H.
    destruct (sign_vw _ _ _ V1) as (s2 & E2 & O2 & _ & s3 & E3 & V3 & _). inb E2. rewrite O2. inb E3. unfold conv.
    destruct (foldo (int_digit 10) 0 (take_while fdigit (dropsign (tl r)))) as [e|] eqn:Ef; [discriminate H|].
    rewrite (conv_loop_none _ line is_digit fdigit (int_digit 10) eq_refl (is_digit_vw line) _ 0 _ s3 V3 Ef). reflexivity.
  - exfalso. destruct u; [discriminate H|]. destruct (in_set (str "mM") (head r)); [|discriminate H]. cbv zeta in H.
    destruct (in_set (str "eE") (head (tl r))); [discriminate H|]. destruct (in_set (str "iI") (head (tl r))); discriminate H.
Qed.
Lemma ctof_some : forall line u r s q s', vw line r s -> ctof u s = Some (q, s') -> exists r', vw line r' s' /\ suffix r' r.
Proof.
  intros line u r s q s' V H. destruct (ffloat (head (dropbl r))) eqn:Hf.
  - set (r1 := dropsign (dropbl r)). set (r3 := eat1 fdot (drop_while fdigit r1)).
    destruct (scale_of u (drop_while fdigit r3)) as [[f r5]|] eqn:Hs.
    + destruct (ctof_vw line u r s f r5 V Hf Hs) as (s2 & E2 & V2 & _). rewrite E2 in H. injection H as _ <-.
      eexists. split; [exact V2|]. eapply suffix_trans; [apply suffix_eat1b|]. eapply suffix_trans; [apply suffix_drop|].
      eapply suffix_trans; [exact (scale_suffix _ _ _ _ Hs)|]. eapply suffix_trans; [apply suffix_drop|]. unfold r3. eapply suffix_trans; [apply suffix_eat1|].
      eapply suffix_trans; [apply suffix_drop|]. unfold r1. eapply suffix_trans; [apply suffix_sign|apply suffix_drop].
    + exfalso. revert H. unfold ctof.
      destruct (skipbl_vw _ _ _ V) as (s1 & E1 & V1 & _). inb E1.
      unfold is_float. inb (match1_vw _ _ _ (str "+-.0123456789") V1). fold ffloat. rewrite Hf. cbn [negb].
      destruct (sign_vw _ _ _ V1) as (s2 & E2 & O2 & _ & s3 & E3 & V3 & _). inb E2. rewrite O2. inb E3. fold r1 in V3.
      destruct (conv_vw _ line is_digit fdigit (fun v c => Some (10 * v + inject_Z (dig c))%Q) eq_refl (is_digit_vw line) 0%Q _ s3 _ V3 (foldo_total _ _ _ _)) as (s4 & E4 & V4 & _).
      inb E4. destruct (skip1_vw _ _ _ (str ".") V4) as (s5 & E5 & V5 & _). inb E5. fold fdot in V5. fold r3 in V5.
      match goal with |- context [conv is_digit ?g ?v0 s5] => destruct (conv_vw _ line is_digit fdigit g eq_refl (is_digit_vw line) v0 _ s5 _ V5 (foldo_total _ _ _ _)) as (s6 & E6 & V6 & _) end.
      inb E6. rewrite (scale_none _ _ _ _ V6 Hs). cbn [bind]. discriminate.
  - destruct (ctof_no line u r s V Hf) as (s2 & E2 & V2 & _). rewrite E2 in H. injection H as _ <-. eexists. split; [exact V2|].
    eapply suffix_trans; [apply suffix_eat1b|apply suffix_drop].
Qed.
(* CS::check: the cursor is still in the text, or past its end so that the next read is undefined *)
Lemma check_any : forall ci line r s, vw line r s -> exists s', check ci s = Some s' /\ ((exists r', vw line r' s' /\ suffix r' r) \/ more s' = None).
Proof.
  intros ci line r s V. unfold check. destruct (skipbl_vw _ _ _ V) as (s1 & E1 & V1 & _). inb E1. inb (peek_vw _ _ _ V1).
  assert (D : suffix (dropbl r) r) by apply suffix_drop.
  assert (Skip : forall r0 s0, suffix r0 r -> vw line r0 s0 -> (exists r', vw line r' (skip s0) /\ suffix r' r) \/ more (skip s0) = None).
  { intros [|c q] s0 S0 V0.
    - right. unfold more, skipbl, skip_while, rounds.
      assert (P : peek (skip s0) = None).
      { unfold peek, skip. cbn [set_ok set_cnt cmd cnt]. unfold at_index.
        pose proof V0 as K. pose proof (vw_cnt _ _ _ K) as C. cbn [List.length] in C. replace (cmd s0) with line by (symmetry; apply K).
        destruct (Z.ltb_spec (cnt s0 + 1) 0); [reflexivity|]. destruct (Z.eqb_spec (cnt s0 + 1) (Z.of_nat (List.length line))); [lia|].
        apply nth_error_None. lia. }
      cbn [while]. rewrite P. reflexivity.
    - left. exists q. split; [apply (skip_vw _ _ _ _ V0)|]. eapply suffix_trans; [|exact S0]. apply suffix_cons, suffix_refl. }
  destruct (Ascii.eqb (head (dropbl r)) "/").
  { destruct (umatch_safe ci line (dropbl r) s1 (str "//")) as (s2 & r2 & E2 & V2 & S2 & _); [|exact V1|].
    { split; [cbn; intuition discriminate|]. intros a b E. exfalso. assert (I : In "{"%char (str "//")) by (rewrite E; apply in_or_app; right; now left). cbn in I. intuition discriminate. }
    inb E2. eexists. split; [reflexivity|]. apply Skip with r2; [now apply suffix_trans with (dropbl r)|exact V2]. }
  destruct (Ascii.eqb (head (dropbl r)) ";" || Ascii.eqb (head (dropbl r)) "'").
  { eexists. split; [reflexivity|]. apply Skip with (dropbl r); [exact D|exact V1]. }
  destruct (Ascii.eqb (head (dropbl r)) NUL); (eexists; split; [reflexivity|]; left; exists (dropbl r); split; [exact V1|exact D]).
Qed.

Section T.
Variables (ci : bool) (u : units) (grow : list probe -> bool) (long_label : Z -> list ascii).
Variables (live : Z -> bool) (others : Z -> Z) (sc : scope).
Hypothesis Hp : pos others.
Hypothesis Hs : scope_lives live sc.
Definition good (l : list probe) (c : counts) : Prop := bal c l others /\ lives live l.

Lemma push_some_ok : forall what os l c, good l c -> (forall o, In o os -> within sc o) ->
  exists c', push_all grow what (map Some os) (l, c) = Done (l ++ map (fun b => Probe what b 0 0) (map Some os), c') /\
    good (l ++ map (fun b => Probe what b 0 0) (map Some os)) c'.
Proof.
  intros what os l c [B A] H. destruct (push_all_ok grow what (map Some os) l others c Hp B) as (c' & E & B').
  exists c'. split; [exact E|]. split; [exact B'|]. apply lives_app; [exact A|]. apply lives_new. intros o I. now apply Hs, H.
Qed.

Lemma is_alnum_vw : forall line r s, vw line r s -> is_alnum s = Some (isalpha (toascii (head r)) || isdigit (toascii (head r))).
Proof. intros line r s V. unfold is_alnum. inb (peek_vw _ _ _ V). reflexivity. Qed.
Definition fname (c : ascii) : bool := isalpha (toascii c) || isdigit (toascii c) || in_set (str "*?") c.
Lemma starts_name_vw : forall line r s, vw line r s -> starts_name s = Some (fname (head r)).
Proof.
  intros line r s V. unfold starts_name, fname. inb (is_alnum_vw _ _ _ V). rewrite (match1_vw _ _ _ _ V).
  destruct (isalpha (toascii (head r)) || isdigit (toascii (head r))); reflexivity.
Qed.
Lemma fname_char : forall c, fname c = true -> c <> NUL /\ (fblank c = true \/ (fblank c = false /\ fterm TERM c = false)).
Proof. intros [[] [] [] [] [] [] [] []]; vm_compute; intros H; try discriminate H; (split; [discriminate|]); auto. Qed.

Lemma name_read : forall line r s, vw line r s -> fname (head r) = true ->
  exists x s' r', ctos TERM QB QE s = Some (x, s') /\ vw line r' s' /\ suffix r' r /\ (List.length r' < List.length r)%nat.
Proof.
  intros line r s V F. destruct (ctos_any line r s TERM QB QE eq_refl) as (x & s' & r' & E & V' & S' & P'); [cbn; intuition discriminate|exact V|].
  exists x, s', r'. split; [exact E|]. split; [exact V'|]. split; [eapply suffix_trans; [exact S'|apply suffix_drop]|].
  destruct (fname_char _ F) as [N [B|[B T]]].
  - destruct (head_cons _ N) as (c & q & Eq & Ec). rewrite Eq in *. change (head (c :: q)) with c in *.
    pose proof (suffix_len _ _ S') as L. unfold dropbl in L. cbn [drop_while] in L. rewrite B in L. pose proof (drop_len fblank q). cbn [List.length]. lia.
  - assert (D : dropbl r = r) by now apply drop_idem. rewrite D in P'. apply P'; auto.
Qed.

Lemma more_names_ok : forall line what n l c r s, good l c -> vw line r s -> (List.length r < n)%nat ->
  exists os l' c' s' r', more_names ci grow n what sc (l, c) s = Done (l', c', s') /\ l' = l ++ map (fun b => Probe what b 0 0) (map Some os) /\
    (forall o, In o os -> within sc o) /\ good l' c' /\ vw line r' s' /\ suffix r' r.
Proof.
  intros line what n. induction n as [|n IH]; intros l c r s G V L; [lia|]. cbn [more_names].
  rewrite (starts_name_vw _ _ _ V). cbn [txt obind]. destruct (fname (head r)) eqn:F; cbn [negb].
  - destruct (name_read _ _ _ V F) as (nm & s1 & r1 & E1 & V1 & S1 & L1). rewrite E1. cbn [txt obind].
    destruct (push_some_ok what (add_branches ci nm sc) l c G (add_branches_in ci nm sc)) as (c1 & E2 & G2). rewrite E2. cbn [obind].
    destruct (add_branches ci nm sc) as [|o os] eqn:Eo.
    + eexists [], _, c1, (reset (cnt s) s1), r. split; [reflexivity|]. split; [reflexivity|]. split; [intros o []|]. split; [exact G2|]. split; [now apply vw_reset with r1|apply suffix_refl].
    + destruct (IH _ c1 r1 s1 G2 V1) as (os' & l' & c' & s' & r' & E' & El & Hin & G' & V' & S'); [lia|].
      exists ((o :: os) ++ os'), l', c', s', r'. split; [exact E'|]. split; [rewrite El, <- app_assoc, <- !map_app; reflexivity|].
      split. { intros x I. apply in_app_or in I. destruct I as [I|I]; [|now apply Hin]. apply (add_branches_in ci nm sc). rewrite Eo. exact I. }
      split; [exact G'|]. split; [exact V'|]. now apply suffix_trans with r1.
  - exists [], l, c, s, r. cbn [map]. rewrite app_nil_r. split; [reflexivity|]. split; [reflexivity|]. split; [intros o []|]. split; [exact G|]. split; [exact V|apply suffix_refl].
Qed.
Definition at_text (line : list ascii) (r : list ascii) (P : list ascii -> Prop) (s : cs) : Prop :=
  (exists r', vw line r' s /\ suffix r' r /\ P r') \/ more s = None.
Lemma no_brace : forall w, ~ In NUL w -> ~ In "{"%char w -> closed w.
Proof. intros w N B. split; [exact N|]. intros a b E. exfalso. apply B. rewrite E. apply in_or_app. right. now left. Qed.
(* stays or gets shorter; the character t is eaten if it is there *)
Lemma eat1b_short : forall t r r0, suffix r r0 -> dropbl r0 = r0 -> head r0 = t -> t <> NUL ->
  (List.length (eat1b (fun c => Ascii.eqb c t) r) < List.length r0)%nat.
Proof.
  intros t r r0 Hsf D H N. pose proof (suffix_len _ _ Hsf) as L. pose proof (suffix_len _ _ (suffix_eat1b (fun c => Ascii.eqb c t) r)) as L1.
  destruct (Nat.eq_dec (List.length r) (List.length r0)) as [E|E]; [|lia].
  pose proof (suffix_same _ _ Hsf E) as ->. unfold eat1b. rewrite D. destruct (head_cons r0) as (c & q & Eq & Ec); [congruence|].
  rewrite Eq in *. cbn [head hd] in H. subst c. cbn [eat1]. rewrite Ascii.eqb_refl. pose proof (drop_len fblank q). unfold dropbl. cbn [List.length]. lia.
Qed.
Lemma graph_term : forall c, fblank c = false -> c <> NUL -> fterm TOKENTERM c = true -> c = ","%char \/ c = "("%char \/ c = ")"%char \/ In c (str "=[]").
Proof. intros [[] [] [] [] [] [] [] []]; vm_compute; intros A B C; try discriminate; try (now elim B); auto 10. Qed.

Lemma good_limits : forall n lo hi l c, good l c -> good (set_limits n lo hi l) c.
Proof. intros n lo hi l c [B A]. split; [|now apply lives_limits]. intros o. rewrite num_limits. apply B. Qed.

Lemma add_list_ok : forall line r s l c, good l c -> vw line r s ->
  ends False (fun x => match x with (l', c', s') => good l' c' /\
    at_text line r (fun r' => ~ In (head (dropbl r)) (NUL :: str "=[]") -> (List.length r' < List.length r)%nat) s' end)
    (add_list ci u grow sc (l, c) s).
Proof.
  intros line r s l c G V. unfold add_list. cbn [fst].
  destruct (ctos_any line r s TOKENTERM QB QE eq_refl) as (what & s1 & r1 & E1 & V1 & S1 & P1); [cbn; intuition discriminate|exact V|].
  rewrite E1. cbn [txt obind]. set (r0 := dropbl r) in *.
  assert (D0 : dropbl r0 = r0) by (apply drop_idem, dropbl_head).
  assert (L0 : (List.length r0 <= List.length r)%nat) by apply drop_len.
  destruct (skip1bc_vw line r1 s1 "(" ltac:(discriminate) V1) as (s2 & E2 & V2 & _). rewrite E2. cbn [txt obind].
  set (r2 := eat1b (fun c => Ascii.eqb c "(") r1) in *.
  assert (S2 : suffix r2 r0) by (eapply suffix_trans; [apply suffix_eat1b|exact S1]).
  destruct (umatch_safe ci line r2 s2 (str "nodes ")) as (s3 & r3 & E3 & V3 & S3 & _); [apply no_brace; cbn; intuition discriminate|exact V2|].
  rewrite E3. cbn [txt obind].
  (* the part in the parentheses *)
  set (inner := if ok s3 then _ else _).
  assert (I : exists l' c' s' r', inner = Done (l', c', s') /\ good l' c' /\ vw line r' s' /\ suffix r' r2).
  { unfold inner. destruct (ok s3).
    - destruct (push_some_ok what (add_all_nodes sc) l c G (add_all_in sc)) as (c1 & Ep & Gp). rewrite Ep. cbn [obind]. eexists _, c1, s3, r3. auto.
    - destruct (umatch_safe ci line r3 s3 (str "0")) as (s4 & r4 & E4 & V4 & S4 & _); [apply no_brace; cbn; intuition discriminate|exact V3|].
      rewrite E4. cbn [txt obind]. assert (S42 : suffix r4 r2) by now apply suffix_trans with r3. destruct (ok s4).
      + destruct G as [B A]. destruct (push_new_ok grow what None l others c Hp B) as (c1 & Ep & Bp). rewrite Ep. cbn [obind]. eexists _, c1, s4, r4.
        split; [reflexivity|]. split; [|auto]. split; [exact Bp|]. apply lives_app; [exact A|]. intros p o [<-|[]] X. discriminate X.
      + rewrite (starts_name_vw _ _ _ V4). cbn [txt obind]. destruct (fname (head r4)) eqn:F.
        * destruct (name_read _ _ _ V4 F) as (nm & s5 & r5 & E5 & V5 & S5 & L5). rewrite E5. cbn [txt obind].
          destruct (push_some_ok what (add_branches ci nm sc) l c G (add_branches_in ci nm sc)) as (c1 & Ep & Gp). rewrite Ep. cbn [obind].
          destruct (more_names_ok line what (rounds s5) _ c1 r5 s5 Gp V5) as (os & l' & c' & s' & r' & E' & _ & _ & G' & V' & S').
          { rewrite (vw_rounds _ _ _ V5). pose proof (vw_le _ _ _ V5). lia. }
          exists l', c', s', r'. split; [exact E'|]. split; [exact G'|]. split; [exact V'|]. eapply suffix_trans; [exact S'|]. now apply suffix_trans with r4.
        * eexists _, c, s4, r4. auto. }
  destruct I as (l1 & c1 & s6 & r6 & Ei & G6 & V6 & S6). rewrite Ei. cbn [obind].
  destruct (skip1bc_vw line r6 s6 ")" ltac:(discriminate) V6) as (s7 & E7 & V7 & _). rewrite E7. cbn [txt obind].
  set (r7 := eat1b (fun c => Ascii.eqb c ")") r6) in *.
  (* progress *)
  assert (P7 : ~ In (head r0) (NUL :: str "=[]") -> (List.length r7 < List.length r)%nat).
  { intros N. assert (NN : head r0 <> NUL) by (intros X; apply N; now left).
    pose proof (suffix_len _ _ (suffix_eat1b (fun c => Ascii.eqb c ")") r6)) as L7. fold r7 in L7.
    pose proof (suffix_len _ _ S6) as L6. pose proof (suffix_len _ _ (suffix_eat1b (fun c => Ascii.eqb c "(") r1)) as L2. fold r2 in L2.
    destruct (fterm TOKENTERM (head r0)) eqn:Ft.
    - assert (Hb : fblank (head r0) = false) by apply dropbl_head.
      destruct (graph_term _ Hb NN Ft) as [X|[X|[X|X]]].
      + assert (List.length r1 < List.length r0)%nat by (apply P1; auto). lia.
      + assert (List.length r2 < List.length r0)%nat by (apply eat1b_short; [exact S1|exact D0|exact X|discriminate]). lia.
      + assert (List.length r7 < List.length r0)%nat by (apply eat1b_short; [now apply suffix_trans with r2|exact D0|exact X|discriminate]). lia.
      + elim N. now right.
    - assert (List.length r1 < List.length r0)%nat by (apply P1; auto). lia. }
  assert (S7 : suffix r7 r).
  { eapply suffix_trans; [apply suffix_eat1b|]. eapply suffix_trans; [exact S6|]. eapply suffix_trans; [exact S2|apply suffix_drop]. }
  destruct (skip1bc_vw line r7 s7 "(" ltac:(discriminate) V7) as (s8 & E8 & V8 & _). rewrite E8. cbn [txt obind].
  set (r8 := eat1b (fun c => Ascii.eqb c "(") r7) in *. assert (S8 : suffix r8 r7) by apply suffix_eat1b.
  assert (Fin : forall r' s', vw line r' s' -> suffix r' r7 -> at_text line r (fun r' => ~ In (head r0) (NUL :: str "=[]") -> (List.length r' < List.length r)%nat) s').
  { intros r' s' V' S'. left. exists r'. split; [exact V'|]. split; [now apply suffix_trans with r7|]. intros N. pose proof (suffix_len _ _ S'). specialize (P7 N). lia. }
  destruct (ok s8).
  - destruct (ctof u s8) as [[lo s9]|] eqn:E9; [|exact I]. cbn [txt obind]. destruct (ctof_some _ _ _ _ _ _ V8 E9) as (r9 & V9 & S9).
    destruct (ctof u s9) as [[hi s10]|] eqn:E10; [|exact I]. cbn [txt obind]. destruct (ctof_some _ _ _ _ _ _ V9 E10) as (r10 & V10 & S10).
    assert (S107 : suffix r10 r7) by (eapply suffix_trans; [exact S10|]; eapply suffix_trans; [exact S9|exact S8]).
    destruct (skip1bc_vw line r10 s10 ")" ltac:(discriminate) V10) as (s11 & E11 & V11 & _). rewrite E11. cbn [txt obind].
    assert (S117 : suffix (eat1b (fun c => Ascii.eqb c ")") r10) r7) by (eapply suffix_trans; [apply suffix_eat1b|exact S107]).
    destruct (ok s11).
    + cbn [ends fst snd]. split; [now apply good_limits|]. now apply Fin with (eat1b (fun c => Ascii.eqb c ")") r10).
    + destruct (check_any ci _ _ _ V11) as (s12 & E12 & K). rewrite E12. cbn [txt obind ends fst snd]. split; [now apply good_limits|].
      destruct K as [(r12 & V12 & S12)|K]; [|now right]. apply Fin with r12; [exact V12|]. eapply suffix_trans; [exact S12|exact S117].
  - cbn [ends]. split; [exact G6|]. now apply Fin with r8.
Qed.

Lemma remove_list_ok : forall line r s l c, good l c -> vw line r s ->
  ends False (fun x => match x with (l', c', s') => good l' c' /\
    at_text line r (fun r' => ~ In (head (dropbl r)) (NUL :: str "=[]") -> (List.length r' < List.length r)%nat) s' end)
    (remove_list ci long_label (l, c) s).
Proof.
  intros line r s l c G V. unfold remove_list.
  destruct (ctos_any line r s TOKENTERM QB QE eq_refl) as (w1 & s1 & r1 & E1 & V1 & S1 & P1); [cbn; intuition discriminate|exact V|].
  rewrite E1. cbn [txt obind]. set (r0 := dropbl r) in *.
  assert (D0 : dropbl r0 = r0) by (apply drop_idem, dropbl_head).
  assert (L0 : (List.length r0 <= List.length r)%nat) by apply drop_len.
  destruct (skip1bc_vw line r1 s1 "(" ltac:(discriminate) V1) as (s2 & E2 & V2 & _). rewrite E2. cbn [txt obind].
  set (r2 := eat1b (fun c => Ascii.eqb c "(") r1) in *.
  destruct (ctos_any line r2 s2 TOKENTERM QB QE eq_refl) as (w2 & s3 & r3 & E3 & V3 & S3 & _); [cbn; intuition discriminate|exact V2|].
  rewrite E3. cbn [txt obind].
  destruct (skip1bc_vw line r3 s3 ")" ltac:(discriminate) V3) as (s4 & E4 & V4 & _). rewrite E4. cbn [txt obind].
  set (r4 := eat1b (fun c => Ascii.eqb c ")") r3) in *.
  destruct G as [B A]. destruct (remove_erase_ok (fun p => wmatch ci (label long_label p) (w1 ++ str "(" ++ w2 ++ str ")")) l others c Hp B) as (c' & Er & B').
  rewrite Er. cbn [obind ends]. split; [split; [exact B'|now apply lives_filter]|].
  assert (S2 : suffix r2 r0) by (eapply suffix_trans; [apply suffix_eat1b|exact S1]).
  assert (S32 : suffix r3 r2) by (eapply suffix_trans; [exact S3|apply suffix_drop]).
  left. exists r4. split; [exact V4|]. split.
  { eapply suffix_trans; [apply suffix_eat1b|]. eapply suffix_trans; [exact S32|]. eapply suffix_trans; [exact S2|apply suffix_drop]. }
  intros N. assert (NN : head r0 <> NUL) by (intros X; apply N; now left).
  pose proof (suffix_len _ _ (suffix_eat1b (fun c => Ascii.eqb c ")") r3)) as L4. fold r4 in L4.
  pose proof (suffix_len _ _ S32) as L3. pose proof (suffix_len _ _ (suffix_eat1b (fun c => Ascii.eqb c "(") r1)) as L2. fold r2 in L2.
  destruct (fterm TOKENTERM (head r0)) eqn:Ft.
  - assert (Hb : fblank (head r0) = false) by apply dropbl_head.
    destruct (graph_term _ Hb NN Ft) as [X|[X|[X|X]]].
    + assert (List.length r1 < List.length r0)%nat by (apply P1; auto). lia.
    + assert (List.length r2 < List.length r0)%nat by (apply eat1b_short; [exact S1|exact D0|exact X|discriminate]). lia.
    + assert (List.length r4 < List.length r0)%nat by (apply eat1b_short; [now apply suffix_trans with r2|exact D0|exact X|discriminate]). lia.
    + elim N. now right.
  - assert (List.length r1 < List.length r0)%nat by (apply P1; auto). lia.
Qed.

Lemma sign_ok : forall line a r s, vw line r s -> exists a' s' r', sign a s = Done (a', s') /\ vw line r' s' /\ suffix r' r /\
  ((r' = r /\ a' = a) \/ ((List.length r' < List.length r)%nat /\ a' <> aNEW)) /\
  (a' = aNEW -> a = aNEW).
Proof.
  intros line a r s V. unfold sign. rewrite (match1c_vw _ _ _ _ V). cbn [txt obind].
  destruct (Ascii.eqb_spec (head r) "-") as [E|N].
  - destruct (head_cons r) as (c & q & Eq & Ec); [rewrite E; discriminate|]. rewrite Eq in *. exists aDELETE, (skip s), q. split; [reflexivity|].
    split; [apply (skip_vw _ _ _ _ V)|]. split; [apply suffix_cons, suffix_refl|]. split; [right; cbn [List.length]; split; [lia|discriminate]|discriminate].
  - rewrite (match1c_vw _ _ _ _ V). cbn [txt obind]. destruct (Ascii.eqb_spec (head r) "+") as [E|N'].
    + destruct (head_cons r) as (c & q & Eq & Ec); [rewrite E; discriminate|]. rewrite Eq in *. exists aADD, (skip s), q. split; [reflexivity|].
      split; [apply (skip_vw _ _ _ _ V)|]. split; [apply suffix_cons, suffix_refl|]. split; [right; cbn [List.length]; split; [lia|discriminate]|discriminate].
    + exists a, s, r. split; [reflexivity|]. split; [exact V|]. split; [apply suffix_refl|]. split; [now left|auto].
Qed.

Definition stuck (line : list ascii) : Prop := exists c, In c (str "=[]") /\ In c line.
Lemma in_suffix : forall (c : ascii) r' r, suffix r' r -> In c r' -> In c r.
Proof. intros c r' r (a & ->) I. apply in_or_app. now right. Qed.
Lemma edit_ok : forall line n a l c r s, good l c -> vw line r s ->
  ends ((n <= List.length r)%nat \/ stuck r) (fun x => match x with (l', c', s') => good l' c' end) (edit ci u grow long_label n sc a (l, c) s).
Proof.
  intros line n. induction n as [|n IH]; intros a l c r s G V; cbn [edit]; [left; lia|].
  destruct (more_vw _ _ _ V) as (s1 & E1 & V1 & _). rewrite E1. cbn [txt obind].
  destruct (Ascii.eqb_spec (head (dropbl r)) NUL) as [En|En]; cbn [negb]; [exact G|].
  destruct (sign_ok line a (dropbl r) s1 V1) as (a' & s2 & r2 & E2 & V2 & S2 & P2 & _). rewrite E2. cbn [obind].
  set (both := match a' with aDELETE => remove_list ci long_label (l, c) s2 | _ => add_list ci u grow sc (l, c) s2 end).
  assert (B : ends False (fun x => match x with (l', c', s') => good l' c' /\
    at_text line r2 (fun r' => ~ In (head (dropbl r2)) (NUL :: str "=[]") -> (List.length r' < List.length r2)%nat) s' end) both).
  { unfold both. destruct a'; [now apply add_list_ok|now apply remove_list_ok|now apply add_list_ok]. }
  apply ends_bind with (P := fun x => match x with (l', c', s') => good l' c' /\
    at_text line r2 (fun r' => ~ In (head (dropbl r2)) (NUL :: str "=[]") -> (List.length r' < List.length r2)%nat) s' end).
  { eapply ends_imp; [exact B|intros []|auto]. }
  intros [[l' c'] s'] [G' K]. destruct K as [(r' & V' & S' & P')|K].
  - eapply ends_imp; [exact (IH a' l' c' r' s' G' V')| |auto]. assert (Srr : suffix r' r) by (eapply suffix_trans; [exact S'|]; eapply suffix_trans; [exact S2|apply suffix_drop]).
    intros [Ln|St].
    + pose proof (suffix_len _ _ S') as L'. assert (L0 : (List.length (dropbl r) <= List.length r)%nat) by apply drop_len.
      destruct P2 as [[-> _]|[L2 _]]; [|left; lia].
      destruct (in_dec ascii_dec (head (dropbl (dropbl r))) (NUL :: str "=[]")) as [I|N]; [|specialize (P' N); left; lia].
      right. assert (DD : dropbl (dropbl r) = dropbl r) by (apply drop_idem, dropbl_head). rewrite DD in I. destruct I as [I|I]; [congruence|].
      exists (head (dropbl r)). split; [exact I|]. destruct (head_cons _ En) as (d & q & Eq & Ed). apply in_suffix with (dropbl r); [apply suffix_drop|]. rewrite Ed, Eq. now left.
    + right. destruct St as (d & I & J). exists d. split; [exact I|]. now apply in_suffix with r'.
  - destruct n as [|n]; [cbn [edit]|].
    { cbn [ends]. destruct (list_eq_dec ascii_dec r []) as [->|Nr]; [elim En; reflexivity|]. left. destruct r; [congruence|cbn; lia]. }
    cbn [edit]. rewrite K. exact I.
Qed.
End T.
