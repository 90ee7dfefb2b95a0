(* Recursion limits, cycles and shapes in the expression reducer *)
Require Import ZArith List Ascii Bool Lia.
Require Import Verif.Value_Model Verif.Expr_Model Verif.Expr_Sem Verif.Expr_Proofs.
Import ListNotations.
Local Open Scope Z_scope.

(* ---- more recursion never changes a result ---- *)
Section Mono.
Variable B : dbl.
Fixpoint tok_ind' (P : tok B -> Prop)
  (H1 : forall n, P (TSym n)) (H2 : forall o, P (TBin o)) (H3 : forall o, P (TUn o)) (H4 : forall v, P (TConst v))
  (H5 : forall t f, Forall P t -> Forall P f -> P (TTern t f)) (H6 : P TStop) (H7 : P TPar) (t : tok B) : P t :=
  let rec := tok_ind' P H1 H2 H3 H4 H5 H6 H7 in
  let all := fix all l : Forall P l := match l with [] => Forall_nil P | a :: r => Forall_cons a (rec a) (all r) end in
  match t with
  | TSym n => H1 n | TBin o => H2 o | TUn o => H3 o | TConst v => H4 v
  | TTern a b => H5 a b (all a) (all b) | TStop => H6 | TPar => H7
  end.
Variable lit : name -> value B.
Variable lookup : name -> option (option ptype * list (tok B)).
Variable fn : name -> option (list (tok B) -> res (list (tok B) * bool)).
Variables red red' : list (tok B) -> res (list (tok B)).
Hypothesis Le : forall l, red l <> Thrown -> red' l = red l.

Lemma rbind_mono : forall A C (r r' : res A) (f f' : A -> res C),
  (r <> Thrown -> r' = r) -> (forall a, r = OK a -> f a <> Thrown -> f' a = f a) -> rbind r f <> Thrown -> rbind r' f' = rbind r f.
Proof.
  intros A C r r' f f' H1 H2 H. destruct r as [a| |]; [|now elim H|now rewrite (H1 ltac:(discriminate))].
  rewrite (H1 ltac:(discriminate)). cbn in *. now apply H2.
Qed.
Lemma step_mono : forall t st, stack_op B lit lookup fn red t st <> Thrown -> stack_op B lit lookup fn red' t st = stack_op B lit lookup fn red t st.
Proof.
  induction t as [n|o|o|v|t f IHt IHf| |] using tok_ind'; intros st; try (intros; reflexivity).
  - cbn. unfold sym_stack_op. intros H.
    assert (Go : forall st, (if is_lit n then OK (TConst (lit n) :: st)
      else match lookup n with None => OK (TSym n :: st) | Some (ty, def) => rbind (red def) (fun e => folded B (eval_base B ty e) (fun v => TConst v :: st) (e ++ st)) end) <> Thrown ->
      (if is_lit n then OK (TConst (lit n) :: st)
      else match lookup n with None => OK (TSym n :: st) | Some (ty, def) => rbind (red' def) (fun e => folded B (eval_base B ty e) (fun v => TConst v :: st) (e ++ st)) end) =
      (if is_lit n then OK (TConst (lit n) :: st)
      else match lookup n with None => OK (TSym n :: st) | Some (ty, def) => rbind (red def) (fun e => folded B (eval_base B ty e) (fun v => TConst v :: st) (e ++ st)) end)).
    { intros s0 Hn. destruct (is_lit n); [reflexivity|]. destruct (lookup n) as [[ty def]|]; [|reflexivity]. apply rbind_mono; auto. }
    destruct st as [|[] st2]; try reflexivity; apply Go; exact H.
  - rewrite !stack_op_tern.
    assert (R : forall l, Forall (fun t => forall st, stack_op B lit lookup fn red t st <> Thrown -> stack_op B lit lookup fn red' t st = stack_op B lit lookup fn red t st) l ->
      forall s, run B lit lookup fn red l s <> Thrown -> run B lit lookup fn red' l s = run B lit lookup fn red l s).
    { intros l F. induction F as [|x l Hx F IHl]; intros s H; [reflexivity|]. cbn in *. apply rbind_mono; auto. }
    assert (K : forall st', rbind (red t) (fun te => rbind (red f) (fun fe => OK (TTern (rev te) (rev fe) :: st'))) <> Thrown ->
      rbind (red' t) (fun te => rbind (red' f) (fun fe => OK (TTern (rev te) (rev fe) :: st'))) = rbind (red t) (fun te => rbind (red f) (fun fe => OK (TTern (rev te) (rev fe) :: st')))).
    { intros st' H. apply rbind_mono; auto. intros a _ H2. apply rbind_mono; auto. }
    destruct st as [|[ | | |c| | | ] st']; try reflexivity; try exact (K _).
    destruct (is_num B c); [|exact (K _)]. destruct (to_bool B c); auto.
Qed.
Lemma run_mono : forall l s, run B lit lookup fn red l s <> Thrown -> run B lit lookup fn red' l s = run B lit lookup fn red l s.
Proof.
  induction l as [|x l IHl]; intros s H; [reflexivity|]. cbn in *. apply rbind_mono; auto. intros _. apply step_mono.
  intros E. rewrite E in H. now apply H.
Qed.
End Mono.

Lemma reduce_more : forall B lit lookup fn k l, reduce B lit lookup fn k l <> Thrown ->
  reduce B lit lookup fn (S k) l = reduce B lit lookup fn k l.
Proof.
  induction k as [|k IH]; intros l H; [now elim H|].
  change (run B lit lookup fn (reduce B lit lookup fn (S k)) l [] = run B lit lookup fn (reduce B lit lookup fn k) l []). apply run_mono; [exact IH|exact H].
Qed.
Lemma reduce_mono : forall B lit lookup fn k k' l, (k <= k')%nat -> reduce B lit lookup fn k l <> Thrown ->
  reduce B lit lookup fn k' l = reduce B lit lookup fn k l.
Proof.
  intros B lit lookup fn k k' l Hk H. induction Hk as [|k' Hk IH]; [reflexivity|]. rewrite <- IH. apply reduce_more. now rewrite IH.
Qed.


(* ---- the shape of what is built, in any arithmetic ---- *)
Section Shape.
Variable B : dbl.
Variable lit : name -> value B.
Variable pdef : name -> option (option ptype * expr B).
Variable fn : name -> option (list (tok B) -> res (list (tok B) * bool)).
Notation lookup := (scope_lookup B pdef).
(* a function replaces the call by a constant or leaves everything as it was *)
Definition tidy (f : list (tok B) -> res (list (tok B) * bool)) : Prop :=
  forall args st0 st' ok, f (TPar :: rev (flat_map (rpn B) args) ++ TStop :: st0) = OK (st', ok) ->
    if ok : bool then exists w, st' = TConst w :: st0 else st' = TPar :: rev (flat_map (rpn B) args) ++ TStop :: st0.
Hypothesis FT : forall n f, fn n = Some f -> tidy f.

Lemma bin_form : forall o a b st st', bin_stack_op B o (rev (rpn B b) ++ rev (rpn B a) ++ st) = OK st' ->
  exists e, st' = rev (rpn B e) ++ st.
Proof.
  intros o a b st st' H.
  assert (Kept : st' = TBin o :: rev (rpn B b) ++ rev (rpn B a) ++ st -> exists e, st' = rev (rpn B e) ++ st).
  { intros E. exists (EBin o a b). cbn [rpn]. rewrite !rev_app_distr. cbn. rewrite <- !app_assoc. exact E. }
  pose proof (rev_rpn B b) as Rb. pose proof (rev_rpn B a) as Ra.
  destruct b as [c1|n|n args|u b1|o1 b1 b2|c t f];
    [| |rewrite Rb in H; cbn in H; apply Kept; rewrite Rb; cbn; now injection H as <-
     |rewrite Rb in H; cbn in H; destruct (rev (rpn B b1) ++ rev (rpn B a) ++ st) as [|t2 st2] eqn:E2; [rewrite (rev_rpn B b1) in E2; discriminate|]; apply Kept; rewrite Rb; cbn; rewrite E2; now injection H as <-
     |rewrite Rb in H; cbn in H; rewrite <- app_assoc in H; destruct (rev (rpn B b2) ++ rev (rpn B b1) ++ rev (rpn B a) ++ st) as [|t2 st2] eqn:E2; [rewrite (rev_rpn B b2) in E2; discriminate|]; apply Kept; rewrite Rb; cbn; rewrite <- app_assoc, E2; now injection H as <-
     |rewrite Rb in H; cbn in H; destruct (rev (rpn B c) ++ rev (rpn B a) ++ st) as [|t2 st2] eqn:E2; [rewrite (rev_rpn B c) in E2; discriminate|]; apply Kept; rewrite Rb; cbn; rewrite E2; now injection H as <-].
  - destruct a as [c2|m|m args|u a1|o2 a1 a2|c t f].
    + cbn in H. destruct (binop B o c2 c1) as [v| | |]; cbn in H; try discriminate; injection H as <-; [now exists (EConst v)|now apply Kept].
    + cbn in H. apply Kept. now injection H as <-.
    + rewrite Ra in H, Kept. cbn in H. apply Kept. cbn. now injection H as <-.
    + rewrite Ra in H, Kept. cbn in H. apply Kept. cbn. now injection H as <-.
    + rewrite Ra in H, Kept. cbn in H. destruct (bop_eqb o2 o && commut o); [|apply Kept; cbn; now injection H as <-].
      pose proof (rev_rpn B a2) as R2.
      destruct a2 as [c3|m|m args|u a3|o3 a3 a4|c t f];
        [|rewrite R2 in H; cbn in H; apply Kept; injection H as <-; cbn [last_tok rest_tok app]; rewrite R2; reflexivity ..].
      cbn in H. destruct (binop B o c3 c1) as [v| | |]; cbn in H; try discriminate; injection H as <-.
      * exists (EBin o2 a1 (EConst v)). cbn. rewrite !rev_app_distr. reflexivity.
      * now apply Kept.
    + rewrite Ra in H, Kept. cbn in H. apply Kept. cbn. now injection H as <-.
  - destruct a as [c2|m|m args|u a1|o2 a1 a2|c t f];
      [|rewrite Ra in H, Kept; cbn in H; apply Kept; cbn; now injection H as <- ..].
    cbn in H. destruct (commut o && negb (is_str B c2)); injection H as <-; [now exists (EBin o (ESym n) (EConst c2))|now apply Kept].
Qed.

Section Level.
Variable red : list (tok B) -> res (list (tok B)).
Hypothesis Red : forall e st', red (rpn B e) = OK st' -> exists e', st' = rev (rpn B e').
Notation run := (run B lit lookup fn red).
Definition form (e : expr B) : Prop := forall st st', top_ok B st -> run (rpn B e) st = OK st' -> exists e', st' = rev (rpn B e') ++ st.

Lemma form_args : forall args, Forall form args -> forall st st', top_ok B st -> run (flat_map (rpn B) args) st = OK st' ->
  exists args', st' = rev (flat_map (rpn B) args') ++ st.
Proof.
  intros args F. induction F as [|a args Ha F IH]; intros st st' T H; cbn in *.
  - injection H as <-. now exists [].
  - rewrite run_app in H. destruct (rbind_ok _ _ _ _ _ H) as (st1 & H1 & H2). destruct (Ha _ _ T H1) as (a' & ->).
    destruct (IH _ _ (top_rpn B _ _) H2) as (args' & ->). exists (a' :: args'). cbn. now rewrite rev_app_distr, app_assoc.
Qed.
Lemma run_form : forall e, form e.
Proof.
  induction e as [v|n|n args IH|o a IH|o a b IHa IHb|c t f IHc IHt IHf] using expr_ind'; intros st st' T H.
  - cbn in H. destruct (clone B v) as [w| | |]; try discriminate. injection H as <-. now exists (EConst w).
  - cbn [rpn] in H. rewrite run_one in H. cbn [stack_op] in H. unfold sym_stack_op in H.
    assert (S1 : (if is_lit n then OK (TConst (lit n) :: st)
      else match lookup n with None => OK (TSym n :: st) | Some (ty, def) => rbind (red def) (fun e => folded B (eval_base B ty e) (fun v => TConst v :: st) (e ++ st)) end) = OK st').
    { destruct st as [|[] st2]; try exact H. destruct T. }
    clear H. destruct (is_lit n); [injection S1 as <-; now exists (EConst (lit n))|]. unfold scope_lookup in S1.
    destruct (pdef n) as [[ty e]|]; cbn in S1; [|injection S1 as <-; now exists (ESym n)].
    destruct (rbind_ok _ _ _ _ _ S1) as (est & H3 & H4). destruct (Red _ _ H3) as (e' & ->).
    destruct (eval_base B ty (rev (rpn B e'))) as [w| | |]; cbn in H4; try discriminate; injection H4 as <-; [now exists (EConst w)|now exists e'].
  - cbn [rpn] in H. cbn [Expr_Model.run stack_op] in H. cbn [rbind] in H. rewrite run_app in H.
    destruct (rbind_ok _ _ _ _ _ H) as (st1 & H1 & H2). destruct (form_args args IH (TStop :: st) st1 I H1) as (args' & ->).
    cbn in H2. destruct (fn n) as [f|] eqn:Ef; [|discriminate].
    destruct (f _) as [[st2 ok]| |] eqn:E in H2; cbn in H2; try discriminate. apply (FT n f Ef args' st) in E.
    destruct ok; [destruct E as (w & ->)|subst st2]; cbn in H2; injection H2 as <-; [now exists (EConst w)|].
    exists (ECall n args'). cbn. rewrite rev_app_distr. cbn. now rewrite <- app_assoc.
  - cbn [rpn] in H. rewrite run_app in H. destruct (rbind_ok _ _ _ _ _ H) as (st1 & H1 & H2). destruct (IH _ _ T H1) as (a' & ->).
    rewrite run_one in H2. cbn [stack_op] in H2. pose proof (rev_rpn B a') as Ra.
    assert (Lost : st' = TUn None :: rev (rpn B a') ++ st -> exists e', st' = rev (rpn B e') ++ st).
    { intros ->. exists (EUn None a'). cbn. now rewrite rev_app_distr. }
    destruct a' as [v|m|m args|u a1|o2 a1 a2|c t f];
      [|rewrite Ra in H2; cbn in H2; apply Lost; rewrite Ra; now injection H2 as <- ..].
    cbn in H2. destruct o as [u|]; [|discriminate]. destruct (unop B u v) as [w| | |]; cbn in H2; try discriminate; injection H2 as <-; [now exists (EConst w)|now apply Lost].
  - cbn [rpn] in H. rewrite run_app in H. destruct (rbind_ok _ _ _ _ _ H) as (st1 & H1 & H2). destruct (IHa _ _ T H1) as (a' & ->).
    rewrite run_app in H2. destruct (rbind_ok _ _ _ _ _ H2) as (st2 & H3 & H4). destruct (IHb _ _ (top_rpn B _ _) H3) as (b' & ->).
    rewrite run_one in H4. exact (bin_form _ _ _ _ _ H4).
  - cbn [rpn] in H. rewrite run_app in H. destruct (rbind_ok _ _ _ _ _ H) as (st1 & H1 & H2). destruct (IHc _ _ T H1) as (c' & ->).
    rewrite run_one, stack_op_tern in H2.
    assert (Both : rbind (red (rpn B t)) (fun te => rbind (red (rpn B f)) (fun fe => OK (TTern (rev te) (rev fe) :: rev (rpn B c') ++ st))) = OK st' ->
      exists e', st' = rev (rpn B e') ++ st).
    { intros E. destruct (rbind_ok _ _ _ _ _ E) as (te & E1 & E2). destruct (rbind_ok _ _ _ _ _ E2) as (fe & E3 & E4). injection E4 as <-.
      destruct (Red _ _ E1) as (t' & ->). destruct (Red _ _ E3) as (f' & ->). exists (ETern c' t' f'). cbn. rewrite rev_app_distr, !rev_involutive. reflexivity. }
    pose proof (rev_rpn B c') as Rc.
    destruct c' as [v|m|m args|u a1|o2 a1 a2|c1 t1 f1]; [|rewrite Rc in H2; cbn [last_tok rest_tok app] in H2; apply Both; rewrite Rc; exact H2 ..].
    cbn [rpn rev app] in H2. destruct (is_num B v); [|apply Both; exact H2]. destruct (to_bool B v); eauto.
Qed.
End Level.
Lemma reduce_form : forall k e st', reduce B lit lookup fn k (rpn B e) = OK st' -> exists e', st' = rev (rpn B e').
Proof.
  induction k as [|k IH]; intros e st' H; [discriminate|]. cbn in H.
  destruct (run_form _ IH e [] st' I H) as (e' & ->). exists e'. now rewrite app_nil_r.
Qed.

(* ---- definitions that refer to themselves ---- *)
(* [n] occurs in [e] other than inside the parts of a conditional *)
Fixpoint mentions (n : name) (e : expr B) : Prop :=
  match e with
  | EConst _ => False
  | ESym m => m = n
  | ECall _ args => fold_right (fun a P => mentions n a \/ P) False args
  | EUn _ a => mentions n a
  | EBin _ a b => mentions n a \/ mentions n b
  | ETern c _ _ => mentions n c
  end.
Variable Cyc : name -> Prop.
Hypothesis HC : forall n, Cyc n -> is_lit n = false /\ exists ty e, pdef n = Some (ty, e) /\ exists m, mentions m e /\ Cyc m.

Lemma cyc_run : forall red, (forall e st', red (rpn B e) = OK st' -> exists e', st' = rev (rpn B e')) ->
  (forall e m, mentions m e -> Cyc m -> forall st, red (rpn B e) <> OK st) ->
  forall e m, mentions m e -> Cyc m -> forall st st', top_ok B st -> run B lit lookup fn red (rpn B e) st <> OK st'.
Proof.
  intros red Red Cy e m.
  induction e as [v|n|n args IH|o a IH|o a b IHa IHb|c t f IHc IHt IHf] using expr_ind'; intros M HM st st' T H.
  - destruct M.
  - cbn in M. subst n. destruct (HC m HM) as (El & ty & e & Ep & m' & M' & HM').
    cbn [rpn] in H. rewrite run_one in H. cbn [stack_op] in H. unfold sym_stack_op in H.
    assert (S1 : rbind (red (rpn B e)) (fun e => folded B (eval_base B ty e) (fun v => TConst v :: st) (e ++ st)) = OK st').
    { rewrite El in H. unfold scope_lookup in H. rewrite Ep in H. cbn in H. destruct st as [|[] st2]; try exact H. destruct T. }
    destruct (rbind_ok _ _ _ _ _ S1) as (est & H3 & _). exact (Cy e m' M' HM' est H3).
  - cbn [rpn] in H. cbn [Expr_Model.run stack_op] in H. cbn [rbind] in H. rewrite run_app in H.
    destruct (rbind_ok _ _ _ _ _ H) as (st1 & H1 & _). clear H. cbn in M.
    assert (K : forall st st1, top_ok B st -> run B lit lookup fn red (flat_map (rpn B) args) st <> OK st1).
    { clear - IH M HM Red FT. induction IH as [|a args Ha IH IHl]; [destruct M|]. intros st st1 T H. cbn in H. rewrite run_app in H.
      destruct (rbind_ok _ _ _ _ _ H) as (st2 & H2 & H3). destruct M as [M|M]; [exact (Ha M HM _ _ T H2)|].
      destruct (run_form red Red a _ _ T H2) as (a' & ->). exact (IHl M _ _ (top_rpn B _ _) H3). }
    exact (K (TStop :: st) _ I H1).
  - cbn [rpn] in H. rewrite run_app in H. destruct (rbind_ok _ _ _ _ _ H) as (st1 & H1 & _). exact (IH M HM _ _ T H1).
  - cbn [rpn] in H. rewrite run_app in H. destruct (rbind_ok _ _ _ _ _ H) as (st1 & H1 & H2). destruct M as [M|M]; [exact (IHa M HM _ _ T H1)|].
    rewrite run_app in H2. destruct (rbind_ok _ _ _ _ _ H2) as (st2 & H3 & _). destruct (run_form red Red a _ _ T H1) as (a' & ->).
    exact (IHb M HM _ _ (top_rpn B _ _) H3).
  - cbn [rpn] in H. rewrite run_app in H. destruct (rbind_ok _ _ _ _ _ H) as (st1 & H1 & _). exact (IHc M HM _ _ T H1).
Qed.
Lemma cyc_reduce : forall k e m, mentions m e -> Cyc m -> forall st, reduce B lit lookup fn k (rpn B e) <> OK st.
Proof.
  induction k as [|k IH]; intros e m M HM st H; [discriminate|]. cbn in H.
  exact (cyc_run _ (reduce_form k) IH e m M HM [] st I H).
Qed.
End Shape.

(* ---- the scope matters only through what it says of each name ---- *)
Section Ext.
Variable B : dbl.
Variable lit : name -> value B.
Variables lookup lookup' : name -> option (option ptype * list (tok B)).
Variable fn : name -> option (list (tok B) -> res (list (tok B) * bool)).
Hypothesis Eq : forall n, lookup n = lookup' n.
Section Level.
Variables red red' : list (tok B) -> res (list (tok B)).
Hypothesis Er : forall l, red l = red' l.
Lemma rbind_ext : forall A C (r r' : res A) (f f' : A -> res C), r = r' -> (forall a, f a = f' a) -> rbind r f = rbind r' f'.
Proof. intros A C r r' f f' -> H. destruct r'; cbn; auto. Qed.
Lemma step_ext : forall t st, stack_op B lit lookup fn red t st = stack_op B lit lookup' fn red' t st.
Proof.
  induction t as [n|o|o|v|t f IHt IHf| |] using tok_ind'; intros st; try reflexivity.
  - cbn. unfold sym_stack_op. rewrite Eq. destruct (lookup' n) as [[ty def]|]; [rewrite Er|]; reflexivity.
  - rewrite !stack_op_tern, !Er.
    assert (Rn : forall l, Forall (fun t => forall st, stack_op B lit lookup fn red t st = stack_op B lit lookup' fn red' t st) l ->
      forall s, run B lit lookup fn red l s = run B lit lookup' fn red' l s).
    { intros l F. induction F as [|x l Hx F IHl]; intros s; [reflexivity|]. cbn. apply rbind_ext; auto. }
    destruct st as [|[ | | |c| | | ] st']; try reflexivity.
    destruct (is_num B c); [|reflexivity]. destruct (to_bool B c); auto.
Qed.
Lemma run_ext : forall l s, run B lit lookup fn red l s = run B lit lookup' fn red' l s.
Proof. induction l as [|x l IHl]; intros s; [reflexivity|]. cbn. apply rbind_ext; [apply step_ext|exact IHl]. Qed.
End Level.
Lemma reduce_ext : forall k l, reduce B lit lookup fn k l = reduce B lit lookup' fn k l.
Proof. induction k as [|k IH]; intros l; [reflexivity|]. cbn [reduce]. now apply run_ext. Qed.
End Ext.

(* ---- a reference that is reached before anything is computed ---- *)
Section Thrown.
Variable B : dbl.
Variable lit : name -> value B.
Variable lookup : name -> option (option ptype * list (tok B)).
Variable fn : name -> option (list (tok B) -> res (list (tok B) * bool)).
(* only literals and proper constants before the name *)
Definition leaf (t : tok B) : Prop := match t with TSym n => is_lit n = true | TConst v => proper B v | TStop => True | _ => False end.
Variable Cyc : name -> Prop.
Hypothesis HC : forall n, Cyc n -> is_lit n = false /\
  exists ty pre m post, lookup n = Some (ty, pre ++ TSym m :: post) /\ Forall leaf pre /\ Cyc m.

Lemma leaves_run : forall red pre, Forall leaf pre -> forall st, top_ok B st -> exists st', run B lit lookup fn red pre st = OK st' /\ top_ok B st'.
Proof.
  intros red pre F. induction F as [|t pre Ht F IH]; intros st T; [now exists st|]. cbn [run].
  destruct t as [n|o|o|v|t f| |]; [|now destruct Ht|now destruct Ht| |now destruct Ht| |now destruct Ht]; cbn [stack_op].
  - assert (E : sym_stack_op B lit lookup fn red n st = OK (TConst (lit n) :: st)).
    { unfold sym_stack_op. rewrite Ht. destruct st as [|[] st2]; try destruct T; reflexivity. }
    rewrite E. cbn [rbind]. now apply IH.
  - rewrite (clone_proper B v Ht). cbn [rbind]. now apply IH.
  - cbn [rbind]. now apply IH.
Qed.
Lemma cyc_thrown : forall k pre m post, Forall leaf pre -> Cyc m -> reduce B lit lookup fn k (pre ++ TSym m :: post) = Thrown.
Proof.
  induction k as [|k IH]; intros pre m post F HM; [reflexivity|]. cbn [reduce]. rewrite run_app.
  destruct (leaves_run (reduce B lit lookup fn k) pre F [] I) as (st & E & T). rewrite E. cbn [rbind run stack_op].
  destruct (HC m HM) as (El & ty & pre' & m' & post' & Ed & F' & HM').
  assert (Es : sym_stack_op B lit lookup fn (reduce B lit lookup fn k) m st = Thrown).
  { unfold sym_stack_op. rewrite El, Ed, (IH pre' m' post' F' HM'). destruct st as [|[] st2]; try destruct T; reflexivity. }
  now rewrite Es.
Qed.
End Thrown.
