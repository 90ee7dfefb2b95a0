(* Proofs about the expression reducer *)
Require Import ZArith List Ascii Bool Lia.
Require Import ZifyBool.
Require Import Verif.Value_Model Verif.Expr_Model Verif.Expr_Sem.
Import ListNotations.
Local Open Scope Z_scope.

Section Expr.
Variable B : dbl.

(* induction that reaches into argument lists *)
Fixpoint expr_ind' (P : expr B -> Prop)
  (Hc : forall v, P (EConst v)) (Hs : forall n, P (ESym n))
  (Hf : forall n args, Forall P args -> P (ECall n args))
  (Hu : forall o a, P a -> P (EUn o a)) (Hb : forall o a b, P a -> P b -> P (EBin o a b))
  (Ht : forall c t f, P c -> P t -> P f -> P (ETern c t f)) (e : expr B) : P e :=
  let rec := expr_ind' P Hc Hs Hf Hu Hb Ht in
  match e with
  | EConst v => Hc v
  | ESym n => Hs n
  | ECall n args => Hf n args ((fix go l : Forall P l := match l with [] => Forall_nil P | a :: r => Forall_cons a (rec a) (go r) end) args)
  | EUn o a => Hu o a (rec a)
  | EBin o a b => Hb o a b (rec a) (rec b)
  | ETern c t f => Ht c t f (rec c) (rec t) (rec f)
  end.

Lemma rbind_ok : forall A C (r : res A) (f : A -> res C) y, rbind r f = OK y -> exists x, r = OK x /\ f x = OK y.
Proof. intros A C [a| |] f y H; try discriminate. now exists a. Qed.

(* the last token of an expression *)
Definition last_tok (e : expr B) : tok B :=
  match e with
  | EConst v => TConst v | ESym n => TSym n | ECall n _ => TSym n | EUn o _ => TUn o | EBin o _ _ => TBin o
  | ETern _ t f => TTern (rpn B t) (rpn B f)
  end.
Definition rest_tok (e : expr B) : list (tok B) :=
  match e with
  | EConst v => [] | ESym n => [] | ECall n args => TPar :: rev (flat_map (rpn B) args) ++ [TStop]
  | EUn o a => rev (rpn B a) | EBin o a b => rev (rpn B b) ++ rev (rpn B a) | ETern c t f => rev (rpn B c)
  end.
Lemma rev_rpn : forall e, rev (rpn B e) = last_tok e :: rest_tok e.
Proof.
  intros [v|n|n args|o a|o a b|c t f]; cbn; try reflexivity.
  - rewrite rev_app_distr. cbn. reflexivity.
  - now rewrite rev_app_distr.
  - rewrite !rev_app_distr. cbn. now rewrite <- ?app_assoc.
  - now rewrite rev_app_distr.
Qed.
Lemma last_not_par : forall e, last_tok e <> TPar.
Proof. intros []; discriminate. Qed.
Lemma last_const : forall e v, last_tok e = TConst v -> e = EConst v.
Proof. intros []; cbn; intros; congruence. Qed.

Definition top_ok (st : list (tok B)) : Prop := match st with TPar :: _ => False | _ => True end.
Lemma top_rpn : forall e st, top_ok (rev (rpn B e) ++ st).
Proof. intros e st. rewrite rev_rpn. cbn. generalize (last_not_par e). destruct (last_tok e); cbn; auto. Qed.

Lemma rev_one : forall e v, rev (rpn B e) = [TConst v] -> e = EConst v.
Proof. intros e v H. rewrite rev_rpn in H. injection H as H _. now apply last_const. Qed.

Section Steps.
Variable lit : name -> value B.
Variable lookup : name -> option (option ptype * list (tok B)).
Variable fn : name -> option (list (tok B) -> res (list (tok B) * bool)).
Notation run := (run B lit lookup fn).
Notation stack_op := (stack_op B lit lookup fn).

Lemma run_app : forall red l m s, run red (l ++ m) s = rbind (run red l s) (run red m).
Proof.
  intros red l. induction l as [|x l IH]; intros m s; cbn; [reflexivity|].
  destruct (stack_op red x s); cbn; [apply IH|reflexivity|reflexivity].
Qed.
Lemma run_one : forall red x s, run red [x] s = stack_op red x s.
Proof. intros red x s. cbn. now destruct (stack_op red x s). Qed.
Lemma stack_op_tern : forall red t f st, stack_op red (TTern t f) st =
  match st with
  | [] => Undef
  | TConst c :: st' =>
      if is_num B c then if to_bool B c then run red t st' else run red f st'
      else rbind (red t) (fun te => rbind (red f) (fun fe => OK (TTern (rev te) (rev fe) :: st)))
  | _ => rbind (red t) (fun te => rbind (red f) (fun fe => OK (TTern (rev te) (rev fe) :: st)))
  end.
Proof. intros red t f st. cbn [stack_op]. destruct st as [|[] st']; reflexivity. Qed.
End Steps.

(* ---- operators on constants against their exact meaning ---- *)
Hypothesis L : exact B.

Lemma truth_sem : forall v x, sem_of B v = Some x -> to_bool B v = struth B x.
Proof.
  intros [w [] n|w d|w [[|c s]|]] x H; try discriminate; injection H as <-; cbn; try reflexivity.
  - unfold nz. rewrite (ex_cmp_ofz B L). destruct (Z.compare_spec n 0); lia.
  - unfold dne, deq, nz. destruct (dcmp B d (dofz B 0)) as [[]|]; reflexivity.
Qed.

Ltac same_test := match goal with |- (if ?a then _ else _) = (if ?b then _ else _) => replace b with a; [reflexivity|] end.
Lemma strcmp_anti : forall a b, strcmp b a = CompOpp (strcmp a b).
Proof.
  induction a as [|x a IH]; intros [|y b]; cbn; try reflexivity.
  rewrite (N.compare_antisym (N_of_ascii x) (N_of_ascii y)). destruct (N.compare _ _); cbn; auto.
Qed.
Ltac zc := repeat match goal with |- context [Z.compare ?a ?b] => destruct (Z.compare_spec a b) end.
Lemma z_cmp : forall a b, option_map CompOpp (Some (Z.compare a b)) = Some (Z.compare b a).
Proof. intros. cbn. now rewrite (Z.compare_antisym a b). Qed.

(* what evaluating an operator on two constants with a meaning can give *)
Lemma binop_sem : forall o a b x y s,
  plain B a -> plain B b -> sem_of B a = Some x -> sem_of B b = Some y -> sop B o x y = Some s ->
  match binop B o a b with Val w => sem_of B w = Some s /\ plain B w | Null => False | UB => True | Throw => False end.
Proof.
  intros o a b x y s Pa Pb Sa Sb H.
  assert (Ta := truth_sem _ _ Sa). assert (Tb := truth_sem _ _ Sb).
  destruct o;
  try (cbn in H; injection H as <-; cbn; rewrite Ta, Tb; unfold sbool; split; [|exact I]; destruct (struth B x), (struth B y); reflexivity);
  (destruct a as [va [] na|va da|va [sa|]]; try discriminate; injection Sa as <-;
   destruct b as [vb [] nb|vb db|vb [sb|]]; try discriminate; injection Sb as <-; cbn in H; try discriminate);
  try (destruct va; [destruct Pa|]); try (destruct vb; [destruct Pb|]);
  try injection H as <-; cbn; unfold ival, ibool;
  try match goal with |- context [fits ?n] => destruct (fits n); [|exact I] end;
  try (split; [cbn; unfold sbool | exact I]);
  try reflexivity.
  (* arithmetic *)
  all: try (rewrite ?(ex_ofz_add B L), ?(ex_ofz_sub B L), ?(ex_ofz_mul B L); try reflexivity; try (now rewrite (ex_add_comm B L)); try (now rewrite (ex_mul_comm B L))).
  all: try discriminate.
  all: rewrite ?(ex_cmp_ofz B L); unfold deq, dne, deq, dlt, dgt, dle, dge;
    repeat match goal with |- context [dcmp B ?a ?b] =>
      match goal with |- context [dcmp B b a] => rewrite (ex_cmp_anti B L b a) end end.
  all: try (match goal with |- context [dcmp B ?a ?b] => destruct (dcmp B a b) as [[]|]; reflexivity end).
  all: try (rewrite (strcmp_anti sa sb); destruct (strcmp sa sb); reflexivity).
  all: f_equal; f_equal; f_equal; same_test; zc; lia.
Qed.

Lemma unop_sem : forall u a x s,
  plain B a -> sem_of B a = Some x -> suop B u x = Some s ->
  match unop B u a with Val w => sem_of B w = Some s /\ plain B w | Null => False | UB => True | Throw => False end.
Proof.
  intros u a x s Pa Sa H. assert (Ta := truth_sem _ _ Sa).
  destruct u.
  3:{ cbn in H. injection H as <-. cbn. rewrite Ta. split; [|exact I]. unfold sbool. destruct (struth B x); reflexivity. }
  all: destruct a as [va [] na|va da|va [sa|]]; try discriminate; injection Sa as <-; cbn in H; try discriminate; injection H as <-; cbn; unfold ival;
    try (destruct (fits _); [|exact I]); split; try exact I; cbn; rewrite ?(ex_ofz_neg B L); reflexivity.
Qed.
Lemma plain_result : forall o a b w, plain B a -> plain B b -> binop B o a b = Val w -> plain B w.
Proof.
  intros o a b w Pa Pb H.
  destruct a as [[] ia na|va da|va sa]; try destruct Pa; (destruct b as [[] ib nb|vb db|vb sb]; try destruct Pb);
  destruct o; cbn in H; unfold irem, idiv, ibool, logic_or, logic_and, str_add in H; unfold ival in H;
  repeat match type of H with (if ?c then _ else _) = _ => destruct c; try discriminate | match ?c with _ => _ end = _ => destruct c; try discriminate end;
  try discriminate; injection H as <-; exact I.
Qed.
Lemma plain_unary : forall u a w, unop B u a = Val w -> plain B w.
Proof.
  intros u a w H. destruct a as [v i n|v d|v s], u; cbn in H; unfold ival, logic_not in H;
  repeat match type of H with (if ?c then _ else _) = _ => destruct c; try discriminate end; try discriminate; injection H as <-; exact I.
Qed.
Lemma plain_assign : forall t a w, t <> PInt true -> assign B t a = Val w -> plain B w.
Proof.
  intros t a w N H. destruct t as [[]|v|[]]; try congruence; destruct a as [va ia na|va da|[] sa]; cbn in H; try discriminate;
    try (destruct (dtoi B da); cbn in H; [unfold ival in H; destruct (fits _) in H; try discriminate|discriminate]); injection H as <-; exact I.
Qed.
Lemma clone_ok : forall a, plain B a -> exists w, clone B a = Val w /\ plain B w /\ sem_of B w = sem_of B a.
Proof. intros [[] i n|v d|[] s] P; try destruct P; cbn; eexists; (split; [reflexivity|split; [exact I|reflexivity]]). Qed.
Lemma assign_sem : forall t a x s, t <> PInt true -> sem_of B a = Some x -> sconv B (Some t) x = Some s ->
  match assign B t a with Val w => sem_of B w = Some s | Null => False | UB => True | Throw => False end.
Proof.
  intros t a x s N Sa H.
  destruct a as [va [] na|va da|va [sa|]]; try discriminate; injection Sa as <-; destruct t as [[]|v|[]]; try congruence; cbn in H; try discriminate; cbn.
  - rewrite (ex_toi_ofz B L) in H. injection H as <-. reflexivity.
  - assumption.
  - destruct (dtoi B da) as [n|]; [|exact I]. injection H as <-. unfold ival. destruct (fits n); [reflexivity|exact I].
  - assumption.
  - destruct va; [|discriminate]. cbn. congruence.
  - injection H as <-. reflexivity.
Qed.

(* ---- the reducer ---- *)
Variable lit : name -> value B.
Variable pdef : name -> option (option ptype * expr B).
Variable fval : name -> list (sval B) -> option (sval B).
Variable fn : name -> option (list (tok B) -> res (list (tok B) * bool)).
Hypothesis OS : ordinary_scope B lit pdef fval.
Hypothesis FO : functions_ok B fval fn.
Notation Den := (Den B lit pdef fval).
Notation lookup := (scope_lookup B pdef).
Notation run := (run B lit lookup fn).

(* e' is a correct reduction of e *)
Definition keeps (e e' : expr B) : Prop :=
  plain_expr B e' /\
  (named B e' -> forall rho s, Den rho e s -> Den rho e' s) /\
  (forall s, closed_value B lit pdef fval e s -> exists w, e' = EConst w /\ sem_of B w = Some s).

Lemma den_const : forall rho v s, Den rho (EConst v) s -> sem_of B v = Some s.
Proof. intros rho v s H. now inversion H. Qed.
Lemma den_bin : forall rho o a b s, Den rho (EBin o a b) s -> exists x y, Den rho a x /\ Den rho b y /\ sop B o x y = Some s.
Proof. intros rho o a b s H. inversion H; subst. eauto. Qed.
Lemma den_un : forall rho o a s, Den rho (EUn o a) s -> exists u x, o = Some u /\ Den rho a x /\ suop B u x = Some s.
Proof. intros rho o a s H. inversion H; subst. eauto. Qed.
Lemma den_tern : forall rho c t f s, Den rho (ETern c t f) s -> exists d, Den rho c (SN d) /\ Den rho (if nz B d then t else f) s.
Proof. intros rho c t f s H. inversion H; subst. eauto. Qed.
Lemma den_call : forall rho n args s, Den rho (ECall n args) s -> exists ss, Forall2 (Den rho) args ss /\ fval n ss = Some s.
Proof. intros rho n args s H. inversion H; subst. eauto. Qed.
Lemma keeps_kept : forall o a b a' b',
  keeps a a' -> keeps b b' ->
  (forall x y s v w, a' = EConst v -> b' = EConst w -> sem_of B v = Some x -> sem_of B w = Some y -> sop B o x y = Some s -> False) ->
  keeps (EBin o a b) (EBin o a' b').
Proof.
  intros o a b a' b' (Pa & Na & Ca) (Pb & Nb & Cb) N. split; [now split|]. split.
  - intros [Ma Mb] rho s H. destruct (den_bin _ _ _ _ _ H) as (x & y & Hx & Hy & Hs). econstructor; [apply Na; eassumption|apply Nb; eassumption|assumption].
  - intros s H. destruct (den_bin _ _ _ _ _ H) as (x & y & Hx & Hy & Hs). destruct (Ca _ Hx) as (v & -> & Hv). destruct (Cb _ Hy) as (w & -> & Hw). exfalso. eapply N; eauto.
Qed.

Lemma bin_shape : forall o a b a' b' st st', keeps a a' -> keeps b b' ->
  bin_stack_op B o (rev (rpn B b') ++ rev (rpn B a') ++ st) = OK st' ->
  exists e', st' = rev (rpn B e') ++ st /\ keeps (EBin o a b) e'.
Proof.
  intros o a b a' b' st st' Ka Kb H.
  assert (Kept : st' = TBin o :: rev (rpn B b') ++ rev (rpn B a') ++ st ->
    (forall x y s v w, a' = EConst v -> b' = EConst w -> sem_of B v = Some x -> sem_of B w = Some y -> sop B o x y = Some s -> False) ->
    exists e', st' = rev (rpn B e') ++ st /\ keeps (EBin o a b) e').
  { intros E N. exists (EBin o a' b'). split.
    - cbn [rpn]. rewrite !rev_app_distr. cbn. rewrite <- !app_assoc. exact E.
    - now apply keeps_kept. }
  pose proof (rev_rpn b') as Rb. pose proof (rev_rpn a') as Ra.
  destruct b' as [c1|n|n args|u b1|o1 b1 b2|c t f].
  - (* constant on the right *)
    destruct a' as [c2|m|m args|u a1|o2 a1 a2|c t f].
    + cbn in H.
      assert (Pc : plain B c2 /\ plain B c1) by (split; [apply Ka|apply Kb]). destruct Pc as [P2 P1].
      destruct (binop B o c2 c1) as [v| | |] eqn:E; cbn in H; try discriminate; injection H as <-.
      * exists (EConst v). split; [reflexivity|]. split; [exact (plain_result _ _ _ _ P2 P1 E)|]. split.
        -- intros _ rho s Hd. destruct (den_bin _ _ _ _ _ Hd) as (x & y & Hx & Hy & Hs).
           assert (Xa : Den rho (EConst c2) x) by (apply Ka; [exact I|assumption]). assert (Xb : Den rho (EConst c1) y) by (apply Kb; [exact I|assumption]).
           apply den_const in Xa. apply den_const in Xb.
           pose proof (binop_sem _ _ _ _ _ _ P2 P1 Xa Xb Hs) as X. rewrite E in X. constructor. tauto.
        -- intros s Hd. destruct (den_bin _ _ _ _ _ Hd) as (x & y & Hx & Hy & Hs). destruct Ka as (_ & _ & Ka), Kb as (_ & _ & Kb).
           destruct (Ka _ Hx) as (v2 & E2 & S2). destruct (Kb _ Hy) as (v1 & E1 & S1). injection E2 as <-. injection E1 as <-.
           pose proof (binop_sem _ _ _ _ _ _ P2 P1 S2 S1 Hs) as X. rewrite E in X. exists v. tauto.
      * apply Kept; [reflexivity|]. intros x y s v' w E2 E1 Sv Sw Hs. injection E2 as <-. injection E1 as <-.
        pose proof (binop_sem _ _ _ _ _ _ P2 P1 Sv Sw Hs) as X. rewrite E in X. exact X.
    + cbn in H. apply Kept; [now injection H as <-|discriminate].
    + rewrite Ra in H. cbn in H. apply Kept; [rewrite Ra; cbn; now injection H as <-|discriminate].
    + rewrite Ra in H. cbn in H. apply Kept; [rewrite Ra; cbn; now injection H as <-|discriminate].
    + (* an operator on the left *)
      rewrite Ra in H. cbn in H.
      destruct (bop_eqb o2 o && commut o) eqn:Eo.
      2:{ apply Kept; [rewrite Ra; cbn; now injection H as <-|discriminate]. }
      pose proof (rev_rpn a2) as R2. 
      destruct a2 as [c3|m|m args|u a3|o3 a3 a4|c t f];
        [|rewrite R2 in H; cbn in H; apply Kept; [injection H as <-; rewrite Ra; cbn [last_tok rest_tok app]; rewrite R2; reflexivity|discriminate] ..].
      cbn in H.
      assert (o2 = o) by (destruct o2, o; try discriminate; reflexivity). subst o2.
      assert (P1 : plain B c1) by apply Kb. assert (P3 : plain_expr B a1 /\ plain B c3) by apply Ka. destruct P3 as [Pa1 P3].
      destruct (binop B o c3 c1) as [v| | |] eqn:E; cbn in H; try discriminate; injection H as <-.
      * exists (EBin o a1 (EConst v)). split; [cbn; rewrite !rev_app_distr; reflexivity|]. split; [split; [assumption|exact (plain_result _ _ _ _ P3 P1 E)]|]. split.
        -- intros [N1 _] rho s Hd. destruct (den_bin _ _ _ _ _ Hd) as (x & y & Hx & Hy & Hs).
           assert (Xa : Den rho (EBin o a1 (EConst c3)) x) by (apply Ka; [now split|assumption]). assert (Xb : Den rho (EConst c1) y) by (apply Kb; [exact I|assumption]).
           apply den_const in Xb. destruct (den_bin _ _ _ _ _ Xa) as (x0 & y0 & Hx0 & Hy0 & Hs0). apply den_const in Hy0.
           (* (x0 o y0) o y = x0 o (y0 o y) *)
           assert (As : exists z, sop B o y0 y = Some z /\ sop B o x0 z = Some s).
           { clear - L Eo Hs0 Hs. destruct o; try discriminate Eo.
             - destruct x0 as [x0|q0 s0], y0 as [y0|q1 s1]; try discriminate Hs0. injection Hs0 as <-. destruct y as [y|]; try discriminate Hs. injection Hs as <-.
               eexists; split; [reflexivity|]. cbn. now rewrite (ex_mul_assoc B L).
             - destruct x0 as [x0|q0 s0], y0 as [y0|q1 s1]; try discriminate Hs0.
               + injection Hs0 as <-. destruct y as [y|]; try discriminate Hs. injection Hs as <-. eexists; split; [reflexivity|]. cbn. now rewrite (ex_add_assoc B L).
               + destruct q0, q1; try discriminate Hs0. injection Hs0 as <-. destruct y as [y|[] s2]; try discriminate Hs. injection Hs as <-.
                 eexists; split; [reflexivity|]. cbn. now rewrite app_assoc. }
           destruct As as (z & Z1 & Z2).
           pose proof (binop_sem _ _ _ _ _ _ P3 P1 Hy0 Xb Z1) as X. rewrite E in X. econstructor; [eassumption|constructor; apply X|assumption].
        -- intros s Hd. destruct (den_bin _ _ _ _ _ Hd) as (x & y & Hx & Hy & Hs). destruct Ka as (_ & _ & Ka). destruct (Ka _ Hx) as (v2 & E2 & _). discriminate.
      * apply Kept; [|discriminate]. cbn. rewrite !rev_app_distr. reflexivity.
    + rewrite Ra in H. cbn in H. apply Kept; [rewrite Ra; cbn; now injection H as <-|discriminate].
  - (* a name on the right *)
    destruct a' as [c2|m|m args|u a1|o2 a1 a2|c t f];
      try (rewrite Ra in H; cbn in H; apply Kept; [rewrite Ra; cbn; now injection H as <-|discriminate]).
    cbn in H. destruct (commut o && negb (is_str B c2)) eqn:E.
    2:{ apply Kept; [now injection H as <-|discriminate]. }
    injection H as <-. exists (EBin o (ESym n) (EConst c2)). split; [reflexivity|]. split; [split; [exact I|apply Ka]|]. split.
    + intros _ rho s Hd. destruct (den_bin _ _ _ _ _ Hd) as (x & y & Hx & Hy & Hs).
      assert (Xa : Den rho (EConst c2) x) by (apply Ka; [exact I|assumption]). assert (Xb : Den rho (ESym n) y) by (apply Kb; [exact I|assumption]).
      econstructor; [exact Xb|exact Xa|]. apply den_const in Xa.
      destruct o; try discriminate; (destruct c2 as [v2 [] n2|v2 d2|v2 s2]; try discriminate; injection Xa as <-; destruct y as [y|]; cbn in Hs; try discriminate; injection Hs as <-; cbn).
      * now rewrite (ex_mul_comm B L).
      * now rewrite (ex_mul_comm B L).
      * now rewrite (ex_add_comm B L).
      * now rewrite (ex_add_comm B L).
    + intros s Hd. destruct (den_bin _ _ _ _ _ Hd) as (x & y & Hx & Hy & Hs). destruct Kb as (_ & _ & Kb). destruct (Kb _ Hy) as (v & Ev & _). discriminate.
  - rewrite Rb in H. cbn in H. apply Kept; [rewrite Rb; cbn; now injection H as <-|discriminate].
  - rewrite Rb in H. cbn in H. destruct (rev (rpn B b1) ++ rev (rpn B a') ++ st) as [|t2 st2] eqn:E2.
    + rewrite (rev_rpn b1) in E2. discriminate.
    + apply Kept; [rewrite Rb; cbn; rewrite E2; now injection H as <-|discriminate].
  - rewrite Rb in H. cbn in H. rewrite <- app_assoc in H. destruct (rev (rpn B b2) ++ rev (rpn B b1) ++ rev (rpn B a') ++ st) as [|t2 st2] eqn:E2.
    + rewrite (rev_rpn b2) in E2. discriminate.
    + apply Kept; [rewrite Rb; cbn; rewrite <- app_assoc, E2; now injection H as <-|discriminate].
  - rewrite Rb in H. cbn in H. destruct (rev (rpn B c) ++ rev (rpn B a') ++ st) as [|t2 st2] eqn:E2.
    + rewrite (rev_rpn c) in E2. discriminate.
    + apply Kept; [rewrite Rb; cbn; rewrite E2; now injection H as <-|discriminate].
Qed.

Lemma keeps_tern : forall c t f c' t' f', keeps c c' -> keeps t t' -> keeps f f' ->
  (forall v d, c' = EConst v -> sem_of B v = Some (SN d) -> False) ->
  keeps (ETern c t f) (ETern c' t' f').
Proof.
  intros c t f c' t' f' (Pc & Nc & Cc) (Pt & Nt & Ct) (Pf & Nf & Cf) N. split; [now repeat split|]. split.
  - intros (Mc & Mt & Mf) rho s H. destruct (den_tern _ _ _ _ _ H) as (d & Hd & Hs).
    econstructor; [exact (Nc Mc _ _ Hd)|]. destruct (nz B d); auto.
  - intros s H. destruct (den_tern _ _ _ _ _ H) as (d & Hd & Hs). destruct (Cc _ Hd) as (v & E & Sv). exfalso. eapply N; eauto.
Qed.

Section Level.
Variable red : list (tok B) -> res (list (tok B)).
Hypothesis Red : forall e st', plain_expr B e -> red (rpn B e) = OK st' -> exists e', st' = rev (rpn B e') /\ keeps e e'.

Definition run_good (e : expr B) : Prop := plain_expr B e -> forall st st', top_ok st -> run red (rpn B e) st = OK st' ->
  exists e', st' = rev (rpn B e') ++ st /\ keeps e e'.

Lemma run_args : forall args, Forall run_good args -> fold_right (fun a P => plain_expr B a /\ P) True args ->
  forall st st', top_ok st -> run red (flat_map (rpn B) args) st = OK st' ->
  exists args', st' = rev (flat_map (rpn B) args') ++ st /\ Forall2 keeps args args'.
Proof.
  intros args F. induction F as [|a args Ha F IH]; intros P st st' T H; cbn in *.
  - injection H as <-. now exists [].
  - destruct P as [Pa P]. rewrite run_app in H. destruct (rbind_ok _ _ _ _ _ H) as (st1 & H1 & H2).
    destruct (Ha Pa _ _ T H1) as (a' & -> & Ka).
    destruct (IH P _ _ (top_rpn _ _) H2) as (args' & -> & Kr).
    exists (a' :: args'). split; [cbn; now rewrite rev_app_distr, app_assoc|now constructor].
Qed.

Lemma named_args : forall args args', Forall2 keeps args args' -> fold_right (fun a P => named B a /\ P) True args' ->
  forall rho ss, Forall2 (Den rho) args ss -> Forall2 (Den rho) args' ss.
Proof.
  intros args args' K. induction K as [|a a' args args' Ka K IH]; intros N rho ss F; inversion F; subst; constructor.
  - apply Ka; [apply N|assumption].
  - apply IH; [apply N|assumption].
Qed.
Lemma closed_args : forall args args', Forall2 keeps args args' ->
  forall ss, Forall2 (closed_value B lit pdef fval) args ss ->
  exists vs, args' = map EConst vs /\ Forall2 (fun v x => sem_of B v = Some x) vs ss.
Proof.
  intros args args' K. induction K as [|a a' args args' Ka K IH]; intros ss F; inversion F; subst.
  - exists []. split; [reflexivity|constructor].
  - destruct Ka as (_ & _ & Ca). match goal with H : closed_value _ _ _ _ a _ |- _ => destruct (Ca _ H) as (w & -> & Sw) end.
    match goal with H : Forall2 _ args _ |- _ => destruct (IH _ H) as (vs & -> & Fv) end.
    exists (w :: vs). split; [reflexivity|now constructor].
Qed.
Lemma den_consts : forall rho vs ss, Forall2 (Den rho) (map EConst vs) ss -> Forall2 (fun v x => sem_of B v = Some x) vs ss.
Proof.
  intros rho vs. induction vs as [|v vs IH]; intros ss H; inversion H; subst; constructor; auto. eapply den_const; eauto.
Qed.
Lemma named_consts : forall vs : list (value B), fold_right (fun a P => named B a /\ P) True (map EConst vs).
Proof. induction vs; cbn; auto. Qed.
Lemma plain_args : forall args args', Forall2 keeps args args' -> fold_right (fun a P => plain_expr B a /\ P) True args'.
Proof. intros args args' K. induction K as [|a a' args args' Ka K IH]; cbn; [exact I|]. split; [apply Ka|exact IH]. Qed.

Lemma run_expr : forall e, run_good e.
Proof.
  induction e as [v|n|n args IH|o a IH|o a b IHa IHb|c t f IHc IHt IHf] using expr_ind'; intros P st st' T H.
  - (* constant *)
    cbn in H. destruct (clone_ok v P) as (w & E & Pw & Sw). rewrite E in H. cbn in H. injection H as <-.
    exists (EConst w). split; [reflexivity|]. split; [exact Pw|]. split.
    + intros _ rho s Hd. apply den_const in Hd. constructor. congruence.
    + intros s Hd. apply den_const in Hd. exists w. split; [reflexivity|congruence].
  - (* name *)
    cbn [rpn Expr_Model.run stack_op] in H. destruct (rbind_ok _ _ _ _ _ H) as (st1 & H1 & H2). injection H2 as <-. clear H.
    assert (S1 : sym_stack_op B lit lookup fn red n st =
      if is_lit n then OK (TConst (lit n) :: st)
      else match lookup n with None => OK (TSym n :: st) | Some (ty, def) => rbind (red def) (fun e => folded B (eval_base B ty e) (fun v => TConst v :: st) (e ++ st)) end).
    { destruct st as [|[] st2]; try reflexivity. destruct T. }
    rewrite S1 in H1. clear S1. destruct (is_lit n) eqn:El.
    + injection H1 as <-. exists (EConst (lit n)). split; [reflexivity|]. split; [exact (os_lit _ _ _ _ OS n)|]. split.
      * intros _ rho s Hd. inversion Hd; subst; try congruence. now constructor.
      * intros s Hd. inversion Hd; subst; try congruence. eauto.
    + unfold scope_lookup in H1. destruct (pdef n) as [[ty e]|] eqn:Ep; cbn in H1.
      2:{ injection H1 as <-. exists (ESym n). split; [reflexivity|]. split; [exact I|]. split; [auto|].
          intros s Hd. inversion Hd; subst; congruence. }
      destruct (rbind_ok _ _ _ _ _ H1) as (est & H3 & H4). clear H1.
      destruct (Red e est (os_def _ _ _ _ OS n ty e Ep) H3) as (e' & -> & (Pe & Ne & Ce)).
      assert (Nt : ty <> Some (PInt true)) by (intros ->; exact (os_ty _ _ _ _ OS n e Ep)).
      assert (Dn : forall rho s, Den rho (ESym n) s -> exists x, Den rho e x /\ sconv B ty x = Some s).
      { intros rho s Hd. inversion Hd; subst; try congruence. match goal with X : pdef n = Some _ |- _ => rewrite Ep in X; injection X as <- <- end. eauto. }
      destruct (eval_base B ty (rev (rpn B e'))) as [w| | |] eqn:Ee; cbn in H4; try discriminate; injection H4 as <-.
      * (* a constant *)
        unfold eval_base in Ee. destruct (rev (rpn B e')) as [|[ | | |v| | | ] [|]] eqn:Er; try discriminate. apply rev_one in Er. subst e'.
        exists (EConst w). split; [reflexivity|].
        assert (Sem : forall x s, sem_of B v = Some x -> sconv B ty x = Some s -> sem_of B w = Some s).
        { intros x s Sv Sc. destruct ty as [t|].
          - pose proof (assign_sem t v x s ltac:(congruence) Sv Sc) as X. now rewrite Ee in X.
          - destruct (clone_ok v Pe) as (w' & E' & _ & S'). rewrite E' in Ee. injection Ee as ->. cbn in Sc. congruence. }
        split; [|split].
        -- destruct ty as [t|]; [exact (plain_assign t v w ltac:(congruence) Ee)|].
           destruct (clone_ok v Pe) as (w' & E' & P' & _). rewrite E' in Ee. injection Ee as ->. exact P'.
        -- intros _ rho s Hd. destruct (Dn _ _ Hd) as (x & Hx & Sc). pose proof (den_const _ _ _ (Ne I _ _ Hx)) as Hv. constructor. eauto.
        -- intros s Hd. destruct (Dn _ _ Hd) as (x & Hx & Sc). destruct (Ce _ Hx) as (w' & Ew & Sw). injection Ew as <-. eauto.
      * (* the definition is kept *)
        exists e'. split; [reflexivity|].
        assert (Cl : forall s, closed_value B lit pdef fval e s -> forall s', sconv B ty s = Some s' -> False).
        { intros s Hs s' Sc. destruct (Ce _ Hs) as (w & -> & Sw). cbn in Ee. destruct ty as [t|].
          - pose proof (assign_sem t w s s' ltac:(congruence) Sw Sc) as X. now rewrite Ee in X.
          - destruct (clone_ok w Pe) as (w' & E' & _). congruence. }
        split; [exact Pe|]. split.
        -- intros Nn rho s Hd. destruct (Dn _ _ Hd) as (x & Hx & Sc).
           assert (x = s).
           { destruct ty as [t|]; [|cbn in Sc; congruence]. destruct (lossy t) eqn:Lt.
             - exfalso. destruct (os_conv _ _ _ _ OS n t e Ep Lt) as (s0 & H0). destruct (Ce _ H0) as (w & -> & Sw).
               pose proof (den_const _ _ _ (Ne I _ _ Hx)) as Hv. assert (s0 = x) by congruence. subst s0. exact (Cl _ H0 _ Sc).
             - destruct t as [|v|[]]; try discriminate; destruct x as [d|[] q]; cbn in Sc; congruence. }
           subst x. now apply Ne.
        -- intros s Hd. destruct (Dn _ _ Hd) as (x & Hx & Sc). exfalso. exact (Cl _ Hx _ Sc).
  - (* call *)
    cbn [rpn] in H. cbn [Expr_Model.run stack_op] in H. cbn [rbind] in H. rewrite run_app in H.
    destruct (rbind_ok _ _ _ _ _ H) as (st1 & H1 & H2). clear H.
    destruct (run_args args IH P (TStop :: st) st1 I H1) as (args' & -> & Ka).
    cbn in H2. destruct (fn n) as [f|] eqn:Ef; [|discriminate].
    destruct (FO n f Ef args' st) as [(vs & w & Ev & E & Pw & Sw)|[[E Nv]|E]]; cbn in E; rewrite E in H2; cbn in H2; [| |discriminate]; injection H2 as <-.
    + exists (EConst w). split; [reflexivity|]. split; [exact Pw|]. subst args'. split.
      * intros _ rho s Hd. destruct (den_call _ _ _ _ Hd) as (ss & F & Fv).
        constructor. eapply Sw; [|exact Fv]. eapply den_consts. eapply named_args; [exact Ka|apply named_consts|exact F].
      * intros s Hd. destruct (den_call _ _ _ _ Hd) as (ss & F & Fv). exists w. split; [reflexivity|]. eapply Sw; [|exact Fv].
        eapply den_consts. eapply named_args; [exact Ka|apply named_consts|exact F].
    + exists (ECall n args'). split; [cbn; rewrite rev_app_distr; cbn; now rewrite <- app_assoc|]. split; [exact (plain_args _ _ Ka)|]. split.
      * intros N rho s Hd. destruct (den_call _ _ _ _ Hd) as (ss & F & Fv). econstructor; [eapply named_args; eassumption|exact Fv].
      * intros s Hd. destruct (den_call _ _ _ _ Hd) as (ss & F & Fv). exfalso.
        destruct (closed_args _ _ Ka _ F) as (vs & Ev & Fs). rewrite (Nv vs ss Ev Fs) in Fv. discriminate.
  - (* unary *)
    cbn [rpn] in H. rewrite run_app in H. destruct (rbind_ok _ _ _ _ _ H) as (st1 & H1 & H2). clear H.
    destruct (IH P _ _ T H1) as (a' & -> & (Pa & Na & Ca)). cbn [Expr_Model.run stack_op] in H2. destruct (rbind_ok _ _ _ _ _ H2) as (st2 & H3 & H4). injection H4 as <-. clear H2.
    assert (Lost : st2 = TUn None :: rev (rpn B a') ++ st -> (forall v u x s, a' = EConst v -> o = Some u -> sem_of B v = Some x -> suop B u x = Some s -> False) ->
      exists e', st2 = rev (rpn B e') ++ st /\ keeps (EUn o a) e').
    { intros -> N. exists (EUn None a'). split; [cbn; now rewrite rev_app_distr|]. split; [exact Pa|]. split; [intros [X _]; congruence|].
      intros s Hd. destruct (den_un _ _ _ _ Hd) as (u & x & -> & Hx & Sx). destruct (Ca _ Hx) as (v & Ev & Sv). exfalso. eapply N; eauto. }
    pose proof (rev_rpn a') as Ra.
    destruct a' as [v|m|m args|u a1|o2 a1 a2|c t f];
      [|rewrite Ra in H3; cbn in H3; apply Lost; [rewrite Ra; now injection H3 as <-|discriminate] ..].
    cbn in H3. destruct o as [u|]; [|discriminate].
    destruct (unop B u v) as [w| | |] eqn:Eu; cbn in H3; try discriminate; injection H3 as <-.
    + exists (EConst w). split; [reflexivity|]. split; [exact (plain_unary _ _ _ Eu)|].
      assert (K : forall x s, sem_of B v = Some x -> suop B u x = Some s -> sem_of B w = Some s).
      { intros x s Sv Sx. pose proof (unop_sem u v x s Pa Sv Sx) as X. rewrite Eu in X. tauto. }
      split.
      * intros _ rho s Hd. destruct (den_un _ _ _ _ Hd) as (u' & x & Eq & Hx & Sx). injection Eq as <-. constructor. eapply K; [|exact Sx]. eapply den_const. exact (Na I _ _ Hx).
      * intros s Hd. destruct (den_un _ _ _ _ Hd) as (u' & x & Eq & Hx & Sx). injection Eq as <-. destruct (Ca _ Hx) as (v' & Ev & Sv). injection Ev as <-. exists w. split; [reflexivity|]. eauto.
    + apply Lost; [reflexivity|]. intros v' u' x s Ev Eq Sv Sx. injection Ev as <-. injection Eq as <-. pose proof (unop_sem u v x s Pa Sv Sx) as X. now rewrite Eu in X.
  - (* binary *)
    cbn [rpn] in H. rewrite run_app in H. destruct (rbind_ok _ _ _ _ _ H) as (st1 & H1 & H2). clear H.
    rewrite run_app in H2. destruct (rbind_ok _ _ _ _ _ H2) as (st2 & H3 & H4). clear H2. destruct P as [Pa Pb].
    destruct (IHa Pa _ _ T H1) as (a' & -> & Ka). destruct (IHb Pb _ _ (top_rpn _ _) H3) as (b' & -> & Kb).
    cbn [Expr_Model.run stack_op] in H4. destruct (rbind_ok _ _ _ _ _ H4) as (st3 & H5 & H6). injection H6 as <-.
    eapply bin_shape; eassumption.
  - (* ternary *)
    cbn [rpn] in H. rewrite run_app in H. destruct (rbind_ok _ _ _ _ _ H) as (st1 & H1 & H2). clear H. destruct P as (Pc & Pt & Pf).
    destruct (IHc Pc _ _ T H1) as (c' & -> & Kc). cbn [Expr_Model.run] in H2. rewrite stack_op_tern in H2.
    destruct (rbind_ok _ _ _ _ _ H2) as (st2 & H3 & H4). injection H4 as <-. clear H2.
    assert (Both : rbind (red (rpn B t)) (fun te => rbind (red (rpn B f)) (fun fe => OK (TTern (rev te) (rev fe) :: rev (rpn B c') ++ st))) = OK st2 ->
      (forall v d, c' = EConst v -> sem_of B v = Some (SN d) -> False) -> exists e', st2 = rev (rpn B e') ++ st /\ keeps (ETern c t f) e').
    { intros E N. destruct (rbind_ok _ _ _ _ _ E) as (te & E1 & E2). destruct (rbind_ok _ _ _ _ _ E2) as (fe & E3 & E4). injection E4 as <-.
      destruct (Red t te Pt E1) as (t' & -> & Kt). destruct (Red f fe Pf E3) as (f' & -> & Kf).
      exists (ETern c' t' f'). split; [cbn; rewrite rev_app_distr, !rev_involutive; reflexivity|now apply keeps_tern]. }
    pose proof (rev_rpn c') as Rc.
    destruct c' as [v|m|m args|u a1|o2 a1 a2|c1 t1 f1]; [|rewrite Rc in H3; cbn [last_tok rest_tok app] in H3; apply Both; [rewrite Rc; exact H3|discriminate] ..].
    cbn [rpn rev app] in H3, Both. destruct (is_num B v) eqn:En.
    + assert (Sel : exists b, (if b : bool then run red (rpn B t) st else run red (rpn B f) st) = OK st2 /\ b = to_bool B v) by (exists (to_bool B v); split; [exact H3|reflexivity]).
      destruct Sel as (b & E & Eb).
      assert (Sel : exists e', st2 = rev (rpn B e') ++ st /\ keeps (if b then t else f) e') by (destruct b; [exact (IHt Pt _ _ T E)|exact (IHf Pf _ _ T E)]).
      destruct Sel as (e' & -> & (Pe & Ne & Ce)). exists e'. split; [reflexivity|]. split; [exact Pe|].
      assert (K : forall rho s, Den rho (ETern c t f) s -> Den rho (if b then t else f) s).
      { intros rho s Hd. destruct (den_tern _ _ _ _ _ Hd) as (d & Hc & Hs).
        assert (X : sem_of B v = Some (SN d)) by (eapply den_const; apply Kc; [exact I|exact Hc]).
        apply truth_sem in X. cbn in X. rewrite Eb, X. exact Hs. }
      split; [intros N rho s Hd; apply Ne; auto|intros s Hd; apply Ce; exact (K _ _ Hd)].
    + apply Both; [exact H3|]. intros v' d E Sv. injection E as <-. destruct v as [|v d'|v [s|]]; try discriminate.
Qed.
End Level.

Lemma reduce_expr : forall k e st', plain_expr B e -> reduce B lit lookup fn k (rpn B e) = OK st' ->
  exists e', st' = rev (rpn B e') /\ keeps e e'.
Proof.
  induction k as [|k IH]; intros e st' P H; [discriminate|]. cbn in H.
  destruct (run_expr _ IH e P [] st' I H) as (e' & -> & K). exists e'. now rewrite app_nil_r.
Qed.

(* ---- an expression with a value of its own is reduced to it ---- *)
Hypothesis FN : forall n ss s, fval n ss = Some s -> fn n <> None.

Lemma den_ind' : forall rho (P : expr B -> sval B -> Prop),
  (forall v s, sem_of B v = Some s -> P (EConst v) s) ->
  (forall n s, is_lit n = true -> sem_of B (lit n) = Some s -> P (ESym n) s) ->
  (forall n s, is_lit n = false -> pdef n = None -> rho n = Some s -> P (ESym n) s) ->
  (forall n ty e s s', is_lit n = false -> pdef n = Some (ty, e) -> Den rho e s -> P e s -> sconv B ty s = Some s' -> P (ESym n) s') ->
  (forall u e s s', Den rho e s -> P e s -> suop B u s = Some s' -> P (EUn (Some u) e) s') ->
  (forall o a b x y s, Den rho a x -> P a x -> Den rho b y -> P b y -> sop B o x y = Some s -> P (EBin o a b) s) ->
  (forall n args ss s, Forall2 (Den rho) args ss -> Forall2 P args ss -> fval n ss = Some s -> P (ECall n args) s) ->
  (forall c t f d s, Den rho c (SN d) -> P c (SN d) -> Den rho (if nz B d then t else f) s -> P (if nz B d then t else f) s -> P (ETern c t f) s) ->
  forall e s, Den rho e s -> P e s.
Proof.
  intros rho P H1 H2 H3 H4 H5 H6 H7 H8. fix IH 3. intros e s H. destruct H.
  - auto.
  - auto.
  - auto.
  - eapply H4; eauto.
  - eapply H5; eauto.
  - eapply H6; eauto.
  - eapply H7; eauto. clear H0. revert args ss H. fix IHl 3. intros args ss F. destruct F; constructor; auto.
  - eapply H8; eauto.
Qed.

Notation red k := (reduce B lit lookup fn k).
Definition gives (k : nat) (e : expr B) (s : sval B) : Prop :=
  forall k' st, (k <= k')%nat -> top_ok st ->
    run (red k') (rpn B e) st = Undef \/ exists w, run (red k') (rpn B e) st = OK (TConst w :: st) /\ sem_of B w = Some s /\ plain B w.

Lemma gives_args : forall args ss, Forall2 (fun a s => exists k, gives k a s) args ss ->
  exists k, forall k' st, (k <= k')%nat -> top_ok st ->
    run (red k') (flat_map (rpn B) args) st = Undef \/
    exists vs, run (red k') (flat_map (rpn B) args) st = OK (rev (flat_map (rpn B) (map EConst vs)) ++ st) /\ Forall2 (fun v x => sem_of B v = Some x) vs ss.
Proof.
  intros args ss F. induction F as [|a s args ss (ka & Ga) F (kr & IH)].
  - exists O. intros k' st _ _. right. exists []. split; [reflexivity|constructor].
  - exists (Nat.max ka kr). intros k' st Hk T. cbn. rewrite run_app.
    destruct (Ga k' st ltac:(lia) T) as [E|(w & E & Sw & _)]; rewrite E; cbn [rbind]; [now left|].
    destruct (IH k' (TConst w :: st) ltac:(lia) I) as [E2|(vs & E2 & Fv)]; rewrite E2; [now left|].
    right. exists (w :: vs). split; [|now constructor]. cbn. now rewrite <- app_assoc.
Qed.

Lemma plain_top : forall e k st w, plain_expr B e -> top_ok st -> run (red k) (rpn B e) st = OK (TConst w :: st) -> plain B w.
Proof.
  intros e k st w P T H. destruct (run_expr (red k) (fun e st' => reduce_expr k e st') e P st _ T H) as (e' & E & (Pe & _)).
  change (TConst w :: st) with ([TConst w] ++ st) in E. apply app_inv_tail in E. symmetry in E. apply rev_one in E. now subst e'.
Qed.

Lemma closed_gives : forall e s, closed_value B lit pdef fval e s -> plain_expr B e -> exists k, gives k e s.
Proof.
  apply (den_ind' (fun _ => None) (fun e s => plain_expr B e -> exists k, gives k e s)).
  - intros v s Sv P. exists O. intros k' st _ T. right. destruct (clone_ok v P) as (w & E & Pw & Sw). exists w. cbn. rewrite E. cbn. split; [reflexivity|]. split; [congruence|exact Pw].
  - intros n s El Sv _. exists O. intros k' st _ T. right. exists (lit n). split; [|split; [exact Sv|exact (os_lit _ _ _ _ OS n)]].
    cbn. destruct st as [|[] st2]; try destruct T; cbn; rewrite El; reflexivity.
  - discriminate.
  - intros n ty e s s' El Ep Hd IH Sc _. destruct (IH (os_def _ _ _ _ OS n ty e Ep)) as (k & G). exists (S k). intros k' st Hk T. destruct k' as [|k']; [lia|].
    assert (Nt : ty <> Some (PInt true)) by (intros ->; exact (os_ty _ _ _ _ OS n e Ep)).
    assert (S1 : run (red (S k')) (rpn B (ESym n)) st = rbind (red (S k') (rpn B e)) (fun e => folded B (eval_base B ty e) (fun v => TConst v :: st) (e ++ st))).
    { assert (El2 : lookup n = Some (ty, rpn B e)) by (unfold scope_lookup; now rewrite Ep).
      cbn [rpn]. rewrite run_one. cbn [Expr_Model.stack_op]. unfold sym_stack_op. rewrite El, El2. destruct st as [|[] st2]; try destruct T; reflexivity. }
    rewrite S1. cbn [reduce]. destruct (G k' [] ltac:(lia) I) as [E|(w & E & Sw & Pw)]; rewrite E; cbn [rbind]; [now left|]. cbn [eval_base].
    destruct ty as [t|].
    + pose proof (assign_sem t w s s' ltac:(congruence) Sw Sc) as X. destruct (assign B t w) as [w'| | |] eqn:Ea; cbn; [right|destruct X|now left|destruct X].
      exists w'. split; [reflexivity|]. split; [assumption|]. exact (plain_assign t w w' ltac:(congruence) Ea).
    + destruct (clone_ok w Pw) as (w' & E' & P' & S'). rewrite E'. cbn. right. exists w'. split; [reflexivity|]. cbn in Sc. split; [congruence|exact P'].
  - intros u e s s' Hd IH Su P. destruct (IH P) as (k & G). exists k. intros k' st Hk T. cbn. rewrite run_app.
    destruct (G k' st Hk T) as [E|(w & E & Sw & Pw)]; rewrite E; cbn; [now left|].
    pose proof (unop_sem u w s s' Pw Sw Su) as X. destruct (unop B u w) as [w'| | |]; cbn; try destruct X; [right|now left]. exists w'. auto.
  - intros o a b x y s Ha IHa Hb IHb Ss [Pa Pb]. destruct (IHa Pa) as (ka & Ga). destruct (IHb Pb) as (kb & Gb). exists (Nat.max ka kb). intros k' st Hk T.
    cbn [rpn]. rewrite run_app. destruct (Ga k' st ltac:(lia) T) as [E|(wa & E & Sa & Pwa)]; rewrite E; cbn [rbind]; [now left|].
    rewrite run_app. destruct (Gb k' (TConst wa :: st) ltac:(lia) I) as [E2|(wb & E2 & Sb & Pwb)]; rewrite E2; cbn [rbind]; [now left|].
    cbn. pose proof (binop_sem o wa wb x y s Pwa Pwb Sa Sb Ss) as X. destruct (binop B o wa wb) as [w'| | |]; cbn; try destruct X; [right|now left]. exists w'. auto.
  - intros n args ss s F IH Fv P. 
    assert (IH' : Forall2 (fun a s => exists k, gives k a s) args ss).
    { clear F Fv. revert P. induction IH as [|a s' args ss Ha IH IHl]; intros P; constructor; destruct P as [Pa P]; auto. }
    destruct (gives_args args ss IH') as (k & G). exists k. intros k' st Hk T. cbn [rpn]. cbn [Expr_Model.run Expr_Model.stack_op]. cbn [rbind]. rewrite run_app.
    destruct (G k' (TStop :: st) Hk I) as [E|(vs & E & Fs)]; rewrite E; cbn [rbind]; [now left|]. cbn.
    destruct (fn n) as [f|] eqn:Ef; [|destruct (FN _ _ _ Fv Ef)].
    destruct (FO n f Ef (map EConst vs) st) as [(vs' & w & Ev & E2 & Pw & Sw)|[[E2 Nv]|E2]]; cbn in E2; rewrite E2; cbn; [right| |now left].
    + assert (vs' = vs) as ->. { clear - Ev. revert vs' Ev. induction vs as [|v vs IHv]; intros [|v' vs'] Ev; cbn in Ev; try discriminate; [reflexivity|]. injection Ev as -> Ev. f_equal. auto. }
      exists w. split; [reflexivity|]. split; [eauto|exact Pw].
    + rewrite (Nv vs ss eq_refl Fs) in Fv. discriminate.
  - intros c t f d s Hc IHc Hs IHs (Pc & Pt & Pf). destruct (IHc Pc) as (kc & Gc). destruct (IHs ltac:(destruct (nz B d); assumption)) as (k & G).
    exists (Nat.max kc k). intros k' st Hk T. cbn [rpn]. rewrite run_app.
    destruct (Gc k' st ltac:(lia) T) as [E|(w & E & Sw & Pw)]; rewrite E; cbn [rbind]; [now left|].
    cbn [Expr_Model.run]. rewrite stack_op_tern.
    assert (is_num B w = true) as -> by (destruct w as [| |v [q|]]; try discriminate; reflexivity).
    pose proof (truth_sem _ _ Sw) as Tw. cbn in Tw. rewrite Tw.
    destruct (nz B d); destruct (G k' st ltac:(lia) T) as [E2|(w2 & E2 & R2)]; rewrite E2; cbn; [now left|right; now exists w2|now left|right; now exists w2].
Qed.

Lemma closed_reduces : forall e s, plain_expr B e -> closed_value B lit pdef fval e s ->
  exists k, forall k', (k <= k')%nat -> red k' (rpn B e) = Undef \/ exists w, red k' (rpn B e) = OK [TConst w] /\ sem_of B w = Some s.
Proof.
  intros e s P H. destruct (closed_gives e s H P) as (k & G). exists (S k). intros [|k'] Hk; [lia|]. cbn [reduce].
  destruct (G k' [] ltac:(lia) I) as [E|(w & E & Sw & _)]; rewrite E; [now left|right]. now exists w.
Qed.
End Expr.

(* ---- evaluation from the leaves up ---- *)
Section Evaluate.
Variable B : dbl.
Variable lit : name -> value B.
Variable pdef : name -> option (option ptype * expr B).
Variable fn : name -> option (list (tok B) -> res (list (tok B) * bool)).
Variable cval : name -> list (value B) -> option (value B).
Hypothesis CF : computes B cval fn.
Notation Ev := (Ev B lit pdef cval).
Notation lookup := (scope_lookup B pdef).
Notation run := (run B lit lookup fn).
Notation red k := (reduce B lit lookup fn k).

Lemma ev_ind' : forall (P : expr B -> value B -> Prop),
  (forall v, proper B v -> P (EConst v) v) ->
  (forall n, is_lit n = true -> P (ESym n) (lit n)) ->
  (forall n e v, is_lit n = false -> pdef n = Some (None, e) -> P e v -> proper B v -> P (ESym n) v) ->
  (forall n t e v w, is_lit n = false -> pdef n = Some (Some t, e) -> P e v -> assign B t v = Val w -> P (ESym n) w) ->
  (forall u e v w, P e v -> unop B u v = Val w -> P (EUn (Some u) e) w) ->
  (forall o a b x y w, P a x -> P b y -> binop B o x y = Val w -> P (EBin o a b) w) ->
  (forall n args vs w, Forall2 P args vs -> cval n vs = Some w -> P (ECall n args) w) ->
  (forall c t f v w, P c v -> is_num B v = true -> P (if to_bool B v then t else f) w -> P (ETern c t f) w) ->
  forall e v, Ev e v -> P e v.
Proof.
  intros P H1 H2 H3 H4 H5 H6 H7 H8. fix IH 3. intros e v H. destruct H.
  - auto.
  - auto.
  - eapply H3; eauto.
  - eapply H4; eauto.
  - eapply H5; eauto.
  - eapply H6; eauto.
  - eapply H7; eauto. clear H0. revert args vs H. fix IHl 3. intros args vs F. destruct F; constructor; auto.
  - eapply H8; eauto.
Qed.
Lemma clone_proper : forall v, proper B v -> clone B v = Val v.
Proof. intros [[] [] n|[] d|[] s] H; try destruct H; reflexivity. Qed.

Definition evals (k : nat) (e : expr B) (v : value B) : Prop :=
  forall k' st, (k <= k')%nat -> top_ok B st -> run (red k') (rpn B e) st = OK (TConst v :: st).

Lemma evals_args : forall args vs, Forall2 (fun a v => exists k, evals k a v) args vs ->
  exists k, forall k' st, (k <= k')%nat -> top_ok B st -> run (red k') (flat_map (rpn B) args) st = OK (rev (map TConst vs) ++ st).
Proof.
  intros args vs F. induction F as [|a v args vs (ka & Ga) F (kr & IH)].
  - exists O. reflexivity.
  - exists (Nat.max ka kr). intros k' st Hk T. cbn. rewrite run_app, (Ga k' st ltac:(lia) T). cbn [rbind].
    rewrite (IH k' (TConst v :: st) ltac:(lia) I). now rewrite <- app_assoc.
Qed.
Lemma sym_def : forall k n ty e st, is_lit n = false -> pdef n = Some (ty, e) -> top_ok B st ->
  run (red k) (rpn B (ESym n)) st = rbind (red k (rpn B e)) (fun e => folded B (eval_base B ty e) (fun v => TConst v :: st) (e ++ st)).
Proof.
  intros k n ty e st El Ep T. assert (El2 : lookup n = Some (ty, rpn B e)) by (unfold scope_lookup; now rewrite Ep).
  cbn [rpn]. rewrite run_one. cbn [stack_op]. unfold sym_stack_op. rewrite El, El2. destruct st as [|[] st2]; try destruct T; reflexivity.
Qed.
Lemma ev_evals : forall e v, Ev e v -> exists k, evals k e v.
Proof.
  apply ev_ind'.
  - intros v Pv. exists O. intros k' st _ _. cbn. now rewrite (clone_proper v Pv).
  - intros n El. exists O. intros k' st _ T. cbn. destruct st as [|[] st2]; try destruct T; cbn; rewrite El; reflexivity.
  - intros n e v El Ep (k & G) Pv. exists (S k). intros k' st Hk T. rewrite (sym_def k' n None e st El Ep T).
    destruct k' as [|k']; [lia|]. cbn [reduce]. rewrite (G k' [] ltac:(lia) I). cbn [rbind eval_base]. now rewrite (clone_proper v Pv).
  - intros n t e v w El Ep (k & G) Ea. exists (S k). intros k' st Hk T. rewrite (sym_def k' n (Some t) e st El Ep T).
    destruct k' as [|k']; [lia|]. cbn [reduce]. rewrite (G k' [] ltac:(lia) I). cbn [rbind eval_base]. now rewrite Ea.
  - intros u e v w (k & G) Eu. exists k. intros k' st Hk T. cbn [rpn]. rewrite run_app, (G k' st Hk T). cbn. now rewrite Eu.
  - intros o a b x y w (ka & Ga) (kb & Gb) Eo. exists (Nat.max ka kb). intros k' st Hk T. cbn [rpn].
    rewrite run_app, (Ga k' st ltac:(lia) T). cbn [rbind]. rewrite run_app, (Gb k' (TConst x :: st) ltac:(lia) I). cbn. now rewrite Eo.
  - intros n args vs w F Ec. destruct (evals_args args vs F) as (k & G). exists k. intros k' st Hk T.
    cbn [rpn]. cbn [Expr_Model.run stack_op]. cbn [rbind]. rewrite run_app, (G k' (TStop :: st) Hk I). cbn.
    destruct (CF n vs w Ec) as (f & -> & Ef). now rewrite Ef.
  - intros c t f v w (kc & Gc) En (k & G). exists (Nat.max kc k). intros k' st Hk T. cbn [rpn].
    rewrite run_app, (Gc k' st ltac:(lia) T). cbn [rbind]. rewrite run_one, stack_op_tern, En.
    pose proof (G k' st ltac:(lia) T) as X. destruct (to_bool B v); exact X.
Qed.
Lemma ev_reduces : forall e v, Ev e v -> exists k, forall k', (k <= k')%nat -> red k' (rpn B e) = OK [TConst v].
Proof.
  intros e v H. destruct (ev_evals e v H) as (k & G). exists (S k). intros [|k'] Hk; [lia|]. cbn [reduce]. apply G; [lia|exact I].
Qed.
End Evaluate.
