(* C19: reducing an expression preserves its value *)
Require Import ZArith List Ascii Bool Lia QArith Qcanon.
Require Import Coq.Floats.SpecFloat.
Require Import Verif.Value_Model Verif.Expr_Model Verif.Expr_Sem Verif.Expr_Proofs.
Import ListNotations.
Local Open Scope Z_scope.

(* an expression has at most one value *)
Theorem C19_meaning_is_unique : forall B lit pdef fval rho e s s',
  Den B lit pdef fval rho e s -> Den B lit pdef fval rho e s' -> s = s'.
Proof.
  intros B lit pdef fval rho e s s' H. revert s'.
  apply (den_ind' B lit pdef fval rho (fun e s => forall s', Den B lit pdef fval rho e s' -> s = s')) with (e := e); try exact H; clear e s H.
  - intros v s E s' H. apply den_const in H. congruence.
  - intros n s El E s' H. inversion H; subst; congruence.
  - intros n s El E Er s' H. inversion H; subst; congruence.
  - intros n ty e s s' El Ep Hd IH Sc s2 H. inversion H; subst; try congruence.
    match goal with X : pdef n = Some _ |- _ => rewrite Ep in X; injection X as <- <- end.
    match goal with X : Den _ _ _ _ _ e ?y |- _ => pose proof (IH _ X) end. congruence.
  - intros u e s s' Hd IH Su s2 H. apply den_un in H. destruct H as (u' & x & E & Hx & Sx). injection E as <-. rewrite (IH _ Hx) in Su. congruence.
  - intros o a b x y s Ha IHa Hb IHb Ss s2 H. apply den_bin in H. destruct H as (x' & y' & Hx & Hy & Sx). rewrite (IHa _ Hx), (IHb _ Hy) in Ss. congruence.
  - intros n args ss s F IH Fv s2 H. apply den_call in H. destruct H as (ss' & F' & Fv').
    assert (ss = ss') as ->; [|congruence]. clear F Fv Fv'. revert ss' F'. induction IH as [|a x args ss Hx IH IHl]; intros ss' F'; inversion F'; subst; [reflexivity|].
    f_equal; auto.
  - intros c t f d s Hc IHc Hs IHs s2 H. apply den_tern in H. destruct H as (d' & Hd & Hs'). pose proof (IHc _ Hd) as E. injection E as <-. auto.
Qed.
Print Assumptions C19_meaning_is_unique.

(* In exact arithmetic: whatever the recursion limit, what a reduction leaves is an expression that
   has the value of the original whatever the open names mean; the operator of a unary expression
   may have been lost (see below), and this is the only exception. *)
Theorem C19_reduction_preserves_value : forall B lit pdef fval fn,
  exact B -> ordinary_scope B lit pdef fval -> functions_ok B fval fn ->
  forall k e st, plain_expr B e -> reduce B lit (scope_lookup B pdef) fn k (rpn B e) = OK st ->
  exists e', st = rev (rpn B e') /\
    (named B e' -> forall rho s, Den B lit pdef fval rho e s -> Den B lit pdef fval rho e' s).
Proof.
  intros B lit pdef fval fn L OS FO k e st P H. destruct (reduce_expr B L lit pdef fval fn OS FO k e st P H) as (e' & -> & (_ & K & _)).
  now exists e'.
Qed.
Print Assumptions C19_reduction_preserves_value.

(* An expression with a value of its own becomes that constant, with any sufficient recursion
   limit, or else an integer operation was undefined *)
Theorem C19_closed_is_constant : forall B lit pdef fval fn,
  exact B -> ordinary_scope B lit pdef fval -> functions_ok B fval fn -> (forall n ss s, fval n ss = Some s -> fn n <> None) ->
  forall e s, plain_expr B e -> closed_value B lit pdef fval e s ->
  exists k, forall k', (k <= k')%nat ->
    reduce B lit (scope_lookup B pdef) fn k' (rpn B e) = Undef \/
    exists w, reduce B lit (scope_lookup B pdef) fn k' (rpn B e) = OK [TConst w] /\ sem_of B w = Some s.
Proof. intros B lit pdef fval fn L OS FO FN e s P H. exact (closed_reduces B L lit pdef fval fn OS FO FN e s P H). Qed.
Print Assumptions C19_closed_is_constant.

(* In any arithmetic, IEEE included: when evaluation from the leaves up with the operators of C20
   has the value w, reduction gives exactly the constant w *)
Theorem C19_constants_evaluate : forall B lit pdef fn cval, computes B cval fn ->
  forall e w, Ev B lit pdef cval e w ->
  exists k, forall k', (k <= k')%nat -> reduce B lit (scope_lookup B pdef) fn k' (rpn B e) = OK [TConst w].
Proof. intros B lit pdef fn cval CF e w H. exact (ev_reduces B lit pdef fn cval CF e w H). Qed.
Print Assumptions C19_constants_evaluate.

(* ---- the functions that come with the program meet the hypotheses ---- *)
Section Functions.
Variable B : dbl.
Definition numeric (s : sval B) : bool := match s with SN _ => true | SS _ _ => false end.
(* the arguments that take_args finds *)
Fixpoint consts (args : list (expr B)) : option (list (value B)) :=
  match args with
  | [] => Some []
  | EConst v :: r => if is_num B v then option_map (cons v) (consts r) else None
  | _ => None
  end.
Lemma consts_app : forall l m, consts (l ++ m) = match consts l, consts m with Some x, Some y => Some (x ++ y) | _, _ => None end.
Proof.
  induction l as [|[v|n|n args|o a|o a b|c t f] l IH]; intros m; cbn; try reflexivity.
  - now destruct (consts m).
  - destruct (is_num B v); [|reflexivity]. rewrite IH. destruct (consts l), (consts m); reflexivity.
Qed.
Lemma take_args_rpn : forall args st acc, take_args B (rev (flat_map (rpn B) args) ++ TStop :: st) acc =
  match consts args with Some vs => Some (vs ++ acc, st) | None => None end.
Proof.
  intros args. induction args as [|a args IH] using rev_ind; intros st acc; [reflexivity|].
  rewrite flat_map_app, consts_app. cbn [flat_map]. rewrite app_nil_r, rev_app_distr, <- app_assoc, rev_rpn.
  destruct a as [v|n|n l|o a|o a b|c t f]; cbn [last_tok rest_tok app take_args consts]; try (now destruct (consts args)).
  destruct (is_num B v); [|now destruct (consts args)]. rewrite IH. cbn. destruct (consts args); [|reflexivity]. now rewrite <- app_assoc.
Qed.
Lemma consts_some : forall args vs, consts args = Some vs -> args = map EConst vs /\ Forall (fun v => is_num B v = true) vs.
Proof.
  induction args as [|[v|n|n l|o a|o a b|c t f] args IH]; intros vs H; cbn in H; try discriminate.
  - injection H as <-. auto.
  - destruct (is_num B v) eqn:E; [|discriminate]. destruct (consts args) as [r|]; [|discriminate]. injection H as <-.
    destruct (IH r eq_refl) as [-> F]. split; [reflexivity|now constructor].
Qed.
Lemma consts_nums : forall vs, Forall (fun v => is_num B v = true) vs -> consts (map EConst vs) = Some vs.
Proof. intros vs F. induction F as [|v vs E F IH]; cbn; [reflexivity|]. now rewrite E, IH. Qed.
Lemma num_sem : forall v s, sem_of B v = Some s -> is_num B v = numeric s.
Proof. intros [v [] n|v d|v [q|]] s H; try discriminate; injection H as <-; reflexivity. Qed.
Lemma nums_sem : forall vs ss, Forall2 (fun v x => sem_of B v = Some x) vs ss -> consts (map EConst vs) = if forallb numeric ss then Some vs else None.
Proof.
  intros vs ss F. induction F as [|v s vs ss E F IH]; cbn; [reflexivity|]. rewrite (num_sem v s E), IH.
  destruct (numeric s); [|reflexivity]. destruct (forallb numeric ss); reflexivity.
Qed.

(* FUNCTION::stack_op with eval, for a function of numbers *)
Theorem C19_functions_by_text : forall (fval : name -> list (sval B) -> option (sval B)) n eval,
  (forall vs ss, Forall2 (fun v x => sem_of B v = Some x) vs ss -> fval n ss = if forallb numeric ss then option_map (fun d => SN d) (eval vs) else None) ->
  function_ok B fval n (function_stack_op B eval).
Proof.
  intros fval n eval HE args st0. cbn. rewrite take_args_rpn. destruct (consts args) as [vs|] eqn:Ec.
  - destruct (consts_some _ _ Ec) as [-> F]. rewrite app_nil_r. destruct (eval vs) as [d|] eqn:Ee.
    + left. exists vs, (VF false d). split; [reflexivity|]. split; [reflexivity|]. split; [exact I|].
      intros ss s Fs Fv. rewrite (HE vs ss Fs), Ee in Fv. destruct (forallb numeric ss); [exact Fv|discriminate].
    + right. left. split; [reflexivity|]. intros vs' ss E Fs. rewrite (HE vs' ss Fs).
      assert (vs' = vs) as -> by (clear - E; revert vs' E; induction vs as [|v vs IH]; intros [|v' vs'] E; cbn in E; try discriminate; [reflexivity|]; injection E as -> E; f_equal; auto).
      rewrite Ee. now destruct (forallb numeric ss).
  - right. left. split; [reflexivity|]. intros vs ss -> Fs. rewrite (HE vs ss Fs). rewrite (nums_sem vs ss Fs) in Ec. now destruct (forallb numeric ss).
Qed.

(* sqrt *)
Theorem C19_sqrt_function : forall (fval : name -> list (sval B) -> option (sval B)) n f,
  (forall ss, fval n ss = match ss with [SN d] => Some (SN (f d)) | _ => None end) ->
  function_ok B fval n (sqrt_stack_op B f).
Proof.
  intros fval n f HE args st0. cbn.
  assert (Back : forall st, st = rev (flat_map (rpn B) args) ++ TStop :: st0 ->
    (forall v, args = [EConst v] -> is_num B v = false) -> 
    forall vs ss, args = map EConst vs -> Forall2 (fun v x => sem_of B v = Some x) vs ss -> fval n ss = None).
  { intros st _ N vs ss -> F. rewrite HE. destruct F as [|v s vs ss E [|v2 s2 vs2 ss2 E2 F]]; [reflexivity| |destruct s; reflexivity].
    pose proof (N v eq_refl) as X. rewrite (num_sem v s E) in X. destruct s; [discriminate|reflexivity]. }
  destruct args as [|a args] using rev_ind.
  - right; left. split; [reflexivity|]. apply (Back _ eq_refl). discriminate.
  - clear IHargs. rewrite flat_map_app in *. cbn [flat_map] in *. rewrite app_nil_r, rev_app_distr, <- app_assoc in *. 
    rewrite rev_rpn in *.
    destruct a as [v|m|m l|o a|o a b|c t e]; cbn [last_tok rest_tok app] in *.
    2-6: right; left; split; [reflexivity|]; apply (Back _ eq_refl); intros v E; destruct args as [|a2 [|]]; discriminate.
    destruct args as [|a2 args] using rev_ind.
    + cbn. destruct v as [v i z|v d|v q].
      * left. exists [VI v i z], (VF false (f (dofz B z))). split; [reflexivity|]. split; [reflexivity|]. split; [exact I|].
        intros ss s F Fv. rewrite HE in Fv. inversion F as [|? ? ? ? E F']; subst. inversion F'; subst. destruct i; [|discriminate]. cbn in E. injection E as <-. exact Fv.
      * left. exists [VF v d], (VF false (f d)). split; [reflexivity|]. split; [reflexivity|]. split; [exact I|].
        intros ss s F Fv. rewrite HE in Fv. inversion F as [|? ? ? ? E F']; subst. inversion F'; subst. cbn in E. injection E as <-. exact Fv.
      * right; left. split; [reflexivity|]. apply (Back _ eq_refl). intros v' E. injection E as <-. reflexivity.
    + clear IHargs. right; left. split.
      * rewrite flat_map_app, rev_app_distr. cbn [flat_map]. rewrite app_nil_r, rev_rpn. cbn.
        assert (N : last_tok B a2 <> TStop) by (destruct a2; discriminate).
        destruct v; destruct (last_tok B a2); try reflexivity; now elim N.
      * apply (Back _ eq_refl). intros v' E. destruct args as [|? [|]]; discriminate.
Qed.
End Functions.
Print Assumptions C19_functions_by_text.
Print Assumptions C19_sqrt_function.

(* ---- exact arithmetic exists: the rationals ---- *)
Definition qtrunc (q : Qc) : Z := Z.quot (Qnum (this q)) (Zpos (Qden (this q))).
Definition QD : dbl := mkdbl Qc (fun z => Q2Qc (inject_Z z)) Qcplus Qcminus Qcmult Qcdiv
  (fun a b => Qcminus a (Qcmult b (Q2Qc (inject_Z (qtrunc (Qcdiv a b)))))) Qcopp (fun a b => Some (Qccompare a b)) (fun a => Some (qtrunc a)) (Q2Qc (inject_Z (- 10 ^ 308))).
Lemma this_ofz : forall z, this (Q2Qc (inject_Z z)) = inject_Z z.
Proof. intros z. cbn. unfold Qred, inject_Z. cbn. pose proof (Z.ggcd_gcd z 1) as G. pose proof (Z.ggcd_correct_divisors z 1) as D. rewrite Z.gcd_1_r in G.
  destruct (Z.ggcd z 1) as [g [a b]]. cbn in G. subst g. destruct D as [D1 D2]. cbn. rewrite Z.mul_1_l in D1, D2. subst a b. reflexivity. Qed.
Lemma exact_QD : exact QD.
Proof.
  constructor; cbn [QD D dadd dsub dmul dofz dneg dcmp dtoi]; intros.
  - apply Qcplus_comm.
  - apply Qcplus_assoc.
  - apply Qcmult_comm.
  - apply Qcmult_assoc.
  - apply Qc_is_canon. unfold Qcminus, Qcplus, Qcmult, Qcopp, Q2Qc; cbn [this]. rewrite !Qred_correct. now rewrite inject_Z_plus.
  - apply Qc_is_canon. unfold Qcminus, Qcplus, Qcmult, Qcopp, Q2Qc; cbn [this]. rewrite !Qred_correct. unfold Z.sub. now rewrite inject_Z_plus, inject_Z_opp.
  - apply Qc_is_canon. unfold Qcminus, Qcplus, Qcmult, Qcopp, Q2Qc; cbn [this]. rewrite !Qred_correct. now rewrite inject_Z_mult.
  - apply Qc_is_canon. unfold Qcminus, Qcplus, Qcmult, Qcopp, Q2Qc; cbn [this]. rewrite !Qred_correct. now rewrite inject_Z_opp.
  - unfold Qccompare. rewrite !this_ofz. unfold Qcompare, inject_Z. cbn. now rewrite !Z.mul_1_r.
  - cbn. f_equal. unfold Qccompare. symmetry. apply Qcompare_antisym.
  - f_equal. unfold qtrunc. rewrite this_ofz. cbn. apply Z.quot_1_r.
Qed.
Definition q (n : Z) (d : positive) : D QD := Q2Qc (n # d).

(* ---- a scope: r = 2 * w, w is a real parameter equal to 3, n an integer one equal to 7/2, x open ---- *)
Definition nm (c : ascii) : name := [c].
Definition x_ : expr QD := ESym (nm "x"). Definition w_ : expr QD := ESym (nm "w"). Definition r_ : expr QD := ESym (nm "r"). Definition n_ : expr QD := ESym (nm "n").
Definition int_ (z : Z) : expr QD := EConst (VI false true z).
Definition lit0 (n : name) : value QD := VF false (q 0 1).
Definition pdef0 (n : name) : option (option ptype * expr QD) :=
  if list_eq_dec ascii_dec n (nm "w") then Some (Some (PFlt false), int_ 3)
  else if list_eq_dec ascii_dec n (nm "r") then Some (None, EBin BMul (int_ 2) w_)
  else if list_eq_dec ascii_dec n (nm "n") then Some (Some (PInt false), EBin BDiv (int_ 7) (int_ 2))
  else None.
(* a function of one argument that doubles it *)
Definition fval0 (n : name) (ss : list (sval QD)) : option (sval QD) :=
  if list_eq_dec ascii_dec n (nm "f") then match ss with [SN d] => Some (SN (dadd QD d d)) | _ => None end else None.
Definition fn0 (n : name) : option (list (tok QD) -> res (list (tok QD) * bool)) :=
  if list_eq_dec ascii_dec n (nm "f") then Some (sqrt_stack_op QD (fun d => dadd QD d d)) else None.
Ltac named_cases H := unfold pdef0 in H; repeat match type of H with (if ?c then _ else _) = _ => destruct c as [->|?] end; try discriminate.

Example ex_C19_scope : ordinary_scope QD lit0 pdef0 fval0 /\ functions_ok QD fval0 fn0 /\ (forall n ss s, fval0 n ss = Some s -> fn0 n <> None).
Proof.
  split; [|split].
  - constructor.
    + intros n. exact I.
    + intros n ty e H. named_cases H; injection H as <- <-; cbn; auto.
    + intros n e H. named_cases H.
    + intros n ty e H Lt. named_cases H; injection H as <- <-; try discriminate. exists (SN (q 7 2)).
      econstructor; [constructor; reflexivity|constructor; reflexivity|]. cbn. do 2 f_equal; now apply Qc_is_canon.
  - intros n f H. unfold fn0 in H. destruct (list_eq_dec ascii_dec n (nm "f")) as [->|]; [|discriminate]. injection H as <-.
    apply C19_sqrt_function. reflexivity.
  - intros n ss s H. unfold fval0 in H. unfold fn0. destruct (list_eq_dec ascii_dec n (nm "f")); discriminate.
Qed.
(* x + 4 + r becomes (x + 10), and so has the same value for every x; both sides of + are moved *)
Example ex_C19_open :
  reduce QD lit0 (scope_lookup QD pdef0) fn0 20 (rpn QD (EBin BAdd (EBin BAdd (int_ 4) x_) r_)) = OK (rev (rpn QD (EBin BAdd x_ (EConst (VF false (q 10 1)))))) /\
  named QD (EBin BAdd x_ (EConst (VF false (q 10 1)))).
Proof.
  split; [|split; exact I].
  assert (E : VF false (q 10 1) = @VF QD false (dadd QD (dofz QD 4) (dmul QD (dofz QD 2) (dofz QD 3)))) by (f_equal; now apply Qc_is_canon).
  rewrite E. reflexivity.
Qed.
(* f(n + r) with n = 3 (7/2 made an integer) and r = 6 is 18 *)
Example ex_C19_closed : closed_value QD lit0 pdef0 fval0 (ECall (nm "f") [EBin BAdd n_ r_]) (SN (q 18 1)) /\
  exists w, reduce QD lit0 (scope_lookup QD pdef0) fn0 20 (rpn QD (ECall (nm "f") [EBin BAdd n_ r_])) = OK [TConst w] /\ sem_of QD w = Some (SN (q 18 1)).
Proof.
  split.
  - assert (Hn : closed_value QD lit0 pdef0 fval0 n_ (SN (dofz QD 3))).
    { apply DDef with (ty := Some (PInt false)) (e := EBin BDiv (int_ 7) (int_ 2)) (s := SN (ddiv QD (dofz QD 7) (dofz QD 2))); [reflexivity|reflexivity| |reflexivity].
      econstructor; [constructor; reflexivity|constructor; reflexivity|reflexivity]. }
    assert (Hw : closed_value QD lit0 pdef0 fval0 w_ (SN (dofz QD 3))).
    { apply DDef with (ty := Some (PFlt false)) (e := int_ 3) (s := SN (dofz QD 3)); [reflexivity|reflexivity|constructor; reflexivity|reflexivity]. }
    assert (Hr : closed_value QD lit0 pdef0 fval0 r_ (SN (dmul QD (dofz QD 2) (dofz QD 3)))).
    { apply DDef with (ty := None) (e := EBin BMul (int_ 2) w_) (s := SN (dmul QD (dofz QD 2) (dofz QD 3))); [reflexivity|reflexivity| |reflexivity].
      econstructor; [constructor; reflexivity|exact Hw|reflexivity]. }
    econstructor; [constructor; [econstructor; [exact Hn|exact Hr|reflexivity]|constructor]|]. cbn. do 2 f_equal; now apply Qc_is_canon.
  - eexists. split; [reflexivity|]. cbn. do 2 f_equal; now apply Qc_is_canon.
Qed.
Example ex_C19_evaluate : exists w, Ev QD lit0 pdef0 (fun _ _ => None) (ETern (EBin BLt n_ r_) (EUn (Some UMinus) n_) x_) w /\ sem_of QD w = Some (SN (q (-3) 1)).
Proof.
  exists (VI false true (-3)). split; [|reflexivity].
  assert (En : Ev QD lit0 pdef0 (fun _ _ => None) n_ (VI false true 3)).
  { apply EvTyped with (t := PInt false) (e := EBin BDiv (int_ 7) (int_ 2)) (v := VF false (ddiv QD (dofz QD 7) (dofz QD 2))); [reflexivity|reflexivity| |reflexivity].
    econstructor; [constructor; exact I|constructor; exact I|reflexivity]. }
  apply EvTern with (v := VI false true 1).
  - apply EvBin with (x := VI false true 3) (y := VF false (dmul QD (dofz QD 2) (dofz QD 3))); [exact En| |reflexivity].
    apply EvDef with (e := EBin BMul (int_ 2) w_); [reflexivity|reflexivity| |exact I].
    apply EvBin with (x := VI false true 2) (y := VF false (dofz QD 3)); [constructor; exact I| |reflexivity].
    apply EvTyped with (t := PFlt false) (e := int_ 3) (v := VI false true 3); [reflexivity|reflexivity|constructor; exact I|reflexivity].
  - reflexivity.
  - cbn [to_bool andb negb Z.eqb]. econstructor; [exact En|reflexivity].
Qed.

(* ---- what does not hold ---- *)
Definition no_fn : name -> option (list (tok QD) -> res (list (tok QD) * bool)) := fun _ => None.
(* -x, x open, becomes a nameless operator on x: the result has no value *)
Theorem C19_unary_refuted : exists e rho s st, Den QD lit0 pdef0 fval0 rho e s /\
  reduce QD lit0 (scope_lookup QD pdef0) no_fn 20 (rpn QD e) = OK st /\
  forall e' s', st = rev (rpn QD e') -> ~ Den QD lit0 pdef0 fval0 rho e' s'.
Proof.
  exists (EUn (Some UMinus) x_), (fun _ => Some (SN (q 3 1))), (SN (dneg QD (q 3 1))), [TUn None; TSym (nm "x")].
  split; [econstructor; [apply DFree; reflexivity|reflexivity]|]. split; [reflexivity|].
  intros e' s' E H. rewrite rev_rpn in E. destruct e' as [v|n|n args|o a|o a b|c t f]; try discriminate. cbn in E. injection E as <- _.
  apply den_un in H. destruct H as (u & x & X & _). discriminate.
Qed.
Print Assumptions C19_unary_refuted.

(* an integer parameter defined by x/2, x open: the definition is put in without the conversion *)
Theorem C19_integer_definition_refuted : exists pdef e e' rho s s',
  reduce QD lit0 (scope_lookup QD pdef) no_fn 20 (rpn QD e) = OK (rev (rpn QD e')) /\ named QD e' /\
  Den QD lit0 pdef fval0 rho e s /\ Den QD lit0 pdef fval0 rho e' s' /\ s <> s'.
Proof.
  exists (fun n => if list_eq_dec ascii_dec n (nm "n") then Some (Some (PInt false), EBin BDiv x_ (int_ 2)) else None), n_, (EBin BDiv x_ (int_ 2)),
    (fun _ => Some (SN (q 3 1))), (SN (q 1 1)), (SN (q 3 2)).
  split; [reflexivity|]. split; [split; exact I|].
  assert (H : Den QD lit0 (fun n => if list_eq_dec ascii_dec n (nm "n") then Some (Some (PInt false), EBin BDiv x_ (int_ 2)) else None) fval0 (fun _ => Some (SN (q 3 1))) (EBin BDiv x_ (int_ 2)) (SN (q 3 2))).
  { econstructor; [apply DFree; reflexivity|constructor; reflexivity|]. cbn. do 2 f_equal; now apply Qc_is_canon. }
  split; [eapply DDef; [reflexivity|reflexivity|exact H|]|split; [exact H|]].
  - cbn. do 2 f_equal; now apply Qc_is_canon.
  - intros E. injection E as E. discriminate.
Qed.
Print Assumptions C19_integer_definition_refuted.

(* x + 2147483647 + 1: adding up the constants overflows, though the sum from left to right does not *)
Theorem C19_overflow_refuted : exists e rho s, Den QD lit0 pdef0 fval0 rho e s /\
  reduce QD lit0 (scope_lookup QD pdef0) no_fn 20 (rpn QD e) = Undef /\
  exists y z, binop QD BAdd (VI false true (-5)) (VI false true 2147483647) = Val y /\ binop QD BAdd y (VI false true 1) = Val z.
Proof.
  exists (EBin BAdd (EBin BAdd x_ (int_ 2147483647)) (int_ 1)), (fun _ => Some (SN (q (-5) 1))), (SN (q 2147483643 1)).
  split; [|split; [reflexivity|]].
  - econstructor; [econstructor; [apply DFree; reflexivity|constructor; reflexivity|reflexivity]|constructor; reflexivity|].
    cbn. do 2 f_equal; now apply Qc_is_canon.
  - exists (VI false true 2147483642), (VI false true 2147483643). split; reflexivity.
Qed.
Print Assumptions C19_overflow_refuted.

(* in IEEE arithmetic the value does change: (x + 1.) + 2^53 with x = 1 *)
Theorem C19_ieee_refuted : exists e e' rho s s',
  reduce b64 (fun _ => VI false true 0) (scope_lookup b64 (fun _ => None)) (fun _ => None) 20 (rpn b64 e) = OK (rev (rpn b64 e')) /\
  Den b64 (fun _ => VI false true 0) (fun _ => None) (fun _ _ => None) rho e s /\
  Den b64 (fun _ => VI false true 0) (fun _ => None) (fun _ _ => None) rho e' s' /\ s <> s'.
Proof.
  pose (one := S754_finite false 4503599627370496 (-52) : D b64). pose (big := S754_finite false 4503599627370496 1 : D b64).
  exists (EBin BAdd (EBin BAdd (ESym (nm "x")) (EConst (VF false one))) (EConst (VF false big))),
    (EBin BAdd (ESym (nm "x")) (EConst (VF false (dadd b64 one big)))), (fun _ => Some (SN one)),
    (SN (dadd b64 (dadd b64 one one) big)), (SN (dadd b64 one (dadd b64 one big))).
  split; [reflexivity|]. split; [|split].
  - econstructor; [econstructor; [apply DFree; reflexivity|constructor; reflexivity|reflexivity]|constructor; reflexivity|reflexivity].
  - econstructor; [apply DFree; reflexivity|constructor; reflexivity|reflexivity].
  - intros E. injection E as E. vm_compute in E. discriminate.
Qed.
Print Assumptions C19_ieee_refuted.

(* abs of a string: the argument is dropped *)
Theorem C19_abs_of_string_refuted : forall B f s st,
  abs_stack_op B f (TPar :: rev (flat_map (rpn B) [EConst (VS true s)]) ++ TStop :: st) = OK (TPar :: rev (flat_map (rpn B) []) ++ TStop :: st, false).
Proof. reflexivity. Qed.
Print Assumptions C19_abs_of_string_refuted.
