(* C20: typed arithmetic agrees with arithmetic on values *)
Require Import ZArith List Ascii Bool Lia.
Require Import ZifyBool.
Require Import Coq.Floats.SpecFloat.
Require Import Verif.Value_Model.
Import ListNotations.
Local Open Scope Z_scope.

(* ---- vocabulary: numbers and what the operators mean on them, without classes or dispatch ---- *)
Section Meaning.
Variable B : dbl.
(* an integer or a real number *)
Inductive num := NZ (z : Z) | NR (d : D B).
(* its value as a real *)
Definition real (a : num) : D B := match a with NZ z => dofz B z | NR d => d end.
(* the number a value stands for *)
Definition number (x : value B) (a : num) : Prop :=
  match x with VI _ inp n => inp = true /\ a = NZ n | VF _ d => a = NR d | VS _ _ => False end.
(* how two numbers compare: as integers when both are, otherwise as reals *)
Definition compare (a b : num) : option comparison :=
  match a, b with NZ x, NZ y => Some (Z.compare x y) | _, _ => dcmp B (real a) (real b) end.
Definition nonzero (a : num) : bool := match compare a (NZ 0) with Some Eq => false | _ => true end.
(* integer result when both operands are integers, else the operation on reals *)
Definition promote (f : Z -> Z -> Z) (g : D B -> D B -> D B) (a b : num) : num :=
  match a, b with NZ x, NZ y => NZ (f x y) | _, _ => NR (g (real a) (real b)) end.
Definition truth (b : bool) : num := NZ (if b then 1 else 0).
(* a o b for operands in the written order; [trunc] says whether the quotient of two integers is
   the truncated one (verilog) or the real one *)
Definition apply (trunc : bool) (o : bop) (a b : num) : option num :=
  match o with
  | BAdd => Some (promote Z.add (dadd B) a b)
  | BSub => Some (promote Z.sub (dsub B) a b)
  | BMul => Some (promote Z.mul (dmul B) a b)
  | BDiv => match a, b with
            | NZ x, NZ y => if trunc then if y =? 0 then None else Some (NZ (Z.quot x y)) else Some (NR (ddiv B (real a) (real b)))
            | _, _ => Some (NR (ddiv B (real a) (real b)))
            end
  | BMod => match a, b with
            | NZ x, NZ y => if y =? 0 then None else Some (NZ (Z.rem x y))
            | _, _ => Some (NR (dfmod B (real a) (real b)))
            end
  | BEq => Some (truth (match compare a b with Some Eq => true | _ => false end))
  | BNe => Some (truth (match compare a b with Some Eq => false | _ => true end))
  | BLt => Some (truth (match compare a b with Some Lt => true | _ => false end))
  | BGt => Some (truth (match compare a b with Some Gt => true | _ => false end))
  | BLe => Some (truth (match compare a b with Some Lt | Some Eq => true | _ => false end))
  | BGe => Some (truth (match compare a b with Some Gt | Some Eq => true | _ => false end))
  | BOr => Some (truth (nonzero a || nonzero b))
  | BAnd => Some (truth (nonzero a && nonzero b))
  end.
(* integers are 32 bit; the remainder additionally needs the quotient to be representable *)
Definition int32 (z : Z) : Prop := - 2 ^ 31 <= z < 2 ^ 31.
Definition representable (o : bop) (a b r : num) : Prop :=
  match r with NZ z => int32 z | NR _ => True end /\
  match o, a, b with BMod, NZ x, NZ y => int32 (Z.quot x y) | _, _, _ => True end.
Definition is_vint (x : value B) : bool := match x with VI v _ _ => v | _ => false end.
(* the one combination that the code gets wrong *)
Definition int_mod_real (o : bop) (a b : num) : Prop :=
  match o, a, b with BMod, NZ _, NR _ => True | _, _, _ => False end.
(* what is used of double arithmetic *)
Record commutes : Prop := mkcommutes {
  add_comm : forall a b, dadd B a b = dadd B b a;
  mul_comm : forall a b, dmul B a b = dmul B b a;
  cmp_anti : forall a b, dcmp B b a = option_map CompOpp (dcmp B a b) }.
End Meaning.
Arguments NZ {B}. Arguments NR {B}.

(* ---- proofs ---- *)
Lemma fits_int32 : forall z, fits z = true <-> int32 z.
Proof. intros z. unfold fits, int_min, int_max, int32. change (2 ^ 31) with 2147483648. rewrite andb_true_iff. lia. Qed.
Lemma ival_ok : forall B v z, int32 z -> ival B v z = Val (VI v true z).
Proof. intros. unfold ival. now rewrite (proj2 (fits_int32 z) H). Qed.


Ltac zc := repeat match goal with |- context [Z.compare ?a ?b] => destruct (Z.compare_spec a b) end.
Ltac same_test := match goal with |- NZ (if ?a then _ else _) = NZ (if ?b then _ else _) => replace b with a; [reflexivity|] end.

Lemma to_bool_nonzero : forall B (x : value B) a, number B x a -> to_bool B x = nonzero B a.
Proof.
  intros B [v i n|v d|v s] a H; [destruct H as [-> ->]|cbn in H; subst a|destruct H]; unfold to_bool, nonzero, compare, real, dne, deq.
  - zc; lia.
  - destruct (dcmp B d (dofz B 0)) as [[]|]; reflexivity.
Qed.

Theorem C20_typed_arithmetic : forall B, commutes B ->
  forall o (x y : value B) a b r,
    number B x a -> number B y b -> ~ int_mod_real B o a b ->
    apply B (is_vint B y) o a b = Some r -> representable B o a b r ->
    exists w, binop B o x y = Val w /\ number B w r.
Proof.
  intros B L o x y a b r Hx Hy Hm Ha Hr.
  assert (Tx := to_bool_nonzero B x a Hx). assert (Ty := to_bool_nonzero B y b Hy).
  assert (Lg : o = BOr \/ o = BAnd -> exists w, binop B o x y = Val w /\ number B w r).
  { intros [-> | ->]; cbn in Ha; injection Ha as <-; cbn; unfold logic_or, logic_and; rewrite Tx, Ty; eexists; (split; [reflexivity|split; [reflexivity|]]);
      destruct (nonzero B a), (nonzero B b); reflexivity. }
  destruct x as [v i n|v d|v s]; [destruct Hx as [-> ->]|cbn in Hx; subst a|destruct Hx];
  (destruct y as [v2 i2 n2|v2 d2|v2 s2]; [destruct Hy as [-> ->]|cbn in Hy; subst b|destruct Hy]).
  - (* two integers *)
    destruct o; cbn in Ha; cbn; destruct Hr as [Hr1 Hr2].
    + injection Ha as <-. rewrite Z.mul_comm, ival_ok by assumption. eexists; split; [reflexivity|split; reflexivity].
    + injection Ha as <-. rewrite Z.add_comm, ival_ok by assumption. eexists; split; [reflexivity|split; reflexivity].
    + injection Ha as <-. rewrite ival_ok by assumption. eexists; split; [reflexivity|split; reflexivity].
    + destruct v2.
      * unfold idiv. destruct (n2 =? 0); [discriminate|]. injection Ha as <-. rewrite ival_ok by assumption. eexists; split; [reflexivity|split; reflexivity].
      * injection Ha as <-. eexists; split; [reflexivity|reflexivity].
    + unfold irem. destruct (n2 =? 0); [discriminate|]. injection Ha as <-. cbn in Hr2. rewrite (proj2 (fits_int32 _) Hr2), ival_ok by assumption.
      eexists; split; [reflexivity|split; reflexivity].
    + injection Ha as <-. eexists; split; [reflexivity|split; [reflexivity|]]. unfold truth. same_test. zc; lia.
    + injection Ha as <-. eexists; split; [reflexivity|split; [reflexivity|]]. unfold truth. same_test. zc; lia.
    + injection Ha as <-. eexists; split; [reflexivity|split; [reflexivity|]]. unfold truth. same_test. zc; lia.
    + injection Ha as <-. eexists; split; [reflexivity|split; [reflexivity|]]. unfold truth. same_test. zc; lia.
    + injection Ha as <-. eexists; split; [reflexivity|split; [reflexivity|]]. unfold truth. same_test. zc; lia.
    + injection Ha as <-. eexists; split; [reflexivity|split; [reflexivity|]]. unfold truth. same_test. zc; lia.
    + apply Lg; auto.
    + apply Lg; auto.
  - (* integer, real *)
    destruct o; cbn in Ha; cbn; try injection Ha as <-; try (eexists; split; reflexivity).
    + destruct Hm. exact I.
    + eexists; split; [reflexivity|split; reflexivity].
    + eexists; split; [reflexivity|split; [reflexivity|]]. unfold truth, dne, deq. f_equal. destruct (dcmp B (dofz B n) d2) as [[]|]; reflexivity.
    + eexists; split; [reflexivity|split; reflexivity].
    + eexists; split; [reflexivity|split; reflexivity].
    + eexists; split; [reflexivity|split; reflexivity].
    + eexists; split; [reflexivity|split; reflexivity].
    + apply Lg; auto.
    + apply Lg; auto.
  - (* real, integer *)
    destruct o; cbn in Ha; cbn; try injection Ha as <-; try (eexists; split; reflexivity).
    + rewrite (mul_comm B L). eexists; split; reflexivity.
    + rewrite (add_comm B L). eexists; split; reflexivity.
    + eexists; split; [reflexivity|split; [reflexivity|]]. unfold truth, deq. f_equal. rewrite (cmp_anti B L d). destruct (dcmp B d _) as [[]|]; reflexivity.
    + eexists; split; [reflexivity|split; [reflexivity|]]. unfold truth, dne, deq. f_equal. rewrite (cmp_anti B L d). destruct (dcmp B d _) as [[]|]; reflexivity.
    + eexists; split; [reflexivity|split; [reflexivity|]]. unfold truth, dgt. f_equal. rewrite (cmp_anti B L d). destruct (dcmp B d _) as [[]|]; reflexivity.
    + eexists; split; [reflexivity|split; [reflexivity|]]. unfold truth, dlt. f_equal. rewrite (cmp_anti B L d). destruct (dcmp B d _) as [[]|]; reflexivity.
    + eexists; split; [reflexivity|split; [reflexivity|]]. unfold truth, dge. f_equal. rewrite (cmp_anti B L d). destruct (dcmp B d _) as [[]|]; reflexivity.
    + eexists; split; [reflexivity|split; [reflexivity|]]. unfold truth, dle. f_equal. rewrite (cmp_anti B L d). destruct (dcmp B d _) as [[]|]; reflexivity.
    + apply Lg; auto.
    + apply Lg; auto.
  - (* two reals *)
    destruct o; cbn in Ha; cbn; try injection Ha as <-; try (eexists; split; reflexivity).
    + rewrite (mul_comm B L). eexists; split; reflexivity.
    + rewrite (add_comm B L). eexists; split; reflexivity.
    + eexists; split; [reflexivity|split; [reflexivity|]]. unfold truth, deq. f_equal. rewrite (cmp_anti B L d). destruct (dcmp B d _) as [[]|]; reflexivity.
    + eexists; split; [reflexivity|split; [reflexivity|]]. unfold truth, dne, deq. f_equal. rewrite (cmp_anti B L d). destruct (dcmp B d _) as [[]|]; reflexivity.
    + eexists; split; [reflexivity|split; [reflexivity|]]. unfold truth, dgt. f_equal. rewrite (cmp_anti B L d). destruct (dcmp B d _) as [[]|]; reflexivity.
    + eexists; split; [reflexivity|split; [reflexivity|]]. unfold truth, dlt. f_equal. rewrite (cmp_anti B L d). destruct (dcmp B d _) as [[]|]; reflexivity.
    + eexists; split; [reflexivity|split; [reflexivity|]]. unfold truth, dge. f_equal. rewrite (cmp_anti B L d). destruct (dcmp B d _) as [[]|]; reflexivity.
    + eexists; split; [reflexivity|split; [reflexivity|]]. unfold truth, dle. f_equal. rewrite (cmp_anti B L d). destruct (dcmp B d _) as [[]|]; reflexivity.
    + apply Lg; auto.
    + apply Lg; auto.
Qed.
Print Assumptions C20_typed_arithmetic.

(* IEEE double arithmetic (the standard library's specification of binary64) satisfies what is used *)
Lemma b64_commutes : commutes b64.
Proof.
  split.
  - intros [s|s| |s m e] [s'|s'| |s' m' e']; cbn; try reflexivity;
      try (destruct s, s'; reflexivity).
    unfold SFadd. rewrite (Z.min_comm e e'). now rewrite Z.add_comm.
  - intros [s|s| |s m e] [s'|s'| |s' m' e']; cbn; try reflexivity; try (now rewrite xorb_comm).
    unfold SFmul. now rewrite xorb_comm, Pos.mul_comm, Z.add_comm.
  - intros [s|s| |s m e] [s'|s'| |s' m' e']; cbn; try reflexivity; try (destruct s; reflexivity); try (destruct s'; reflexivity); try (destruct s, s'; reflexivity).
    rewrite (Z.compare_antisym e e'). destruct s, s'; try reflexivity; destruct (e ?= e') ; cbn; try reflexivity; rewrite (Pos.compare_cont_antisym m m' Eq); cbn;
      destruct (Pos.compare_cont Eq m m'); reflexivity.
Qed.

Theorem C20_ieee_arithmetic :
  forall o (x y : value b64) a b r,
    number b64 x a -> number b64 y b -> ~ int_mod_real b64 o a b ->
    apply b64 (is_vint b64 y) o a b = Some r -> representable b64 o a b r ->
    exists w, binop b64 o x y = Val w /\ number b64 w r.
Proof. exact (C20_typed_arithmetic b64 b64_commutes). Qed.
Print Assumptions C20_ieee_arithmetic.

(* Division and remainder of integers by zero, and results that do not fit an int, are not silently
   given some value *)
Theorem C20_no_value_when_undefined : forall B o (x y : value B) a b,
  number B x a -> number B y b -> ~ int_mod_real B o a b ->
  (apply B (is_vint B y) o a b = None \/ exists z, apply B (is_vint B y) o a b = Some (NZ z) /\ ~ int32 z) ->
  forall w, binop B o x y <> Val w.
Proof.
  intros B o x y a b Hx Hy Hm H w.
  destruct x as [v i n|v d|v s]; [destruct Hx as [-> ->]|cbn in Hx; subst a|destruct Hx];
  (destruct y as [v2 i2 n2|v2 d2|v2 s2]; [destruct Hy as [-> ->]|cbn in Hy; subst b|destruct Hy]);
  destruct o; cbn in H; cbn; try (exfalso; destruct H as [H|[z [H N]]]; [discriminate|try discriminate; injection H as <-; unfold int32 in N;
     match type of N with context [if ?c then _ else _] => destruct c | context[truth] => idtac end; lia]);
  try (destruct Hm; exact I).
  - destruct H as [H|[z [H N]]]; [discriminate|]. injection H as <-. unfold ival. rewrite Z.mul_comm. destruct (fits (n * n2)) eqn:E; [|discriminate]. apply fits_int32 in E. contradiction.
  - destruct H as [H|[z [H N]]]; [discriminate|]. injection H as <-. unfold ival. rewrite Z.add_comm. destruct (fits (n + n2)) eqn:E; [|discriminate]. apply fits_int32 in E. contradiction.
  - destruct H as [H|[z [H N]]]; [discriminate|]. injection H as <-. unfold ival. destruct (fits (n - n2)) eqn:E; [|discriminate]. apply fits_int32 in E. contradiction.
  - destruct v2; [|destruct H as [H|[z [H N]]]; discriminate]. unfold idiv, ival. destruct (n2 =? 0); [discriminate|]. destruct H as [H|[z [H N]]]; [discriminate|]. injection H as <-.
    destruct (fits (Z.quot n n2)) eqn:E; [|discriminate]. apply fits_int32 in E. contradiction.
  - unfold irem, ival. destruct (n2 =? 0); [discriminate|]. destruct H as [H|[z [H N]]]; [discriminate|]. injection H as <-.
    destruct (fits (Z.quot n n2)); [|discriminate]. destruct (fits (Z.rem n n2)) eqn:E; [|discriminate]. apply fits_int32 in E. contradiction.
Qed.
Print Assumptions C20_no_value_when_undefined.

(* ---- strings ---- *)
(* dictionary order on characters' codes *)
Definition before (a b : list ascii) : Prop :=
  exists p, (exists c r, a = p /\ b = p ++ c :: r) \/
    (exists c d ra rb, a = p ++ c :: ra /\ b = p ++ d :: rb /\ (N_of_ascii c < N_of_ascii d)%N).
Lemma strcmp_spec : forall a b, CompareSpec (a = b) (before a b) (before b a) (strcmp a b).
Proof.
  induction a as [|x a IH]; intros [|y b]; cbn.
  - constructor. reflexivity.
  - constructor. exists []. left. now exists y, b.
  - constructor. exists []. left. now exists x, a.
  - destruct (N.compare_spec (N_of_ascii x) (N_of_ascii y)) as [E|L|G].
    + assert (x = y) by (rewrite <- (ascii_N_embedding x), <- (ascii_N_embedding y); now f_equal). subst y.
      destruct (IH b) as [->|[p H]|[p H]]; constructor.
      * reflexivity.
      * exists (x :: p). destruct H as [(c & r & H1 & H2)|(c & d & ra & rb & H1 & H2 & H3)].
        -- left. exists c, r. now subst.
        -- right. exists c, d, ra, rb. now subst.
      * exists (x :: p). destruct H as [(c & r & H1 & H2)|(c & d & ra & rb & H1 & H2 & H3)].
        -- left. exists c, r. now subst.
        -- right. exists c, d, ra, rb. now subst.
    + constructor. exists []. right. now exists x, y, a, b.
    + constructor. exists []. right. now exists y, x, b, a.
Qed.
Lemma before_irrefl : forall a, ~ before a a.
Proof.
  intros a [p [(c & r & H1 & H2)|(c & d & ra & rb & H1 & H2 & H3)]].
  - rewrite <- H1 in H2. rewrite <- (app_nil_r a) in H2 at 1. apply app_inv_head in H2. discriminate.
  - rewrite H1 in H2. apply app_inv_head in H2. injection H2 as -> _. lia.
Qed.
Lemma before_trans : forall a b c, before a b -> before b c -> before a c.
Proof.
  assert (K : forall x y, (N_of_ascii x <> N_of_ascii y)%N \/ x = y).
  { intros x y. destruct (N.eq_dec (N_of_ascii x) (N_of_ascii y)) as [E|E]; [right|now left].
    rewrite <- (ascii_N_embedding x), <- (ascii_N_embedding y). now f_equal. }
  assert (P : forall x l m, before l m -> before (x :: l) (x :: m)).
  { intros x l m [p [(c & r & H1 & H2)|(c & d & ra & rb & H1 & H2 & H3)]]; exists (x :: p); [left|right].
    - exists c, r. now subst.
    - exists c, d, ra, rb. now subst. }
  assert (I : forall l x m, before l (x :: m) -> l = [] \/ exists y k, l = y :: k /\ ((N_of_ascii y < N_of_ascii x)%N \/ y = x /\ before k m)).
  { intros l x m [p [(c & r & H1 & H2)|(c & d & ra & rb & H1 & H2 & H3)]]; destruct p as [|z p]; cbn in *; subst.
    - now left.
    - injection H2 as -> ->. right. exists z, p. split; [reflexivity|]. right. split; [reflexivity|]. exists p. left. now exists c, r.
    - injection H2 as -> ->. right. exists c, ra. split; [reflexivity|]. now left.
    - injection H2 as -> ->. right. exists z, (p ++ c :: ra). split; [reflexivity|]. right. split; [reflexivity|]. exists p. right. now exists c, d, ra, rb. }
  intros a b c. revert a b. induction c as [|z c IH]; intros a b Hab Hbc.
  - exfalso. destruct Hbc as [p [(c & r & H1 & H2)|(c & d & ra & rb & H1 & H2 & H3)]]; destruct p; discriminate.
  - destruct (I _ _ _ Hbc) as [->|(y & k & -> & H)].
    + exfalso. destruct Hab as [p [(e & r & H1 & H2)|(e & d & ra & rb & H1 & H2 & H3)]]; destruct p; discriminate.
    + destruct (I _ _ _ Hab) as [->|(x & l & -> & H')].
      * exists []. left. now exists z, c.
      * destruct H as [H|[-> H]], H' as [H'|[-> H']].
        -- exists []. right. exists x, z, l, c. repeat split. lia.
        -- exists []. right. now exists y, z, l, c.
        -- exists []. right. now exists x, z, l, c.
        -- apply P. exact (IH _ _ H' H).
Qed.

(* Comparing two strings compares them in dictionary order; quoted strings concatenate under +; any
   other arithmetic on strings, and any arithmetic or comparison between a string and a number, has
   no value (the expression is kept as written). *)
Definition string_answer (o : bop) (s t : list ascii) (r : bool) : Prop :=
  match o with
  | BLt => r = true <-> before s t
  | BGt => r = true <-> before t s
  | BLe => r = true <-> before s t \/ s = t
  | BGe => r = true <-> before t s \/ s = t
  | BEq => r = true <-> s = t
  | BNe => r = true <-> s <> t
  | _ => False
  end.
Theorem C20_strings : forall B o v w s t,
  match o with
  | BLt | BGt | BLe | BGe | BEq | BNe =>
      exists r : bool, binop B o (VS v (Some s)) (VS w (Some t)) = Val (VI false true (if r then 1 else 0)) /\ string_answer o s t r
  | BAdd => binop B o (VS v (Some s)) (VS w (Some t)) = if v && w then Val (VS true (Some (s ++ t))) else Null
  | BSub | BMul | BDiv | BMod => binop B o (VS v (Some s)) (VS w (Some t)) = Null
  | BOr | BAnd => True
  end.
Proof.
  intros B o v w s t.
  assert (A := strcmp_spec t s).
  assert (X : before t s -> before s t -> False) by (intros P Q; exact (before_irrefl _ (before_trans _ _ _ P Q))).
  assert (Y := before_irrefl s).
  destruct o; try exact I; try reflexivity.
  1: cbn; destruct v, w; reflexivity.
  all: cbn; unfold ibool; eexists; (split; [reflexivity|]); cbn; destruct A as [E|L|G]; try subst t; split; intros; try tauto; try congruence; try discriminate;
    try (intros ->; tauto); repeat match goal with H : _ \/ _ |- _ => destruct H end; subst; tauto.
Qed.
Print Assumptions C20_strings.

Theorem C20_no_mixing : forall B o (x y : value B) a v s,
  o <> BOr -> o <> BAnd ->
  (number B x a /\ y = VS v s \/ x = VS v s /\ number B y a) -> binop B o x y = Null.
Proof.
  intros B o x y a v s N1 N2 [[H ->]|[-> H]].
  - destruct x as [v1 i n|v1 d|v1 s1]; [| |destruct H]; destruct o; try congruence; reflexivity.
  - destruct y as [v1 i n|v1 d|v1 s1]; [| |destruct H]; destruct o; try congruence; reflexivity.
Qed.
Print Assumptions C20_no_mixing.

(* ---- unary operators and the two flavours of integers ---- *)
Theorem C20_unary : forall B (x : value B) a, number B x a ->
  (exists w, unop B UNot x = Val w /\ number B w (truth B (negb (nonzero B a)))) /\
  match a with
  | NZ n => int32 n -> int32 (- n) ->
            (exists w, unop B UMinus x = Val w /\ number B w (NZ (- n))) /\ (exists w, unop B UPlus x = Val w /\ number B w (NZ n))
  | NR d => (exists w, unop B UMinus x = Val w /\ number B w (NR (dneg B d))) /\ (exists w, unop B UPlus x = Val w /\ number B w (NR d))
  end.
Proof.
  intros B x a H. split.
  - cbn. unfold logic_not. rewrite (to_bool_nonzero B x a H). eexists; split; [reflexivity|]. split; [reflexivity|]. unfold truth. destruct (nonzero B a); reflexivity.
  - destruct x as [v i n|v d|v s]; [destruct H as [-> ->]|cbn in H; subst a|destruct H].
    + intros H1 H2. cbn. rewrite !ival_ok by assumption. split; eexists; (split; [reflexivity|split; reflexivity]).
    + cbn. split; eexists; (split; [reflexivity|reflexivity]).
Qed.
Print Assumptions C20_unary.

Definition verilog (B : dbl) (x : value B) : bool := match x with VI v _ _ => v | VF v _ => v | VS v _ => v end.

(* Outside verilog mode every operator gives an ordinary value, so a quotient of integers is never
   truncated however deep the expression *)
Theorem C20_ordinary_values_stay_ordinary : forall B o (x y w : value B) a b,
  number B x a -> number B y b -> verilog B x = false -> verilog B y = false ->
  (binop B o x y = Val w \/ exists u, unop B u x = Val w) -> verilog B w = false.
Proof.
  intros B o x y w a b Hx Hy Vx Vy [H|[u H]].
  - destruct x as [v i n|v d|v s]; [| |destruct Hx]; (destruct y as [v2 i2 n2|v2 d2|v2 s2]; [| |destruct Hy]); cbn in Vx, Vy; subst;
    destruct o; cbn in H; unfold ibool, irem, ival, logic_or, logic_and in H;
    repeat match type of H with (if ?c then _ else _) = _ => destruct c; try discriminate end; injection H as <-; reflexivity.
  - destruct x as [v i n|v d|v s]; [| |destruct Hx]; destruct u; cbn in H; unfold ival, logic_not in H;
    repeat match type of H with (if ?c then _ else _) = _ => destruct c; try discriminate end; injection H as <-; reflexivity.
Qed.
Print Assumptions C20_ordinary_values_stay_ordinary.

(* ---- what does not hold ---- *)
Definition r64 (n d : Z) : D b64 := ddiv b64 (dofz b64 n) (dofz b64 d).
(* results compared without mentioning the instance *)
Inductive shown := SI (v inp : bool) (n : Z) | SF (v : bool) (d : spec_float) | SO.
Definition show (r : R b64) : shown := match r with Val (VI v i n) => SI v i n | Val (VF v d) => SF v d | _ => SO end.
Lemma show_int : forall r v i n, show r = SI v i n -> r = Val (VI v i n).
Proof. intros [[v' i' n'|v' d'|v' s']| | |] v i n H; try discriminate. injection H as -> -> ->. reflexivity. Qed.
Lemma show_flt : forall r v (d : D b64), show r = SF v d -> r = Val (@VF b64 v d).
Proof. intros [[v' i' n'|v' d'|v' s']| | |] v d H; try discriminate. injection H as -> ->. reflexivity. Qed.
Ltac b64_run := first [apply show_int; vm_compute; reflexivity | apply show_flt; vm_compute; reflexivity].

(* 5 % 2.5 is 2.5: the remainder of an integer by a real divides the wrong way round *)
Theorem C20_modulo_refuted : exists (x y : value b64) a b d w,
  number b64 x a /\ number b64 y b /\ apply b64 false BMod a b = Some (NR d) /\ binop b64 BMod x y = Val w /\ ~ number b64 w (NR d).
Proof.
  exists (VI false true 5), (VF false (r64 5 2)), (NZ 5), (NR (r64 5 2)), (dfmod b64 (dofz b64 5) (r64 5 2)), (VF false (dfmod b64 (r64 5 2) (dofz b64 5))).
  split; [split; reflexivity|]. split; [exact eq_refl|]. split; [exact eq_refl|]. split; [exact eq_refl|].
  intros H. cbn [number] in H. apply (f_equal (fun n : num b64 => match n with NR d => (d : spec_float) | NZ _ => S754_nan end)) in H. vm_compute in H. discriminate.
Qed.
Print Assumptions C20_modulo_refuted.

(* In verilog mode 7/2 is 3 but 7/(-2) is -3.5: the unary minus drops the verilog flavour *)
Theorem C20_verilog_minus_refuted : exists x y m w : value b64,
  verilog b64 x = true /\ verilog b64 y = true /\ unop b64 UMinus y = Val m /\ binop b64 BDiv x m = Val w /\
  binop b64 BDiv x y = Val (VI true true 3) /\ w = VF false (r64 (-7) 2).
Proof.
  exists (VI true true 7), (VI true true 2), (VI false true (-2)), (VF false (r64 (-7) 2)).
  split; [reflexivity|]. split; [reflexivity|]. split; [b64_run|]. split; [b64_run|]. split; [b64_run|reflexivity].
Qed.
Print Assumptions C20_verilog_minus_refuted.

(* In verilog mode a comparison of reals gives an ordinary integer: 3/(1.0<2.0) is real, though
   3/(1<2) is an integer *)
Theorem C20_verilog_compare_refuted : exists a b d w : value b64,
  binop b64 BLt (VF true (dofz b64 1)) (VF true (dofz b64 2)) = Val a /\ binop b64 BLt (VI true true 1) (VI true true 2) = Val b /\
  binop b64 BDiv (VI true true 3) a = Val d /\ binop b64 BDiv (VI true true 3) b = Val w /\
  number b64 w (NZ 3) /\ number b64 d (NR (r64 3 1)).
Proof.
  exists (VI false true 1), (VI true true 1), (VF false (r64 3 1)), (VI true true 3).
  split; [b64_run|]. split; [b64_run|]. split; [b64_run|]. split; [b64_run|]. split; [split; reflexivity|reflexivity].
Qed.
Print Assumptions C20_verilog_compare_refuted.

(* ---- cases ---- *)
(* 7 - 0.5 and 0.5 - 7, 7/2 in both flavours, 7 <= 7.0 *)
Example ex_C20_order :
  binop b64 BSub (VI false true 7) (VF false (r64 1 2)) = Val (VF false (r64 13 2)) /\
  binop b64 BSub (VF false (r64 1 2)) (VI false true 7) = Val (VF false (r64 (-13) 2)) /\
  binop b64 BDiv (VI false true 7) (VI false true 2) = Val (VF false (r64 7 2)) /\
  binop b64 BDiv (VI false true (-7)) (VI true true 2) = Val (VI true true (-3)) /\
  binop b64 BMod (VI false true (-7)) (VI false true 2) = Val (VI false true (-1)) /\
  binop b64 BLe (VI false true 7) (VF false (r64 7 1)) = Val (VI false true 1).
Proof. repeat (split; [b64_run|]). b64_run. Qed.
Example ex_C20_hypotheses :
  number b64 (VI false true 7) (NZ 7) /\ number b64 (VF false (r64 1 2)) (NR (r64 1 2)) /\
  apply b64 false BSub (NZ 7) (NR (r64 1 2)) = Some (NR (dsub b64 (dofz b64 7) (r64 1 2))) /\
  ~ int_mod_real b64 BSub (NZ 7) (NR (r64 1 2)) /\ representable b64 BSub (NZ 7) (NR (r64 1 2)) (NR (dsub b64 (dofz b64 7) (r64 1 2))) /\
  representable b64 BMod (NZ (-7)) (NZ 2) (NZ (-1)).
Proof.
  split; [split; reflexivity|]. split; [exact eq_refl|]. split; [exact eq_refl|]. split; [intros []|]. split; [split; exact I|].
  split; [unfold int32; lia|]. cbn. unfold int32. lia.
Qed.
(* 0.1 + 0.2 is not 0.3, as in IEEE arithmetic *)
Example ex_C20_rounding :
  binop b64 BEq (VF false (dadd b64 (r64 1 10) (r64 2 10))) (VF false (r64 3 10)) = Val (VI false true 0).
Proof. b64_run. Qed.
Example ex_C20_overflow : binop b64 BMul (VI false true 65536) (VI false true 65536) = UB /\
  binop b64 BMod (VI false true 1) (VI false true 0) = UB /\ apply b64 false BMul (NZ 65536) (NZ 65536) = Some (NZ 4294967296) /\ ~ int32 4294967296.
Proof. split; [reflexivity|]. split; [reflexivity|]. split; [reflexivity|]. unfold int32. lia. Qed.
Example ex_C20_strings : forall B, binop B BLt (VS true (Some ["a"; "b"]%char)) (VS true (Some ["a"; "c"]%char)) = Val (VI false true 1) /\
  binop B BAdd (VS true (Some ["a"]%char)) (VS true (Some ["c"]%char)) = Val (VS true (Some ["a"; "c"]%char)) /\
  binop B BAdd (VS true (Some ["a"]%char)) (VI false true 1) = Null.
Proof. intros B. repeat split. Qed.
