(* The typed values of the expression evaluator and their operators: include/m_base.h (Integer,
   Float, String), include/m_base_vams.h (vInteger, vReal, vString), lib/m_base_math.cc, and the
   operator tables of lib/m_expression_reduce.cc:33-106.

   Not modelled here: parsing and printing of values, memory management, Name_String and
   Quoted_String (which override only parsing and printing). *)
Require Import ZArith List Ascii Bool.
Require Import Coq.Floats.SpecFloat.
Import ListNotations.
Local Open Scope Z_scope.

(* What the code uses of the type double: conversion from int32_t, + - * /, fmod, unary minus,
   comparison (None: unordered), static_cast<int32_t> (None: undefined behaviour) and the
   constant NOT_INPUT (include/constant.h:99).  No law is assumed. *)
Record dbl := mkdbl {
  D : Type;
  dofz : Z -> D;
  dadd : D -> D -> D; dsub : D -> D -> D; dmul : D -> D -> D; ddiv : D -> D -> D;
  dfmod : D -> D -> D; dneg : D -> D;
  dcmp : D -> D -> option comparison;
  dtoi : D -> option Z;
  dNA : D }.

Section Values.
Variable B : dbl.

(* A value.  VI: Integer (flag false, m_base.h:185) or vInteger (flag true, m_base_vams.h:28) with
   its _input flag and _data; VF: Float (m_base.h:289) or vReal (m_base_vams.h:76); VS: String
   (m_base.h:411) or vString (m_base_vams.h:140), None when _data is null.  Strings hold no NUL. *)
Inductive value := VI (v : bool) (inp : bool) (n : Z) | VF (v : bool) (d : D B) | VS (v : bool) (s : option (list ascii)).

(* What a method returning a pointer to Base can do: return a new object, return nullptr, be undefined (int
   overflow, division by zero, a failed assert), or throw. *)
Inductive R := Val (x : value) | Null | UB | Throw.

(* int32_t, m_base.h:189 *)
Definition int_min : Z := -2147483648.
Definition int_max : Z := 2147483647.
Definition fits (n : Z) : bool := (int_min <=? n) && (n <=? int_max).

(* new Integer(int32_t) / new vInteger(int32_t), m_base.h:204, m_base_vams.h:47; the argument was
   computed in int: out of range is undefined *)
Definition ival (v : bool) (n : Z) : R := if fits n then Val (VI v true n) else UB.
(* int / int: undefined for a zero divisor *)
Definition idiv (v : bool) (a b : Z) : R := if b =? 0 then UB else ival v (Z.quot a b).
(* int % int: undefined for a zero divisor and where the quotient does not fit *)
Definition irem (v : bool) (a b : Z) : R :=
  if b =? 0 then UB else if fits (Z.quot a b) then ival v (Z.rem a b) else UB.
(* (cond)?1:0 *)
Definition ibool (v : bool) (b : bool) : R := Val (VI v true (if b then 1 else 0)).

(* double comparisons: false on unordered operands, except != *)
Definition dlt (a b : D B) : bool := match dcmp B a b with Some Lt => true | _ => false end.
Definition dgt (a b : D B) : bool := match dcmp B a b with Some Gt => true | _ => false end.
Definition dle (a b : D B) : bool := match dcmp B a b with Some Lt => true | Some Eq => true | _ => false end.
Definition dge (a b : D B) : bool := match dcmp B a b with Some Gt => true | Some Eq => true | _ => false end.
Definition deq (a b : D B) : bool := match dcmp B a b with Some Eq => true | _ => false end.
Definition dne (a b : D B) : bool := negb (deq a b).

(* the methods of class Base, m_base.h:60-119 *)
Inductive meth := MLess | MGreater | MLeq | MGeq | MNeq | MEq | MAdd | MRAdd | MMul
                | MSub | MRSub | MDiv | MRDiv | MMod | MRMod.

(* Integer::m(Integer pointer), m_base.h:220-233 and 547-548; vInteger::m(Integer pointer),
   m_base_vams.h:57-70.  [v n]: this object, [x]: the argument's _data.  r_add is not overridden
   (Base::r_add, m_base.h:89). *)
Definition int_int (v : bool) (n x : Z) (m : meth) : R :=
  match m with
  | MLess => ibool v (n <? x)
  | MGreater => ibool v (x <? n)
  | MLeq => ibool v (n <=? x)
  | MGeq => ibool v (x <=? n)
  | MNeq => ibool v (negb (n =? x))
  | MEq => ibool v (n =? x)
  | MAdd => ival v (n + x)
  | MRAdd => Null
  | MMul => ival v (n * x)
  | MSub => ival v (n - x)
  | MRSub => ival v (x - n)
  | MDiv => if v then idiv v n x else Val (VF false (ddiv B (dofz B n) (dofz B x)))
  | MRDiv => if v then idiv v x n else Val (VF false (ddiv B (dofz B x) (dofz B n)))
  | MMod => irem v n x
  | MRMod => irem v x n
  end.

(* Float::m(Float pointer), m_base.h:323-336, and vReal's overrides, m_base_vams.h:117-130, which
   return the same classes *)
Definition flt_flt (d x : D B) (m : meth) : R :=
  match m with
  | MLess => ibool false (dlt d x)
  | MGreater => ibool false (dgt d x)
  | MLeq => ibool false (dle d x)
  | MGeq => ibool false (dge d x)
  | MNeq => ibool false (dne d x)
  | MEq => ibool false (deq d x)
  | MAdd => Val (VF false (dadd B d x))
  | MRAdd => Null
  | MMul => Val (VF false (dmul B d x))
  | MSub => Val (VF false (dsub B d x))
  | MRSub => Val (VF false (dsub B x d))
  | MDiv => Val (VF false (ddiv B d x))
  | MRDiv => Val (VF false (ddiv B x d))
  | MMod => Val (VF false (dfmod B d x))
  | MRMod => Val (VF false (dfmod B x d))
  end.

(* Integer::m(Float pointer) for the comparisons, m_base.h:396-401 *)
Definition int_flt_cmp (n : Z) (x : D B) (m : meth) : R :=
  match m with
  | MLess => ibool false (dlt (dofz B n) x)
  | MGreater => ibool false (dgt (dofz B n) x)
  | MLeq => ibool false (dle (dofz B n) x)
  | MGeq => ibool false (dge (dofz B n) x)
  | MNeq => ibool false (dne (dofz B n) x)
  | MEq => ibool false (deq (dofz B n) x)
  | _ => Null
  end.

(* Float::m(Integer pointer), m_base.h:338-351.  [d]: this object, [n]: the argument's _data. *)
Definition flt_int (d : D B) (n : Z) (m : meth) : R :=
  match m with
  | MLess => int_flt_cmp n d MGreater
  | MGreater => int_flt_cmp n d MLess
  | MLeq => int_flt_cmp n d MGeq
  | MGeq => int_flt_cmp n d MLeq
  | MNeq => ibool false (dne (dofz B n) d)
  | MEq => ibool false (deq (dofz B n) d)
  | MAdd => Val (VF false (dadd B (dofz B n) d))
  | MRAdd => Null
  | MMul => Val (VF false (dmul B (dofz B n) d))
  | MSub => Val (VF false (dsub B d (dofz B n)))
  | MRSub => Val (VF false (dsub B (dofz B n) d))
  | MDiv => Val (VF false (ddiv B d (dofz B n)))
  | MRDiv => Val (VF false (ddiv B (dofz B n) d))
  | MMod => Val (VF false (dfmod B d (dofz B n)))
  | MRMod => Val (VF false (dfmod B d (dofz B n)))   (* line 351: the operands are not reversed *)
  end.

(* Integer::m(Float pointer), m_base.h:396-409; divide is assert(0) (line 406) *)
Definition int_flt (n : Z) (x : D B) (m : meth) : R :=
  match m with
  | MAdd => flt_int x n MAdd
  | MMul => flt_int x n MMul
  | MSub => flt_int x n MRSub
  | MRSub => flt_int x n MSub
  | MDiv => UB
  | MRDiv => flt_int x n MDiv
  | MMod => flt_int x n MRMod
  | MRMod => flt_int x n MMod
  | MRAdd => Null
  | _ => int_flt_cmp n x m
  end.

(* strcmp: lexicographic on unsigned characters *)
Fixpoint strcmp (a b : list ascii) : comparison :=
  match a, b with
  | [], [] => Eq
  | [], _ :: _ => Lt
  | _ :: _, [] => Gt
  | x :: a', y :: b' => match N.compare (N_of_ascii x) (N_of_ascii y) with Eq => strcmp a' b' | c => c end
  end.

(* vString::add, m_base_vams.h:193-210, and String::add, m_base.h:481 *)
Definition str_add (v : bool) (s : option (list ascii)) (vx : bool) (x : option (list ascii)) : R :=
  if v then if vx then match s, x with Some a, Some b => Val (VS true (Some (a ++ b))) | _, _ => Null end else Null
  else Null.

(* String::m(String pointer), m_base.h:475-490; vString overrides add and r_add *)
Definition str_str (v : bool) (s : option (list ascii)) (vx : bool) (x : option (list ascii)) (m : meth) : R :=
  let cmp (f : comparison -> bool) := match s, x with Some a, Some b => ibool false (f (strcmp a b)) | _, _ => Null end in
  match m with
  | MLess => cmp (fun c => match c with Lt => true | _ => false end)
  | MGreater => cmp (fun c => match c with Gt => true | _ => false end)
  | MLeq => cmp (fun c => match c with Gt => false | _ => true end)
  | MGeq => cmp (fun c => match c with Lt => false | _ => true end)
  | MNeq => cmp (fun c => match c with Eq => false | _ => true end)
  | MEq => cmp (fun c => match c with Eq => true | _ => false end)
  | MAdd => str_add v s vx x
  | MRAdd => str_add vx x v s
  | _ => Null
  end.

(* The overload selected by the class of the argument; numbers and strings do not mix:
   m_base.h:265-278, 368-381, 508-538 *)
Definition typed (self X : value) (m : meth) : R :=
  match self, X with
  | VI v _ n, VI _ _ x => int_int v n x m
  | VI _ _ n, VF _ x => int_flt n x m
  | VF _ d, VI _ _ x => flt_int d x m
  | VF _ d, VF _ x => flt_flt d x m
  | VS v s, VS vx x => str_str v s vx x m
  | _, _ => Null
  end.

(* m(Base pointer): the reversed method of the argument, m_base.h:250-263, 353-366, 492-506.  Only
   String uses r_add. *)
Definition reversed (self : value) (m : meth) : meth :=
  match m with
  | MLess => MGreater | MGreater => MLess | MLeq => MGeq | MGeq => MLeq | MNeq => MNeq | MEq => MEq
  | MAdd => match self with VS _ _ => MRAdd | _ => MAdd end
  | MRAdd => MAdd
  | MMul => MMul
  | MSub => MRSub | MRSub => MSub | MDiv => MRDiv | MRDiv => MDiv | MMod => MRMod | MRMod => MMod
  end.
Definition call (self X : value) (m : meth) : R := typed X self (reversed self m).

(* to_bool: m_base.h:210, 313, 463 *)
Definition to_bool (x : value) : bool :=
  match x with
  | VI _ inp n => inp && negb (n =? 0)
  | VF _ d => dne d (dofz B 0)
  | VS _ (Some (_ :: _)) => true
  | VS _ _ => false
  end.
(* is_NA: m_base.h:280, 383, 540 *)
Definition is_NA (x : value) : bool :=
  match x with VI _ inp _ => negb inp | VF _ d => deq d (dNA B) | VS _ None => true | VS _ _ => false end.

(* logic_not, logic_or, logic_and: lib/m_base_math.cc:34-67 (the null argument cannot occur here) *)
Definition logic_not (x : value) : R := Val (VI false true (if to_bool x then 0 else 1)).
Definition logic_or (x y : value) : R :=
  Val (VI false true (if to_bool x then 1 else if to_bool y then 1 else 0)).
Definition logic_and (x y : value) : R :=
  Val (VI false true (if to_bool x then if to_bool y then 1 else 0 else 0)).

(* minus, plus: m_base.h:217-218, 320-321, 467-468; not overridden by vInteger and vReal *)
Definition minus (x : value) : R :=
  match x with VI _ _ n => ival false (- n) | VF _ d => Val (VF false (dneg B d)) | VS _ _ => Null end.
Definition plus (x : value) : R :=
  match x with VI _ _ n => ival false n | VF _ d => Val (VF false d) | VS _ _ => Null end.

(* the operators known to Token_BINOP::op and Token_UNARY::op *)
Inductive bop := BMul | BAdd | BSub | BDiv | BMod | BEq | BNe | BLt | BGt | BLe | BGe | BOr | BAnd.
Inductive uop := UMinus | UPlus | UNot.

(* Token_BINOP::op on the data of two constants, lib/m_expression_reduce.cc:33-81 *)
Definition binop (o : bop) (a b : value) : R :=
  match o with
  | BMul => call a b MMul
  | BAdd => call a b MAdd
  | BSub => call a b MSub
  | BDiv => call a b MDiv
  | BMod => call a b MMod
  | BEq => call a b MEq
  | BNe => call a b MNeq
  | BLt => call a b MLess
  | BGt => call a b MGreater
  | BLe => call a b MLeq
  | BGe => call a b MGeq
  | BOr => logic_or a b
  | BAnd => logic_and a b
  end.
(* Token_UNARY::op, lib/m_expression_reduce.cc:83-106 *)
Definition unop (o : uop) (a : value) : R :=
  match o with UMinus => minus a | UPlus => plus a | UNot => logic_not a end.

(* The classes a parameter can be declared with: the class of PARAMETER<T>::_v, u_parameter.h:75-99 *)
Inductive ptype := PInt (v : bool) | PFlt (v : bool) | PStr (v : bool).

(* to_Integer: m_base.h:283, 386, 544; m_base_vams.h:217 *)
Definition to_Integer (x : value) : R :=
  match x with
  | VI _ inp n => Val (VI false inp n)
  | VF _ d => match dtoi B d with Some n => ival false n | None => UB end
  | VS false _ => Val (VI false false 0)
  | VS true _ => Throw
  end.
(* to_Float: m_base.h:390-394, 387, 543; m_base_vams.h:218 *)
Definition to_Float (x : value) : R :=
  match x with
  | VI _ _ n => Val (VF false (dofz B n))
  | VF _ d => Val (VF false d)
  | VS false _ => Val (VF false (dNA B))
  | VS true _ => Throw
  end.
(* to_String: m_base.h:542, 552 *)
Definition to_String (x : value) : R := match x with VS _ s => Val (VS false s) | _ => Throw end.

(* T::assign(Base pointer) on a non-null argument: m_base.h:554, 315, 470; m_base_vams.h:133, 112,
   172-182.  The vInteger is built through vInteger(int32_t), which sets _input. *)
Definition assign (t : ptype) (x : value) : R :=
  match t with
  | PInt false => to_Integer x
  | PInt true => match to_Integer x with Val (VI _ _ n) => Val (VI true true n) | r => r end
  | PFlt v => match to_Float x with Val (VF _ d) => Val (VF v d) | r => r end
  | PStr false => to_String x
  | PStr true => match x with VS true s => Val (VS true s) | _ => Null end
  end.

(* the class of a value *)
Definition class_of (x : value) : ptype :=
  match x with VI v _ _ => PInt v | VF v _ => PFlt v | VS v _ => PStr v end.
(* clone: m_base.h:54 *)
Definition clone (x : value) : R := assign (class_of x) x.

End Values.

Arguments VI {B}. Arguments VF {B}. Arguments VS {B}.
Arguments Val {B}. Arguments Null {B}. Arguments UB {B}. Arguments Throw {B}.

(* ---- IEEE 754 binary64 as an instance, on the standard library's specification of floating
   point (round to nearest even, one NaN) ---- *)

(* static_cast<int32_t>: truncation, undefined outside the range of int32_t *)
Definition sf_toi (x : spec_float) : option Z :=
  match x with
  | S754_zero _ => Some 0
  | S754_finite s m e =>
      let a := if 0 <=? e then Z.pos m * 2 ^ e else Z.pos m / 2 ^ (- e) in
      let n := if s then - a else a in
      if fits n then Some n else None
  | _ => None
  end.
(* fmod: the exact remainder with the sign of the dividend (C99 7.12.10.1, F.9.7.1) *)
Definition sf_fmod (x y : spec_float) : spec_float :=
  match x, y with
  | S754_nan, _ | _, S754_nan | S754_infinity _, _ | _, S754_zero _ => S754_nan
  | S754_zero s, _ => S754_zero s
  | _, S754_infinity _ => x
  | S754_finite s m e, S754_finite _ m' e' =>
      let k := Z.min e e' in
      let r := (Z.pos m * 2 ^ (e - k)) mod (Z.pos m' * 2 ^ (e' - k)) in
      if r =? 0 then S754_zero s else binary_normalize 53 1024 (if s then - r else r) k s
  end.
(* include/constant.h:99: -(MAXDBL)*(.9547658) to within rounding *)
Definition sf_NA : spec_float := SFmul 53 1024 (S754_finite true 9007199254740991 971)
  (SFdiv 53 1024 (binary_normalize 53 1024 9547658 0 false)
                 (binary_normalize 53 1024 10000000 0 false)).
Definition b64 : dbl :=
  mkdbl spec_float (fun z => binary_normalize 53 1024 z 0 false)
        (SFadd 53 1024) (SFsub 53 1024) (SFmul 53 1024) (SFdiv 53 1024) sf_fmod SFopp SFcompare sf_toi sf_NA.
