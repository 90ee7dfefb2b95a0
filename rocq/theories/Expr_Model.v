(* Reduction of expressions: lib/m_expression_reduce.cc, include/m_expression.h, lib/u_function.cc
   and the stack functions of apps/func_core.cc.

   An Expression is its list of tokens in reverse polish order.  The expression under construction
   is held top first ([st]; its head is E->back()).

   Not modelled: memory management; Token_ARRAY; the text behind a literal ([lit]), a parameter's
   text (given here already parsed, as tokens); names that begin with a quote (the parser makes a
   constant of those, m_expression_in.cc:118). *)
Require Import ZArith List Ascii Bool.
Require Import Verif.Value_Model.
Import ListNotations.
Local Open Scope Z_scope.

Section Expr.
Variable B : dbl.
Definition name := list ascii.

(* The token classes, m_expression.h:70-213.  TUn None is a Token_UNARY whose _name is empty; a
   Token_CONSTANT always has data (m_expression_in.cc:124, m_expression_reduce.cc:471). *)
Inductive tok :=
  | TSym (n : name) | TBin (o : bop) | TUn (o : option uop) | TConst (v : value B)
  | TTern (t f : list tok) | TStop | TPar.

(* the effect of stack_op on the expression under construction: its new contents, an exception, or
   undefined behaviour (a failed assert, an int overflow) *)
Inductive res (A : Type) := OK (a : A) | Thrown | Undef.
Arguments OK {A}. Arguments Thrown {A}. Arguments Undef {A}.
Definition rbind {A C} (r : res A) (f : A -> res C) : res C :=
  match r with OK a => f a | Thrown => Thrown | Undef => Undef end.

(* What the scope provides.
   [lit]: the constant that a literal stands for, m_expression_reduce.cc:166-194.
   [lookup]: the parameter found in the scope, if it has a hard value (lines 201-209): its declared
   class (None for an untyped one) and the tokens of its text.
   [fn]: the stack_op of the function of that name, if there is one (line 148): the new stack and
   whether it returned normally (true) or threw (false). *)
Variable lit : name -> value B.
Variable lookup : name -> option (option ptype * list tok).
Variable fn : name -> option (list tok -> res (list tok * bool)).

(* strchr("0123456789.", name()[0]), line 166; strchr also finds the terminating NUL, so the empty
   name counts *)
Definition is_lit (n : name) : bool :=
  match n with
  | [] => true
  | c :: _ => existsb (Ascii.eqb c) ["0"; "1"; "2"; "3"; "4"; "5"; "6"; "7"; "8"; "9"; "."]%char
  end.
(* strchr("+*", name()[0]) *)
Definition commut (o : bop) : bool := match o with BAdd | BMul => true | _ => false end.
Definition is_str (v : value B) : bool := match v with VS _ _ => true | _ => false end.
Definition bop_eqb (a b : bop) : bool :=
  match a, b with
  | BMul, BMul | BAdd, BAdd | BSub, BSub | BDiv, BDiv | BMod, BMod | BEq, BEq | BNe, BNe
  | BLt, BLt | BGt, BGt | BLe, BLe | BGe, BGe | BOr, BOr | BAnd, BAnd => true
  | _, _ => false
  end.

(* the result of an operator on constants, in token form; [keep] when it returned nullptr *)
Definition folded (r : R B) (good : value B -> list tok) (keep : list tok) : res (list tok) :=
  match r with Val v => OK (good v) | Null => OK keep | UB => Undef | Throw => Thrown end.

(* Token_BINOP::stack_op, lines 295-417.  (The branches at 338-364 that depend on the class of the
   data all push back in the original order: every value is an Integer, a Float or a String.) *)
Definition bin_stack_op (o : bop) (st : list tok) : res (list tok) :=
  match st with
  | t1 :: t2 :: st' =>
      match t1 with
      | TSym _ =>
          match t2 with
          | TConst c => if commut o && negb (is_str c) then OK (TBin o :: t2 :: t1 :: st') else OK (TBin o :: t1 :: t2 :: st')
          | _ => OK (TBin o :: t1 :: t2 :: st')
          end
      | TConst c1 =>
          match t2 with
          | TConst c2 => folded (binop B o c2 c1) (fun v => TConst v :: st') (TBin o :: t1 :: t2 :: st')
          | TSym _ => OK (TBin o :: t1 :: t2 :: st')
          | TBin o2 =>
              if bop_eqb o2 o && commut o then
                match st' with
                | [] => Undef
                | TConst c3 :: st'' => folded (binop B o c3 c1) (fun v => t2 :: TConst v :: st'') (TBin o :: t1 :: t2 :: TConst c3 :: st'')
                | _ => OK (TBin o :: t1 :: t2 :: st')
                end
              else OK (TBin o :: t1 :: t2 :: st')
          | _ => OK (TBin o :: t1 :: t2 :: st')
          end
      | _ => OK (TBin o :: t1 :: t2 :: st')
      end
  | _ => Undef
  end.

(* Token_UNARY::stack_op, lines 439-460.  The token pushed back is a clone, and the copy constructor
   (m_expression.h:181) does not copy _name.  op with an empty name is unreachable(). *)
Definition un_stack_op (o : option uop) (st : list tok) : res (list tok) :=
  match st with
  | TConst c :: st' =>
      match o with
      | Some u => folded (unop B u c) (fun v => TConst v :: st') (TUn None :: TConst c :: st')
      | None => Undef
      end
  | t1 :: st' => OK (TUn None :: t1 :: st')
  | [] => Undef
  end.

(* eval_base, lines 108-138, on the reduced text of the parameter: a new constant, or null when
   that is not a single constant *)
Definition eval_base (ty : option ptype) (e : list tok) : R B :=
  match e with
  | [TConst v] => match ty with None => clone B v | Some t => assign B t v end
  | _ => Null
  end.

(* a scalar name, lines 160-243; [reduce] builds the Expression from the parameter's tokens *)
Definition sym_stack_op (reduce : list tok -> res (list tok)) (n : name) (st : list tok) : res (list tok) :=
  match st with
  | TPar :: _ =>
      match fn n with
      | Some f => rbind (f st) (fun x => let (st', ok) := x in if (ok : bool) then OK st' else OK (TSym n :: st'))
      | None => Thrown
      end
  | _ =>
      if is_lit n then OK (TConst (lit n) :: st)
      else match lookup n with
           | None => OK (TSym n :: st)
           | Some (ty, def) => rbind (reduce def) (fun e => folded (eval_base ty e) (fun v => TConst v :: st) (e ++ st))
           end
  end.

(* is_num in Token_TERNARY::stack_op, lines 258-267 *)
Definition is_num (v : value B) : bool := negb (is_str v).

(* stack_op of each token class; a TERNARY with a constant numeric condition applies the selected
   part's tokens to the same expression, otherwise both parts are reduced separately, lines 255-293.
   STOP, ARRAY, PARLIST push themselves, lines 419-437; a constant pushes its clone, lines 462-478. *)
Section Step.
Variable reduce : list tok -> res (list tok).
Fixpoint stack_op (t : tok) (st : list tok) {struct t} : res (list tok) :=
  match t with
  | TSym n => sym_stack_op reduce n st
  | TBin o => bin_stack_op o st
  | TUn o => un_stack_op o st
  | TConst v => match clone B v with Val w => OK (TConst w :: st) | Throw => Thrown | _ => Undef end
  | TStop => OK (TStop :: st)
  | TPar => OK (TPar :: st)
  | TTern tp fp =>
      let run := fix run (l : list tok) (s : list tok) {struct l} : res (list tok) :=
        match l with [] => OK s | x :: r => rbind (stack_op x s) (run r) end in
      match st with
      | [] => Undef
      | TConst c :: st' =>
          if is_num c then if to_bool B c then run tp st' else run fp st'
          else rbind (reduce tp) (fun te => rbind (reduce fp) (fun fe => OK (TTern (rev te) (rev fe) :: st)))
      | _ => rbind (reduce tp) (fun te => rbind (reduce fp) (fun fe => OK (TTern (rev te) (rev fe) :: st)))
      end
  end.
(* reduce_copy, lines 481-495 *)
Fixpoint run (l : list tok) (s : list tok) : res (list tok) :=
  match l with [] => OK s | x :: r => rbind (stack_op x s) (run r) end.
End Step.

(* Expression(const Expression, scope), lines 497-527: [d] is OPT::recursion less the number of
   constructors already active; the result is top first.  Simplified: the static counter that a
   caught exception resets to zero is not tracked. *)
Fixpoint reduce (d : nat) (l : list tok) : res (list tok) :=
  match d with
  | O => Thrown
  | S d' => run (reduce d') l []
  end.

(* ---- functions ---- *)
(* FUNCTION::stack_op and call_function_eval, lib/u_function.cc:26-83: the arguments down to the
   STOP are taken if all are numbers, and the text of the answer read as a Float; [eval] is that
   whole passage through text, with None for an empty answer. *)
Fixpoint take_args (st : list tok) (acc : list (value B)) : option (list (value B) * list tok) :=
  match st with
  | TStop :: st' => Some (acc, st')
  | TConst v :: st' => if is_num v then take_args st' (v :: acc) else None
  | _ => None
  end.
Definition function_stack_op (eval : list (value B) -> option (D B)) (st : list tok) : res (list tok * bool) :=
  match st with
  | TPar :: st' =>
      match take_args st' [] with
      | Some (args, st'') =>
          match eval args with Some d => OK (TConst (VF false d) :: st'', true) | None => OK (st, false) end
      | None => OK (st, false)
      end
  | _ => Undef
  end.

(* sqrt::stack_op, apps/func_core.cc:97-157, when called from Token_SYMBOL::stack_op (so that the
   top is a PARLIST): one numeric constant above a STOP, otherwise everything is put back *)
Definition sqrt_stack_op (f : D B -> D B) (st : list tok) : res (list tok * bool) :=
  match st with
  | TPar :: TConst (VF v d) :: TStop :: st' => OK (TConst (VF false (f d)) :: st', true)
  | TPar :: TConst (VI v i n) :: TStop :: st' => OK (TConst (VF false (f (dofz B n))) :: st', true)
  | TPar :: _ => OK (st, false)
  | _ => Undef
  end.

(* abs::stack_op, apps/func_core.cc:37-91, likewise.  A constant argument is popped before its type
   is looked at, and line 58-63 does not put it back. *)
Definition abs_stack_op (f : D B -> D B) (st : list tok) : res (list tok * bool) :=
  match st with
  | TPar :: TConst (VF v d) :: st1 =>
      match st1 with TStop :: st' => OK (TConst (VF false (f d)) :: st', true) | _ => OK (st, false) end
  | TPar :: TConst (VI v i n) :: st1 =>
      if fits (Z.abs n) then
        match st1 with TStop :: st' => OK (TConst (VI false true (Z.abs n)) :: st', true) | _ => OK (st, false) end
      else Undef
  | TPar :: TConst (VS v s) :: st1 => OK (TPar :: st1, false)
  | TPar :: _ => OK (st, false)
  | _ => Undef
  end.

(* ---- expression trees, as the parser's grammar (m_expression_in.cc:27-58) builds them ---- *)
Inductive expr :=
  | EConst (v : value B) | ESym (n : name) | ECall (n : name) (args : list expr)
  | EUn (o : option uop) (e : expr) | EBin (o : bop) (a b : expr) | ETern (c t f : expr).
(* the tokens in the order the parser pushes them, m_expression_in.cc:71-186: STOP arguments PARLIST
   name for a call (arglist, leaf), operands then operator, the two parts inside the TERNARY *)
Fixpoint rpn (e : expr) : list tok :=
  match e with
  | EConst v => [TConst v]
  | ESym n => [TSym n]
  | ECall n args => TStop :: flat_map rpn args ++ [TPar; TSym n]
  | EUn o a => rpn a ++ [TUn o]
  | EBin o a b => rpn a ++ rpn b ++ [TBin o]
  | ETern c t f => rpn c ++ [TTern (rpn t) (rpn f)]
  end.
End Expr.

Arguments TSym {B}. Arguments TBin {B}. Arguments TUn {B}. Arguments TConst {B}. Arguments TTern {B}.
Arguments TStop {B}. Arguments TPar {B}.
Arguments OK {A}. Arguments Thrown {A}. Arguments Undef {A}. Arguments rbind {A C}.
Arguments EConst {B}. Arguments ESym {B}. Arguments ECall {B}. Arguments EUn {B}. Arguments EBin {B}. Arguments ETern {B}.
