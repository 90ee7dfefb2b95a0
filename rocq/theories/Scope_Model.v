(* Parameter lists and their scopes: lib/u_parameter.cc:108-203 and 285-358, include/u_parameter.h:101-186
   and 262-440, with the reducer of Expr_Model.v.

   Not modelled: parsing of the text ([parse]) and printing of a fixed value ([text]); PARAMETER<bool>;
   the warnings; Exception_Clash (a parameter already set is replaced, lines 214-220). *)
Require Import ZArith List Ascii Bool.
Require Import Verif.Wmatch_Model Verif.Value_Model Verif.Expr_Model.
Import ListNotations.

Section Scope.
Variable B : dbl.
Variable lit : name -> value B.
Variable fn : name -> option (list (tok B) -> res (list (tok B) * bool)).
Variable parse : name -> list (tok B).       (* Expression(CS), m_expression_in.cc *)
Variable text : value B -> name.             (* to_string *)
Variable ci : bool.                          (* OPT::case_insensitive *)
Variable limit : nat.                        (* OPT::recursion *)

(* PARA_BASE::_s, u_parameter.h:42-44: "", "#" (with _v), or an expression *)
Inductive ptext := PNone | PFixed (v : value B) | PText (s : name).
(* PARAM_INSTANCE, u_parameter.h:263: a PARAM_ANY (no class) or a PARAMETER<T> whose _v has the class
   given *)
Record pinst := mkpi { p_ty : option ptype; p_s : ptext }.
(* has_hard_value, u_parameter.h:55 *)
Definition hard (p : pinst) : bool := match p_s p with PNone => false | _ => true end.
(* string(), u_parameter.h:122-130; the text of a parameter without one is not used *)
Definition string_of (p : pinst) : name := match p_s p with PNone => [] | PFixed v => text v | PText s => s end.

(* std::map::find on the keys *)
Definition pmap := list (name * pinst).
Fixpoint find (m : pmap) (n : name) : option pinst :=
  match m with [] => None | (k, p) :: r => if list_eq_dec ascii_dec k n then Some p else find r n end.
(* notstd::to_lower when OPT::case_insensitive *)
Definition fold_case (n : name) : name := if ci then map to_lower n else n.

(* PARAM_LIST::deep_lookup, lines 155-176, on a list and those that _try_again leads to *)
Fixpoint deep_lookup (c : list pmap) (n : name) : pinst :=
  let n := fold_case n in
  match c with
  | [] => mkpi None PNone
  | m :: r => match find m n with Some p => if hard p then p else deep_lookup r n | None => deep_lookup r n end
  end.

(* what Token_SYMBOL::stack_op sees of a scope, m_expression_reduce.cc:201-209 *)
Definition lookup (c : list pmap) (n : name) : option (option ptype * list (tok B)) :=
  let p := deep_lookup c n in if hard p then Some (p_ty p, parse (string_of p)) else None.

(* Expression::value, m_expression.h:261 *)
Definition value_of (e : list (tok B)) : option (value B) := match e with [TConst v] => Some v | _ => None end.
Definition lift (r : R B) : res (option (value B)) :=
  match r with Val w => OK (Some w) | Null => OK None | UB => Undef | Throw => Thrown end.
(* a null pointer or a value that is_NA *)
Definition present (o : option (value B)) : option (value B) :=
  match o with Some v => if is_NA B v then None else Some v | None => None end.
(* the value of class t with is_NA: value_type(_NOT_INPUT), m_base.h:203, 306, 424 *)
Definition na (t : ptype) : value B := match t with PInt v => VI v false 0 | PFlt v => VF v (dNA B) | PStr v => VS v None end.
(* get<T>, u_parameter.h:459-502: the value as its class or the ordinary class that this extends; any
   other fails the assert *)
Definition get_as (t : ptype) (b : value B) : option (value B) :=
  match t, b with
  | PInt v, VI w i n => if v && negb w then None else Some (VI v i n)
  | PFlt v, VF w d => if v && negb w then None else Some (VF v d)
  | PStr v, VS w s => if v && negb w then None else Some (VS v s)
  | _, _ => None
  end.

(* PARAM_INSTANCE::e_val, lines 178-203, with e_val_ and lookup_solve of PARAM_ANY (285-358) and
   PARAMETER<T> (u_parameter.h:504-537, 559-602), for a null default.  The state is the static counter,
   as the number of calls that are left; it is returned, because an exception leaves it as it is. *)
Fixpoint e_val (c : list pmap) (left : nat) (p : pinst) : res (option (value B)) * nat :=
  match left with
  | O => (Thrown, limit)
  | S left' =>
      match p_s p with
      | PNone => (OK (option_map na (p_ty p)), left)
      | PFixed v => (OK (Some v), left)
      | PText s =>
          match reduce B lit (lookup c) fn limit (parse s) with
          | Thrown => (Thrown, left')
          | Undef => (Undef, left')
          | OK e =>
              let direct := match p_ty p, value_of e with
                            | None, Some v => match present (Some v) with Some v => lift (clone B v) | None => OK None end
                            | Some t, Some v => lift (assign B t v)
                            | _, None => OK None
                            end in
              match direct with
              | Thrown => (Thrown, left')
              | Undef => (Undef, left')
              | OK x =>
                  match present x with
                  | Some v => (OK (Some v), left)
                  | None =>
                      match e_val c left' (deep_lookup c s), p_ty p with
                      | (OK b, l), None => (match present b with Some v => lift (clone B v) | None => OK None end, S l)
                      | (OK (Some b), l), Some t => (match get_as t b with Some w => OK (Some w) | None => Undef end, S l)
                      | (OK None, l), Some t => (OK (Some (na t)), S l)
                      | (r, l), _ => (r, l)
                      end
                  end
              end
          end
      end
  end.

(* set_fixed(Base pointer), u_parameter.h:327-346: an untyped parameter takes the class of a number and
   ignores a string; a null from assign fails the assert in PARAMETER::operator= (line 135) *)
Definition set_fixed (p : pinst) (b : value B) : res pinst :=
  let go t := match assign B t b with Val w => OK (mkpi (Some t) (PFixed w)) | Null => Undef | UB => Undef | Throw => Thrown end in
  match p_ty p with
  | Some t => go t
  | None => match b with VF _ _ => go (PFlt false) | VI _ _ _ => go (PInt false) | VS _ _ => OK p end
  end.

(* PARAM_LIST::eval_copy, lines 108-153, into an empty list, as attach_params calls it
   (e_cardlist.cc:491-505): [args] are the parameters passed to the instance, [proto] those of the
   subcircuit, [c] the scope of the caller.  (The branch for a key that is there already cannot be
   taken: keys differ.) *)
Fixpoint eval_copy (c : list pmap) (proto : option pmap) (args : pmap) (left : nat) (own : pmap) : res pmap * nat :=
  match args with
  | [] => (OK own, left)
  | (n, p) :: r =>
      if hard p then
        match find own n with
        | Some _ => (Undef, left)
        | None =>
            let pi := match proto with
                      | None => mkpi None PNone
                      | Some m => match find m n with Some k => k | None => mkpi (Some (PFlt false)) PNone end
                      end in
            match e_val c left p with
            | (OK b, l) =>
                match present b with
                | Some v =>
                    match set_fixed pi v with
                    | OK pi' => eval_copy c proto r l (own ++ [(n, pi')])
                    | Thrown => (Thrown, l)
                    | Undef => (Undef, l)
                    end
                | None => eval_copy c proto r l (own ++ [(n, pi)])
                end
            | (Thrown, l) => (Thrown, l)
            | (Undef, l) => (Undef, l)
            end
        end
      else eval_copy c proto r left own
  end.
End Scope.
Arguments mkpi {B}. Arguments PNone {B}. Arguments PFixed {B}. Arguments PText {B}.
Arguments p_ty {B}. Arguments p_s {B}. Arguments hard {B}. Arguments find {B}.
