(* What an expression means, in exact arithmetic and without reference to the reducer.  Not a
   transcription of any file. *)
Require Import ZArith List Ascii Bool.
Require Import Verif.Value_Model Verif.Expr_Model.
Import ListNotations.
Local Open Scope Z_scope.

Section Sem.
Variable B : dbl.
Variable lit : name -> value B.                              (* what a literal stands for *)
Variable pdef : name -> option (option ptype * expr B).      (* the parameters with a definition *)

(* a number or a string (quoted or not) *)
Inductive sval := SN (d : D B) | SS (q : bool) (s : list ascii).
(* integers and reals are the same kind of number here *)
Definition sem_of (v : value B) : option sval :=
  match v with
  | VI _ true n => Some (SN (dofz B n))
  | VI _ false _ => None
  | VF _ d => Some (SN d)
  | VS q (Some s) => Some (SS q s)
  | VS _ None => None
  end.
Definition nz (d : D B) : bool := match dcmp B d (dofz B 0) with Some Eq => false | _ => true end.
Definition struth (s : sval) : bool := match s with SN d => nz d | SS _ [] => false | SS _ _ => true end.
Definition sbool (b : bool) : sval := SN (dofz B (if b then 1 else 0)).
(* the comparison operators *)
Definition srel (o : bop) (c : option comparison) : option bool :=
  match o with
  | BEq => Some (match c with Some Eq => true | _ => false end)
  | BNe => Some (match c with Some Eq => false | _ => true end)
  | BLt => Some (match c with Some Lt => true | _ => false end)
  | BGt => Some (match c with Some Gt => true | _ => false end)
  | BLe => Some (match c with Some Lt | Some Eq => true | _ => false end)
  | BGe => Some (match c with Some Gt | Some Eq => true | _ => false end)
  | _ => None
  end.
(* binary operators; the remainder is left without a meaning (see C20) *)
Definition sop (o : bop) (a b : sval) : option sval :=
  match o with
  | BOr => Some (sbool (struth a || struth b))
  | BAnd => Some (sbool (struth a && struth b))
  | _ =>
    match a, b with
    | SN x, SN y =>
        match o with
        | BAdd => Some (SN (dadd B x y))
        | BSub => Some (SN (dsub B x y))
        | BMul => Some (SN (dmul B x y))
        | BDiv => Some (SN (ddiv B x y))
        | BMod => None
        | _ => option_map sbool (srel o (dcmp B x y))
        end
    | SS q s, SS q' t =>
        match o with
        | BAdd => if q && q' then Some (SS true (s ++ t)) else None
        | _ => option_map sbool (srel o (Some (strcmp s t)))
        end
    | _, _ => None
    end
  end.
Definition suop (u : uop) (a : sval) : option sval :=
  match u, a with
  | UNot, _ => Some (sbool (negb (struth a)))
  | UMinus, SN x => Some (SN (dneg B x))
  | UPlus, SN x => Some (SN x)
  | _, _ => None
  end.
(* conversion to the declared class of a parameter *)
Definition sconv (ty : option ptype) (a : sval) : option sval :=
  match ty, a with
  | None, _ => Some a
  | Some (PFlt _), SN d => Some (SN d)
  | Some (PInt _), SN d => option_map (fun n => SN (dofz B n)) (dtoi B d)
  | Some (PStr false), SS _ s => Some (SS false s)
  | Some (PStr true), SS true s => Some (SS true s)
  | _, _ => None
  end.

(* [rho]: the values of the names without a definition; [fval]: what the functions compute *)
Variable fval : name -> list sval -> option sval.
Inductive Den (rho : name -> option sval) : expr B -> sval -> Prop :=
  | DConst : forall v s, sem_of v = Some s -> Den rho (EConst v) s
  | DLit : forall n s, is_lit n = true -> sem_of (lit n) = Some s -> Den rho (ESym n) s
  | DFree : forall n s, is_lit n = false -> pdef n = None -> rho n = Some s -> Den rho (ESym n) s
  | DDef : forall n ty e s s', is_lit n = false -> pdef n = Some (ty, e) -> Den rho e s -> sconv ty s = Some s' -> Den rho (ESym n) s'
  | DUn : forall u e s s', Den rho e s -> suop u s = Some s' -> Den rho (EUn (Some u) e) s'
  | DBin : forall o a b x y s, Den rho a x -> Den rho b y -> sop o x y = Some s -> Den rho (EBin o a b) s
  | DCall : forall n args ss s, Forall2 (Den rho) args ss -> fval n ss = Some s -> Den rho (ECall n args) s
  | DTern : forall c t f d s, Den rho c (SN d) -> Den rho (if nz d then t else f) s -> Den rho (ETern c t f) s.

(* no name left open *)
Definition closed_value (e : expr B) (s : sval) : Prop := Den (fun _ => None) e s.

(* an operator token that has lost its name *)
Fixpoint named (e : expr B) : Prop :=
  match e with
  | EConst _ | ESym _ => True
  | ECall _ args => fold_right (fun a P => named a /\ P) True args
  | EUn o a => o <> None /\ named a
  | EBin _ a b => named a /\ named b
  | ETern c t f => named c /\ named t /\ named f
  end.
(* ordinary (not verilog) integers: their quotient is the real one *)
Definition plain (v : value B) : Prop := match v with VI true _ _ => False | _ => True end.
Fixpoint plain_expr (e : expr B) : Prop :=
  match e with
  | EConst v => plain v
  | ESym _ => True
  | ECall _ args => fold_right (fun a P => plain_expr a /\ P) True args
  | EUn _ a => plain_expr a
  | EBin _ a b => plain_expr a /\ plain_expr b
  | ETern c t f => plain_expr c /\ plain_expr t /\ plain_expr f
  end.
(* classes whose conversion changes the value *)
Definition lossy (ty : ptype) : bool := match ty with PInt _ => true | PStr false => true | _ => false end.

(* The scope as the reducer sees it *)
Definition scope_lookup (n : name) : option (option ptype * list (tok B)) :=
  option_map (fun p => (fst p, rpn B (snd p))) (pdef n).

(* Exact arithmetic *)
Record exact : Prop := mkexact {
  ex_add_comm : forall a b, dadd B a b = dadd B b a;
  ex_add_assoc : forall a b c, dadd B a (dadd B b c) = dadd B (dadd B a b) c;
  ex_mul_comm : forall a b, dmul B a b = dmul B b a;
  ex_mul_assoc : forall a b c, dmul B a (dmul B b c) = dmul B (dmul B a b) c;
  ex_ofz_add : forall a b, dofz B (a + b) = dadd B (dofz B a) (dofz B b);
  ex_ofz_sub : forall a b, dofz B (a - b) = dsub B (dofz B a) (dofz B b);
  ex_ofz_mul : forall a b, dofz B (a * b) = dmul B (dofz B a) (dofz B b);
  ex_ofz_neg : forall a, dofz B (- a) = dneg B (dofz B a);
  ex_cmp_ofz : forall a b, dcmp B (dofz B a) (dofz B b) = Some (Z.compare a b);
  ex_cmp_anti : forall a b, dcmp B b a = option_map CompOpp (dcmp B a b);
  ex_toi_ofz : forall n, dtoi B (dofz B n) = Some n }.

(* The scope is ordinary: literals and parameter classes are not verilog integers, literals and
   definitions contain no verilog integer, and a parameter whose class converts has a value of its
   own (does not depend on open names) *)
Record ordinary_scope : Prop := mkord {
  os_lit : forall n, plain (lit n);
  os_def : forall n ty e, pdef n = Some (ty, e) -> plain_expr e;
  os_ty : forall n e, pdef n <> Some (Some (PInt true), e);
  os_conv : forall n ty e, pdef n = Some (Some ty, e) -> lossy ty = true -> exists s, closed_value e s }.

(* An installed function replaces a call on constants by the constant it computes, or leaves the
   call as it is when an argument is not a constant or the function has no value there *)
Definition function_ok (n : name) (f : list (tok B) -> res (list (tok B) * bool)) : Prop :=
  forall args st0, let st := TPar :: rev (flat_map (rpn B) args) ++ TStop :: st0 in
    (exists vs w, args = map EConst vs /\ f st = OK (TConst w :: st0, true) /\ plain w /\
       forall ss s, Forall2 (fun v x => sem_of v = Some x) vs ss -> fval n ss = Some s -> sem_of w = Some s)
    \/ (f st = OK (st, false) /\
        forall vs ss, args = map EConst vs -> Forall2 (fun v x => sem_of v = Some x) vs ss -> fval n ss = None)
    \/ f st = Undef.
Definition functions_ok (fn : name -> option (list (tok B) -> res (list (tok B) * bool))) : Prop :=
  forall n f, fn n = Some f -> function_ok n f.

(* ---- evaluation from the leaves up on typed values, in any arithmetic ---- *)
(* what a function computes from constants *)
Variable cval : name -> list (value B) -> option (value B).
(* a verilog integer without a value does not survive copying *)
Definition proper (v : value B) : Prop := match v with VI true false _ => False | _ => True end.
Inductive Ev : expr B -> value B -> Prop :=
  | EvConst : forall v, proper v -> Ev (EConst v) v
  | EvLit : forall n, is_lit n = true -> Ev (ESym n) (lit n)
  | EvDef : forall n e v, is_lit n = false -> pdef n = Some (None, e) -> Ev e v -> proper v -> Ev (ESym n) v
  | EvTyped : forall n t e v w, is_lit n = false -> pdef n = Some (Some t, e) -> Ev e v -> assign B t v = Val w -> Ev (ESym n) w
  | EvUn : forall u e v w, Ev e v -> unop B u v = Val w -> Ev (EUn (Some u) e) w
  | EvBin : forall o a b x y w, Ev a x -> Ev b y -> binop B o x y = Val w -> Ev (EBin o a b) w
  | EvCall : forall n args vs w, Forall2 Ev args vs -> cval n vs = Some w -> Ev (ECall n args) w
  | EvTern : forall c t f v w, Ev c v -> is_num B v = true -> Ev (if to_bool B v then t else f) w -> Ev (ETern c t f) w.
(* the installed functions compute [cval] *)
Definition computes (fn : name -> option (list (tok B) -> res (list (tok B) * bool))) : Prop :=
  forall n vs w, cval n vs = Some w -> exists f, fn n = Some f /\
    forall st, f (TPar :: rev (map TConst vs) ++ TStop :: st) = OK (TConst w :: st, true).
End Sem.
Arguments SN {B}. Arguments SS {B}.
