(* What C61 is stated with: expression trees, how they are written down, and the order of their tokens.
   Nothing here refers to the parser. *)
Require Import ZArith List Ascii String Bool.
Require Import Verif.Wmatch_Model Verif.CS_Model Verif.Parse_Model.
Import ListNotations.

Inductive tree :=
  | Leaf (n : list ascii)                      (* a name or a number *)
  | Str (d : list ascii)                       (* a quoted string *)
  | Call (n : list ascii) (args : list tree)   (* n(args) *)
  | Arr (items : list tree)                    (* '{items} *)
  | Un (o : list ascii) (e : tree)
  | Bin (o : list ascii) (a b : tree)
  | Tern (c t f : tree).

(* the tokens in reverse polish order *)
Fixpoint post (e : tree) : list ptok :=
  match e with
  | Leaf n => [KSym n]
  | Str d => [KStr d]
  | Call n args => KStop (str "(") :: flat_map post args ++ [KPar (str ")"); KSym n]
  | Arr items => KStop (str "'{") :: flat_map post items ++ [KArr (str "}")]
  | Un o e => post e ++ [KUn o]
  | Bin o a b => post a ++ post b ++ [KBin o]
  | Tern c t f => post c ++ [KTern (post t) (post f)]
  end.

(* ---- how expressions are written ---- *)
Definition pointdigit (c : ascii) : Prop := In c (str ".0123456789").
(* [lax] lets in what the parser accepts beyond what one would write down: letters and blanks with the
   top bit set, a number that ends in a bare e, a comma after an operator, "\" and "|\" for "||", text in
   angle brackets, leading blanks *)
Definition blanks (lax : bool) (b : list ascii) : Prop :=
  Forall (fun c => c <> NUL /\ isgraph c = false /\ (lax = true \/ (N_of_ascii c < 128)%N)) b.
Definition letter (lax : bool) (c : ascii) : Prop := isalpha c = true \/ (lax = true /\ isalpha (toascii c) = true).
Definition namechar (lax : bool) (c : ascii) : Prop := letter lax c \/ pointdigit c \/ In c (str "_$").
Definition count (x : ascii) (l : list ascii) : nat := List.length (filter (Ascii.eqb x) l).
(* an identifier: name characters and brackets, each "]" closing an open "[" *)
Definition ident (lax : bool) (n : list ascii) : Prop :=
  (exists c q, n = c :: q /\ ~ pointdigit c) /\
  Forall (fun c => namechar lax c \/ c = "["%char \/ c = "]"%char) n /\
  (forall a b, n = a ++ "]"%char :: b -> (count "]" a < count "[" a)%nat).
(* a number: digits and points, an exponent, letters *)
Definition numeral (lax : bool) (n : list ascii) : Prop :=
  exists f g, n = f ++ g /\ f <> [] /\ Forall pointdigit f /\
    ((Forall (letter lax) g /\ (forall c q, g = c :: q -> ~ In c (str "eE"))) \/
     (exists e sg ds ls, g = e :: sg ++ ds ++ ls /\ In e (str "eE") /\ (sg = [] \/ exists c, sg = [c] /\ In c (str "+-")) /\
        Forall (fun c => In c (str "0123456789")) ds /\ Forall (letter lax) ls /\ (lax = true \/ sg ++ ds ++ ls <> []))).
Definition word (lax : bool) (n : list ascii) : Prop := ident lax n \/ numeral lax n.
(* the text between quotes: a quote is preceded by a backslash *)
Inductive quotable : list ascii -> Prop :=
  | q_nil : quotable []
  | q_char c d : c <> NUL -> ~ In c [QUOTE; "\"%char] -> quotable d -> quotable (c :: d)
  | q_esc c d : In c [QUOTE; "\"%char] -> quotable d -> quotable ("\"%char :: c :: d)
  | q_bs c d : ~ In c [QUOTE; "\"%char] -> quotable (c :: d) -> quotable ("\"%char :: c :: d).

(* [enclosed bq eq k t d]: the text t, inside k opening marks and up to the mark that closes the first of
   them, stands for d.  A backslash is dropped, and lets a closing mark stand for itself.  (e_end: the
   line ends before it is closed.) *)
Inductive enclosed (bq eq : ascii) : nat -> list ascii -> list ascii -> Prop :=
  | e_close : enclosed bq eq 1 [eq] []
  | e_end k : enclosed bq eq k [] []
  | e_in k t d : bq <> eq -> enclosed bq eq (S k) t d -> enclosed bq eq k (bq :: t) (bq :: d)
  | e_out k t d : (1 <= k)%nat -> enclosed bq eq k t d -> enclosed bq eq (S k) (eq :: t) (eq :: d)
  | e_esc k t d : enclosed bq eq k t d -> enclosed bq eq k ("\"%char :: eq :: t) (eq :: d)
  | e_bs k t d : (forall q, t <> eq :: q) -> enclosed bq eq k t d -> enclosed bq eq k ("\"%char :: t) d
  | e_char k c t d : ~ In c [bq; eq; "\"%char] -> enclosed bq eq k t d -> enclosed bq eq k (c :: t) (c :: d).

(* binary operators by precedence, loosest first *)
Definition ops (k : nat) : list (list ascii) :=
  match k with
  | 1 => [str "||"] | 2 => [str "&&"] | 3 => [str "<="; str "<"; str ">="; str ">"; str "=="; str "!="]
  | 4 => [str "+"; str "-"] | 5 => [str "*"; str "/"; str "%"] | _ => []
  end%nat.
Definition signs : list (list ascii) := [str "-"; str "+"; str "!"].
Definition opname (lax : bool) (k : nat) (o : list ascii) : Prop :=
  In o (ops k) \/ (lax = true /\ k = 1%nat /\ In o [str "\"; str "|\"]).
(* what may stand between an operator and its operand *)
Definition gap (lax : bool) (b : list ascii) : Prop :=
  blanks lax b \/ (lax = true /\ exists b1 b2, b = b1 ++ ","%char :: b2 /\ blanks lax b1 /\ blanks lax b2).

(* [writes lax k t e]: the text t, blanks at its end included, is a way to write e at level k.
   Level 0: anything; 1: ||; 2: &&; 3: comparisons; 4: + and -; 5: * / %; 6: signs; 7: the rest *)
Inductive writes (lax : bool) : nat -> list ascii -> tree -> Prop :=
  | w_leaf n b : word lax n -> blanks lax b -> writes lax 7 (n ++ b) (Leaf n)
  | w_angle a b d : lax = true -> enclosed "<" ">" 1 a d -> gap lax b -> writes lax 7 ("<"%char :: a ++ b) (Leaf (str "<" ++ d ++ str ">"))
  | w_str d b : quotable d -> blanks lax b -> writes lax 7 (QUOTE :: d ++ QUOTE :: b) (Str d)
  | w_call n b1 b2 b3 t args : word lax n -> blanks lax b1 -> blanks lax b2 -> blanks lax b3 -> lists lax t args ->
      writes lax 7 (n ++ b1 ++ "("%char :: b2 ++ t ++ ")"%char :: b3) (Call n args)
  | w_arr b1 b2 b3 t items : blanks lax b1 -> blanks lax b2 -> blanks lax b3 -> lists lax t items ->
      writes lax 7 ("'"%char :: b1 ++ "{"%char :: b2 ++ t ++ "}"%char :: b3) (Arr items)
  | w_paren b1 b2 t e : blanks lax b1 -> blanks lax b2 -> writes lax 0 t e -> writes lax 7 ("("%char :: b1 ++ t ++ ")"%char :: b2) e
  | w_sign o b t e : In o signs -> gap lax b -> writes lax 7 t e -> writes lax 6 (o ++ b ++ t) (Un o e)
  | w_up k t e : writes lax (S k) t e -> writes lax k t e
  | w_bin k o b t1 t2 e1 e2 : opname lax k o -> gap lax b -> writes lax k t1 e1 -> writes lax (S k) t2 e2 ->
      writes lax k (t1 ++ o ++ b ++ t2) (Bin o e1 e2)
  | w_tern b1 b2 t1 t2 t3 e1 e2 e3 : gap lax b1 -> blanks lax b2 ->
      writes lax 1 t1 e1 -> writes lax 0 t2 e2 -> writes lax 0 t3 e3 ->
      writes lax 0 (t1 ++ "?"%char :: b1 ++ t2 ++ ":"%char :: b2 ++ t3) (Tern e1 e2 e3)
  | w_lead b t e : lax = true -> blanks lax b -> writes lax 6 t e -> writes lax 6 (b ++ t) e
with lists (lax : bool) : list ascii -> list tree -> Prop :=
  | l_nil : lists lax [] []
  | l_one t e : writes lax 0 t e -> lists lax t [e]
  | l_cons t b ts e es : writes lax 0 t e -> blanks lax b -> es <> [] -> lists lax ts es -> lists lax (t ++ ","%char :: b ++ ts) (e :: es).
Scheme writes_mut := Minimality for writes Sort Prop with lists_mut := Minimality for lists Sort Prop.
Combined Scheme writes_lists from writes_mut, lists_mut.

(* text at which an expression ends: no blank, nothing that could continue a name, no operator *)
Definition operators : list (list ascii) := ops 1 ++ ops 2 ++ ops 3 ++ ops 4 ++ ops 5 ++ [str "?"; str "\"; str "|\"].
Definition ends (r : list ascii) : Prop :=
  (forall c q, r = c :: q -> (c = NUL \/ isgraph c = true) /\ ~ namechar false c /\ ~ In c (str "[](")) /\
  (forall o q, In o operators -> r <> o ++ q).
