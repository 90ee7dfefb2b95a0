(* Parsing and printing of expressions: lib/m_expression_in.cc, lib/m_expression_dump.cc,
   lib/m_base_in.cc (Name_String, vString), on the scanner of CS_Model.v.

   Not modelled: warnings, memory management.  Token text is a list of characters. *)
Require Import ZArith List Ascii String Bool.
Require Import Verif.Loops Verif.Wmatch_Model Verif.CS_Model.
Import ListNotations.
Local Open Scope Z_scope.

(* the outcome of a call: a result, an exception, undefined behaviour (or a failed assert) *)
Inductive pr (A : Type) : Type := Good (a : A) | Bad | Wrong.
Arguments Good {A} a. Arguments Bad {A}. Arguments Wrong {A}.
Definition pbind {A B} (x : pr A) (f : A -> pr B) : pr B := match x with Good a => f a | Bad => Bad | Wrong => Wrong end.
Definition lift {A} (x : option A) : pr A := match x with Some a => Good a | None => Wrong end.
Notation "'do' x '<-' e ';' k" := (pbind e (fun x => k)) (at level 200, x pattern, e at level 100, k at level 200).

(* The token classes, include/m_expression.h:70-213, with their name; KStr is a Token_CONSTANT that
   holds a vString (the only constant the parser makes, m_expression_in.cc:119-124) *)
Inductive ptok :=
  | KSym (n : list ascii) | KBin (n : list ascii) | KUn (n : list ascii) | KStr (s : list ascii)
  | KTern (t f : list ptok) | KStop (n : list ascii) | KArr (n : list ascii) | KPar (n : list ascii).

(* include/ap.h:115 *)
Definition is_pfloat := match1 (str ".0123456789").
(* data += File.ctoc() *)
Definition take1 (d : list ascii) (s : cs) : option (list ascii * cs) := let* (c, s) := ctoc s in Some (d ++ [c], s).
(* while (cond) data += File.ctoc() *)
Definition take_more (cond : cs -> option bool) (d : list ascii) (s : cs) : option (list ascii * cs) :=
  conv cond (fun v c => Some (v ++ [c])) d s.

(* lib/m_base_in.cc:65-82 *)
Definition number_name (s : cs) : option (list ascii * cs) :=
  let* (d, s) := take_more is_pfloat [] s in
  let* e := match1 (str "eE") s in
  let* (d, s) := if e then
      let* (d, s) := take1 d s in
      let* sg := match1 (str "+-") s in
      let* (d, s) := if sg then take1 d s else Some (d, s) in
      take_more is_digit d s
    else Some (d, s) in
  take_more is_alpha d s.
(* lib/m_base_in.cc:84-99 *)
Fixpoint name_loop (n : nat) (bracket : Z) (d : list ascii) (s : cs) : option (list ascii * cs) :=
  match n with
  | O => None
  | S n' =>
    let* a := is_alpha s in
    let* p := is_pfloat s in
    let* u := match1 (str "_$") s in
    let* o := match1 (str "[") s in
    let* c := match1 (str "]") s in
    let go b := let* (d, s) := take1 d s in name_loop n' b d s in
    if a || p || u then go bracket
    else if o then go (bracket + 1)
    else if negb (bracket =? 0) && c then go (bracket - 1)
    else Some (d, s)
  end.
(* Name_String::parse  lib/m_base_in.cc:61-104 *)
Definition name_parse (s : cs) : option (list ascii * cs) :=
  let* s := skipbl s in
  let* p := is_pfloat s in
  let* (d, s) := if p then number_name s else name_loop (rounds s) 0 [] s in
  let* s := skipbl s in
  Some (d, s).

Definition QUOTE : ascii := """"%char.
(* the loop of vString::parse  lib/m_base_in.cc:128-147; ends with _ok false at the end of the line *)
Fixpoint string_loop (n : nat) (d : list ascii) (s : cs) : option (list ascii * cs) :=
  match n with
  | O => None
  | S n' =>
    if ok s then
      let* b := match1c "\" s in
      if b then
        let* (d, s) := take1 d s in
        let* q := match1c QUOTE s in
        let* b := match1c "\" s in
        let* (d, s) := if q || b then take1 d s else Some (d, s) in
        string_loop n' d s
      else
        let* s := skip1c QUOTE s in
        if ok s then Some (d, s)
        else
          let* m := ns_more s in
          if negb m then Some (d, s)
          else let* (d, s) := take1 d s in string_loop n' d (reset (cnt s) s)
    else Some (d, s)
  end.
(* vString::parse  lib/m_base_in.cc:119-156; the text as it stands between the quotes *)
Definition string_parse (s : cs) : option (list ascii * cs) :=
  let* s := skipbl s in
  let here := cnt s in
  let* s := skip1c QUOTE s in
  let* (d, s) := string_loop (rounds s) [] s in
  if ok s then let* s := skipbl s in Some (d, s) else Some ([], reset_fail here s).

(* File >> "..." and then File.last_match() *)
Definition oper (ci : bool) (p : list ascii) (s : cs) : option (option (list ascii) * cs) :=
  let* s := umatch ci p s in
  if ok s then let* n := last_match s in Some (Some n, s) else Some (None, s).

(* the member functions of lib/m_expression_in.cc:62-276 *)
Inductive nt := Narglisttail | Narglist | Narray | Nleaf | Nfactor | Nternary | Ntermtail | Nterm
  | Naddexptail | Naddexp | Nlogicaltail | Nlogical | Nandtail | Nandarg | Nexptail | Nexpression.

(* One call; E is the list of tokens so far, n bounds the depth of calls. *)
Fixpoint go (ci : bool) (n : nat) (x : nt) (s : cs) (E : list ptok) {struct n} : pr (cs * list ptok) :=
  match n with
  | O => Wrong
  | S n' =>
    let call := go ci n' in
    (* a tail: if one of the operators is next, the operand, the operator, and the tail again *)
    let tail (p : list ascii) (operand self : nt) :=
      do (o, s) <- lift (oper ci p s);
      match o with
      | Some name =>
          do (s, E) <- call operand s E;
          call self s (E ++ [KBin name])
      | None => Good (s, E)
      end in
    match x with
    | Narglisttail => (* 62-69 *)
        do s <- lift (skip1b (str ",") s);
        if ok s then do (s, E) <- call Nexpression s E; call Narglisttail s E
        else Good (s, E)
    | Narglist => (* 71-87 *)
        do s <- lift (skip1b (str "(") s);
        if ok s then
          let E := E ++ [KStop (str "(")] in
          do s <- lift (skip1b (str ")") s);
          if ok s then Good (s, E ++ [KPar (str ")")])
          else
            do (s, E) <- call Nexpression s E;
            do (s, E) <- call Narglisttail s E;
            do s <- lift (skip1b (str ")") s);
            if ok s then Good (s, E ++ [KPar (str ")")]) else Bad
        else Good (s, E)
    | Narray => (* 89-112; the result is the status of the scanner *)
        let here := cnt s in
        do s <- lift (skip1b (str "'") s);
        do c <- lift (peek s);
        if ok s && Ascii.eqb c "{" then
          let s := skip s in
          let E := E ++ [KStop (str "'{")] in
          do s <- lift (skip1b (str "}") s);
          if ok s then Good (s, E ++ [KArr (str "}")])
          else
            do (s, E) <- call Nexpression s E;
            do (s, E) <- call Narglisttail s E;
            do s <- lift (skip1b (str "}") s);
            if ok s then Good (s, E ++ [KArr (str "}")]) else Bad
        else Good (reset_fail here s, E)
    | Nleaf => (* 114-140 *)
        let here := cnt s in
        do c <- lift (peek s);
        if Ascii.eqb c QUOTE then
          do (d, s) <- lift (string_parse s);
          if here <? cnt s then Good (s, E ++ [KStr d]) else Bad
        else if Ascii.eqb c "<" then
          do (d, s) <- lift (ctos [] (str "<") (str ">") s);
          Good (s, E ++ [KSym (str "<" ++ d ++ str ">")])
        else
          do (s, E) <- call Narray s E;
          if ok s then Good (s, E)
          else
            do (d, s) <- lift (name_parse s);
            if here <? cnt s then
              do (s, E) <- call Narglist s E;
              Good (s, E ++ [KSym d])
            else Bad
    | Nfactor => (* 142-164 *)
        do (u, s) <- lift (oper ci (str "-|+|!") s);
        do s <- lift (skip1b (str "(") s);
        do (s, E) <-
          (if ok s then
             do (s, E) <- call Nexpression s E;
             do s <- lift (skip1b (str ")") s);
             if ok s then Good (s, E) else Bad
           else call Nleaf s E);
        Good (s, match u with Some name => E ++ [KUn name] | None => E end)
    | Nternary => (* 166-186 *)
        do (s, T) <- call Nexpression s [];
        do s <- lift (skip1b (str ":") s);
        if ok s then do (s, F) <- call Nexpression s []; Good (s, E ++ [KTern T F]) else Bad
    | Ntermtail => tail (str "*|/|%") Nfactor Ntermtail (* 188-197 *)
    | Nterm => do (s, E) <- call Nfactor s E; call Ntermtail s E (* 199-205 *)
    | Naddexptail => tail (str "+|-") Nterm Naddexptail (* 207-216 *)
    | Naddexp => do (s, E) <- call Nterm s E; call Naddexptail s E (* 218-222 *)
    | Nlogicaltail => tail (str "<=|<|>=|>|==|!=") Naddexp Nlogicaltail (* 224-233 *)
    | Nlogical => do (s, E) <- call Naddexp s E; call Nlogicaltail s E (* 235-239 *)
    | Nandtail => tail (str "&&") Nlogical Nandtail (* 241-250 *)
    | Nandarg => do (s, E) <- call Nlogical s E; call Nandtail s E (* 252-256 *)
    | Nexptail => (* 258-270 *)
        do (o, s) <- lift (oper ci (str "\|\|") s);
        match o with
        | Some name =>
            do (s, E) <- call Nandarg s E;
            call Nexptail s (E ++ [KBin name])
        | None =>
            do (q, s) <- lift (oper ci (str "?") s);
            match q with
            | Some _ => match E with [] => Wrong | _ => call Nternary s E end
            | None => Good (s, E)
            end
        end
    | Nexpression => do (s, E) <- call Nandarg s E; call Nexptail s E (* 272-276 *)
    end
  end.
(* Expression(CS&)  include/m_expression.h:236, lib/m_expression_in.cc:278-281.  Calls nest at most 16
   deep for each character that is left. *)
Definition parse (ci : bool) (s : cs) : pr (cs * list ptok) := go ci (16 * S (List.length (cmd s))) Nexpression s [].

(* ---- printing ---- *)
(* what is on the stack of Expression::dump: a Token_STOP, a Token_PARLIST, or another token, with its
   full_name() (= name() = val_string()) *)
Inductive entry := IStop (n : list ascii) | IPar (n : list ascii) | IText (n : list ascii).
Definition full_name (e : entry) : list ascii := match e with IStop n | IPar n | IText n => n end.

(* lib/m_expression_dump.cc:54-76; the stack is held top first *)
Fixpoint collect (been_here : bool) (tmp : list ascii) (st : list entry) : pr (list ascii * list entry) :=
  match st with
  | [] => Bad
  | IStop n :: st' => Good (n ++ tmp, st')
  | IText n :: st' => collect true (n ++ (if been_here then str ", " ++ tmp else tmp)) st'
  | IPar _ :: _ => Wrong
  end.
(* lib/m_expression_dump.cc:43-137 *)
Fixpoint dump_tok (t : ptok) (st : list entry) {struct t} : pr (list entry) :=
  let fix dump_list (l : list ptok) (st : list entry) {struct l} : pr (list entry) :=
    match l with [] => Good st | x :: r => do st <- dump_tok x st; dump_list r st end in
  (* 138-146 *)
  let dump (l : list ptok) : pr (list ascii) :=
    do st <- dump_list l []; Good (match st with [] => str "empty" | e :: _ => full_name e end) in
  match t with
  | KStop n => Good (IStop n :: st) (* 44-45 *)
  | KPar n => do (tmp, st) <- collect false n st; Good (IPar tmp :: st) (* 46-84 *)
  | KArr n => do (tmp, st) <- collect false n st; Good (IText tmp :: st)
  | KSym n => (* 85-97 *)
      match st with IPar p :: st' => Good (IText (n ++ p) :: st') | _ => Good (IText n :: st) end
  | KStr d => (* val_string of a vString: include/m_base_vams.h:152-159 *)
      let n := QUOTE :: d ++ [QUOTE] in
      match st with IPar p :: st' => Good (IText (n ++ p) :: st') | _ => Good (IText n :: st) end
  | KBin n => (* 98-109 *)
      match st with
      | t2 :: t1 :: st' => Good (IText (str "(" ++ full_name t1 ++ str " " ++ n ++ str " " ++ full_name t2 ++ str ")") :: st')
      | _ => Wrong
      end
  | KUn n => (* 110-118 *)
      match st with
      | t1 :: st' => Good (IText (str "(" ++ n ++ str " " ++ full_name t1 ++ str ")") :: st')
      | _ => Wrong
      end
  | KTern tp fp => (* 119-133 *)
      match st with
      | c :: st' =>
          do a <- dump tp; do b <- dump fp;
          Good (IText (str "(" ++ full_name c ++ str ")? (" ++ a ++ str "):(" ++ b ++ str ")") :: st')
      | [] => Wrong
      end
  end.
Fixpoint dump_list (l : list ptok) (st : list entry) : pr (list entry) :=
  match l with [] => Good st | x :: r => do st <- dump_tok x st; dump_list r st end.
(* Expression::dump  lib/m_expression_dump.cc:37-151 *)
Definition dump (l : list ptok) : pr (list ascii) :=
  do st <- dump_list l []; Good (match st with [] => str "empty" | e :: _ => full_name e end).
