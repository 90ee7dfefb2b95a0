(* Which function an element uses in which analysis: lib/bm_cond.cc, as called from
   apps/lang_spice.cc:337-363. *)
Require Import String.
Require Import ZArith List Ascii Bool.
Require Import Verif.Loops Verif.CS_Model.
Import ListNotations.
Local Open Scope string_scope.
Local Open Scope list_scope.

(* include/mode.h:37-44 *)
Inductive mode := NONE | AC | OP | DC | TRAN | FOURIER.
Definition mode_eqb (a b : mode) : bool :=
  match a, b with NONE, NONE | AC, AC | OP, OP | DC, DC | TRAN, TRAN | FOURIER, FOURIER => true | _, _ => false end.
(* the loops for (int i = 1; i < sCOUNT; ++i)  lib/bm_cond.cc:194, 204, 221 *)
Definition analyses : list mode := [AC; OP; DC; TRAN; FOURIER].

Section Cond.
(* a behavioural function as parsed; is_value: dynamic_cast to EVAL_BM_VALUE succeeds; ac_too: the
   virtual function of include/bm.h:78 *)
Context {F : Type} (is_value ac_too : F -> bool).

(* a function object: the static func_zero (lib/bm_cond.cc:32), or the one made in the i-th pass of
   the loop. Two pointers are equal when they are the same object. *)
Inductive obj := Zero | Made (i : nat) (f : F).
Definition same_obj (a b : obj) : bool := match a, b with Zero, Zero => true | Made i _, Made j _ => Nat.eqb i j | _, _ => false end.

(* _func, _set  lib/bm_cond.cc:36-37; how many objects have been made; how many warnings were given *)
Record state := St { func : mode -> option obj; isset : mode -> bool; made : nat; warned : nat }.
(* lib/bm_cond.cc:67-72 *)
Definition start : state := St (fun _ => None) (fun _ => false) 0 0.
Definition put {T} (t : mode -> T) (m : mode) (v : T) : mode -> T := fun k => if mode_eqb k m then v else t k.

(* one pass of the loop, lib/bm_cond.cc:109-169, after the label and the function have been read: no
   function means there was no more text. attach_common replaces what was there, because operator==
   of these functions is false (include/bm.h:40-41; Common_Model.v has attach_common itself). *)
Definition step (is_source : bool) (st : state) (c : mode * option F) : state :=
  let (m, of) := c in
  let w := if isset st m then S (warned st) else warned st in
  let value := match of with Some f => is_value f | None => false end in
  let m := if is_source && mode_eqb m NONE && negb (isset st DC) && value then DC else m in
  let o := match of with Some f => Made (made st) f | None => Zero end in
  St (put (func st) m (Some o)) (put (isset st) m true) (S (made st)) w.

(* if (!_func[d] && _set[s]) attach_common(_func[s], &_func[d]) *)
Definition rule (st : state) (d s : mode) : state :=
  match func st d with
  | None => if isset st s then St (put (func st) d (func st s)) (isset st) (made st) (warned st) else st
  | Some _ => st
  end.
(* if (!_func[d]) attach_common(o, &_func[d]) *)
Definition default (st : state) (d : mode) (o : option obj) : state :=
  match func st d with None => St (put (func st) d o) (isset st) (made st) (warned st) | Some _ => st end.
(* c->ac_too() of line 190; c is func_zero, which is an EVAL_BM_VALUE, if the text ended *)
Definition ac_too_of (o : option obj) : bool := match o with Some (Made _ f) => ac_too f | _ => false end.
(* lib/bm_cond.cc:171-196 *)
Definition fill (is_source : bool) (st : state) : state :=
  let st := rule st OP DC in let st := rule st OP NONE in let st := rule st OP TRAN in let st := default st OP (Some Zero) in
  let st := rule st DC NONE in let st := rule st DC OP in let st := rule st DC TRAN in let st := default st DC (Some Zero) in
  let st := rule st TRAN NONE in let st := rule st TRAN DC in let st := rule st TRAN OP in let st := default st TRAN (Some Zero) in
  let st := default st FOURIER (func st TRAN) in
  let st := if negb is_source || ac_too_of (func st NONE) then rule st AC NONE else st in
  default st AC (Some Zero).
(* the whole of parse_common_obsolete_callback on labels and functions already read *)
Definition table (is_source : bool) (l : list (mode * option F)) : state := fill is_source (fold_left (step is_source) l start).

(* EVAL_BM_COND::deflate  lib/bm_cond.cc:219-230: what the element keeps, the table or one function *)
Inductive kept := Whole (st : state) | Single (o : obj).
Definition deflate (st : state) : option kept :=
  if forallb (fun m => match func st m, func st NONE with
      | Some a, Some b => same_obj a b | None, None => true | _, _ => false end) analyses
  then match func st NONE with Some o => Some (Single o) | None => None end
  else Some (Whole st).
(* tr_eval, ac_eval, tr_review, tr_accept of EVAL_BM_COND (lib/bm_cond.cc:54-61) or of the function
   itself: the object called on in the analysis m; None is a failed assert *)
Definition used (k : kept) (m : mode) : option obj := match k with Whole st => func st m | Single o => Some o end.

(* print_common_obsolete_callback  lib/bm_cond.cc:264-287: the labels and functions written out; the
   text of a label is that of include/mode.h:48 *)
Definition printed (st : state) : list (mode * obj) :=
  (if isset st NONE then match func st NONE with Some o => [(NONE, o)] | None => [] end else []) ++
  flat_map (fun m => if isset st m then match func st m with Some o => [(m, o)] | None => [] end else []) [FOURIER; TRAN; DC; OP; AC].

(* ---- reading the text ---- *)
(* Set(cmd, key, &mode, v)  include/ap.h:193-202 *)
Definition set_mode (ci : bool) (key : string) (v : mode) (r : option (option mode * cs)) : option (option mode * cs) :=
  let* (got, s) := r in
  match got with
  | Some b => Some (Some b, s)
  | None => let* s := umatch ci (str key ++ [" "%char]) s in Some (if ok s then Some v else None, s)
  end.
(* lib/bm_cond.cc:110-119 *)
Definition read_mode (ci : bool) (s : cs) : option (mode * cs) :=
  let* (got, s) := set_mode ci "all" NONE (set_mode ci "else" NONE (set_mode ci "four{ier}" FOURIER (set_mode ci "tran{sient}" TRAN
    (set_mode ci "dc" DC (set_mode ci "op" OP (set_mode ci "ac" AC (Some (None, s)))))))) in
  Some (match got with Some m => m | None => NONE end, s).
(* lib/bm_cond.cc:103-107: the line begins with v or i, or with .vsource or .isource *)
Definition source_line (ci : bool) (s : cs) : option (bool * cs) :=
  let here := cnt s in
  let* s := skipbl (reset 0 s) in
  let* a := match1 (str "viVI") s in
  let* (b, s) := if a then Some (true, s) else
    let* d := match1c "." s in
    if d then
      let* s := umatch ci (str ".vso{urce} ") s in
      if ok s then Some (true, s) else let* s := umatch ci (str ".iso{urce} ") s in Some (ok s, s)
    else Some (false, s) in
  Some (b, reset here s).
(* lib/bm_cond.cc:109-169. read_func stands for lines 125-147 and 158-159: parse_func_type, the choice
   of a model or a value where there is none, and the reading of its arguments; None as a function: no
   more text. is_end is include/ap.h:87. n bounds the passes; 0 left is an error of the model. *)
Fixpoint read_loop (ci : bool) (read_func : cs -> option (option F * cs)) (is_source : bool) (n : nat) (here : Z) (st : state) (s : cs) : option (state * cs) :=
  match n with
  | O => None
  | S n' =>
      let* (m, s) := read_mode ci s in
      let* (f, s) := read_func s in
      let st := step is_source st (m, f) in
      let* (c, s) := more s in
      if negb c then Some (st, s) else
      let* (b, s) := more s in
      if b && (here <? cnt s)%Z then read_loop ci read_func is_source n' (cnt s) st s else Some (st, s)
  end.
(* lib/bm_cond.cc:101-197 *)
Definition parse (ci : bool) (read_func : cs -> option (option F * cs)) (s : cs) : option (state * cs) :=
  let* (src, s) := source_line ci s in
  let* (st, s) := read_loop ci read_func src (S (S (List.length (cmd s)))) (cnt s) start s in
  Some (fill src st, s).
End Cond.
Arguments Zero {F}.
