(* Which cards the commands list and save print: list_save  apps/c_list.cc:63-107, with findbranch
   (lib/findbr.cc:39-107) for names without dots.

   The line is given as its words: a dash written apart, or a name that has no dot, does not start with a dash, is at most 256
   characters long and is read whole by ctostr (lib/findbr.cc:44).  A fat_iterator (include/e_cardlist.h:50-75) is what
   is left of the list from it on.  A card is its label and an identity; printing it (print_item) is adding it to the
   output.  Not modelled: precalc_first, the run modes, the title (33-61), the text of the message. *)
Require Import Ascii List Bool Arith.
Require Import Verif.Wmatch_Model.
Import ListNotations.
Open Scope list_scope.

(* the words of the line *)
Inductive token := Dash | Name (p : list ascii).
(* include/e_base.h:85, include/e_card.h:71 *)
Record card := Card { label : list ascii; ident : nat }.
(* what was printed and whether it ended with the exception "can't find" (apps/c_list.cc:73, 87); Undef: *ci at the end *)
Inductive outcome := Printed (l : list card) | Cant_find (l : list card) | Undef.

Section List_.
Variable ci : bool. (* OPT::case_insensitive *)

(* lib/findbr.cc:66-106 for a name without dots *)
Fixpoint find (p : list ascii) (here : list card) : list card :=
  match here with
  | [] => []
  | c :: r => if wmatch ci (label c) p then here else find p r
  end.
(* lib/findbr.cc:39-107: a dash as a name is looked for as any other *)
Definition findbranch (t : token) (here : list card) : list card :=
  match t with Name p => find p here | Dash => find ["-"%char] here end.

(* apps/c_list.cc:89-91; stop is the number of cards from stop to the end *)
Fixpoint range (here : list card) (stop : nat) : option (list card) :=
  match here with
  | [] => None
  | c :: r => if Nat.eqb (length here) stop then Some [c]
              else match range r stop with Some l => Some (c :: l) | None => None end
  end.
(* apps/c_list.cc:97-102; n bounds the rounds *)
Fixpoint matches (n : nat) (t : token) (here : list card) : list card :=
  match n, here with
  | S n, c :: r => c :: matches n t (findbranch t r)
  | _, _ => []
  end.
(* apps/c_list.cc:95-105: here is the first match of the first argument *)
Fixpoint each (t : token) (ts : list token) (scope here : list card) : list card :=
  match here with
  | [] => []
  | _ :: _ => matches (length here) t here ++
      match ts with
      | [] => []                                              (* 104: nothing to look for, lib/findbr.cc:46-48 *)
      | t' :: ts' => each t' ts' scope (findbranch t' scope)
      end
  end.
(* apps/c_list.cc:77-93: after a dash *)
Definition to (here : list card) (ts : list token) : outcome :=
  match ts with
  | [] => Printed here                                        (* 79-82 *)
  | t :: _ =>
      match here with
      | [] => Undef
      | _ :: r =>
          match findbranch t r with                           (* 84-85 *)
          | [] => Cant_find []                                (* 86-87 *)
          | s :: rest => match range here (length (s :: rest)) with Some l => Printed l | None => Undef end
          end
      end
  end.
(* apps/c_list.cc:63-107 *)
Definition list_save (line : list token) (scope : list card) : outcome :=
  match line with
  | [] => Printed scope                                       (* 63-66 *)
  | Dash :: ts => match scope with [] => Cant_find [] | _ :: _ => to scope ts end
  | Name p :: ts =>
      match find p scope with
      | [] => Cant_find []                                    (* 72-73 *)
      | here => match ts with
                | Dash :: ts' => to here ts'                  (* 77 *)
                | _ => Printed (each (Name p) ts scope here)  (* 94-106 *)
                end
      end
  end.
End List_.
