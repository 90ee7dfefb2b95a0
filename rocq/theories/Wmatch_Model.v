(* lib/l_wmatch.cc.  Strings are lists of characters; the end of the list is the terminating NUL
   (an embedded NUL is not representable, wmatch passes c_str()). *)
Require Import Arith List Ascii Bool.
Import ListNotations.

(* <cctype> tolower in the "C" locale *)
Definition to_lower (c : ascii) : ascii :=
  let n := nat_of_ascii c in
  if (65 <=? n)%nat && (n <=? 90)%nat then ascii_of_nat (n + 32) else c.

(* lib/l_wmatch.cc:34-37 fix_case; ci is OPT::case_insensitive *)
Definition fix_case (ci : bool) (c : ascii) : ascii := if ci then to_lower c else c.

(* lib/l_wmatch.cc:39-60 wmatch_by_ptr; s1 is the pattern, s2 the string *)
Fixpoint wmatch_by_ptr (ci : bool) (s1 : list ascii) {struct s1} : list ascii -> bool :=
  fix go (s2 : list ascii) : bool :=
    match s2, s1 with
    | [], [] => true
    | [], _ :: _ => false
    | _ :: _, [] => false
    | c :: s2', d :: s1' =>
        if Ascii.eqb (fix_case ci c) (fix_case ci d) then wmatch_by_ptr ci s1' s2'
        else if Ascii.eqb d "?" then wmatch_by_ptr ci s1' s2'
        else if Ascii.eqb d "*" then
          if go s2' then true
          else if wmatch_by_ptr ci s1' s2 then true
          else wmatch_by_ptr ci s1' s2'
        else false
    end.

(* lib/l_wmatch.cc:62-65 wmatch(label, pattern) *)
Definition wmatch (ci : bool) (s1 s2 : list ascii) : bool := wmatch_by_ptr ci s2 s1.
