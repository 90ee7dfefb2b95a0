(* The file a command writes to: xopen  lib/io_xopen.cc:48-113.

   The line is the text from the cursor after skipbl (57), of any length; it is not empty, so the user is not asked for
   a name (53-55).  The time, whether a file exists, whether the user agrees, and whether the file opens are parameters.
   trim (87) changes nothing, as a name has no spaces; the extension is assumed to have none.  Not modelled: skipcom (92),
   the text of the warning (110). *)
Require Import Ascii List Bool NArith.
Require Import Verif.CS_Model.
Import ListNotations.
Open Scope list_scope.

(* include/md.h:70-73 *)
Definition BIGBUFLEN : N := 4096.
(* the number of characters in fname; i  lib/io_xopen.cc:60 *)
Definition size (t : list ascii) : N := N.of_nat (length t).
(* lib/io_xopen.cc:63 *)
Definition ends_name (c : ascii) : bool := Ascii.eqb c NUL || isspace c.

Section Xopen.
Variable now : list ascii. (* what "%ld" writes for time(0)  lib/io_xopen.cc:67 *)

(* lib/io_xopen.cc:61-78: acc is fname[0..i), dflt is defalt.  None: something is written outside fname, either by
   sprintf (67) or, after the loop has ended because of its bound, by the zero (83) *)
Fixpoint copy (l acc : list ascii) (dflt : bool) : option (list ascii * bool * list ascii) :=
  if N.ltb (size acc) BIGBUFLEN then
    match l with
    | [] => Some (acc, dflt, [])                                            (* 62-65: ctoc gives the zero; 78 *)
    | c :: l' =>
        if ends_name c then Some (acc, dflt, l)                             (* 63-65, 78 *)
        else if Ascii.eqb c "$" then
          if N.ltb (size acc + size now) BIGBUFLEN then copy l' (acc ++ now) dflt else None   (* 66-68 *)
        else copy l' (acc ++ [c])
               (if Ascii.eqb c "." then false else if Ascii.eqb c "/" then true else dflt)    (* 70-75 *)
    end
  else None.
(* lib/io_xopen.cc:79-84 *)
Definition extend (ext acc : list ascii) (dflt : bool) : list ascii :=
  match ext with
  | [] => acc
  | _ :: _ => if (dflt && N.ltb (size acc + size ext + 2) BIGBUFLEN)%bool then (acc ++ ["."%char]) ++ ext else acc
  end.

(* what is done: no name, the user keeps the file, or fopen with this name; None is undefined *)
Inductive action := No_name | Kept (n : list ascii) | Opens (n : list ascii).
Variable exists_ : list ascii -> bool.  (* access(., F_OK)  lib/io_xopen.cc:95 *)
Variable agreed : list ascii -> bool.   (* the answer to "... exists.  replace? "  lib/io_xopen.cc:96-99 *)

(* lib/io_xopen.cc:48-106: the action and the line from the cursor on; writing: *how == 'w' *)
Definition xopen (clobber writing : bool) (ext l : list ascii) : option (action * list ascii) :=
  match copy l [] true with
  | None => None
  | Some (acc, dflt, r) =>
      let n := extend ext acc dflt in
      match n with
      | [] => Some (No_name, r)                                             (* 88-90 *)
      | _ :: _ =>
          Some (if (negb clobber && writing && exists_ n)%bool              (* 95 *)
                then if agreed n then Opens n else Kept n                   (* 99-103 *)
                else Opens n, r)                                            (* 105 *)
      end
  end.
End Xopen.
