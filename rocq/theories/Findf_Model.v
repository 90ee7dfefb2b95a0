(* The search for a file along a path: findfile  lib/io_findf.cc:37-67, and the two commands that use it,
   include (lib/c_file.cc:43-89) and load (lib/c_attach.cc:55-97).

   Whether a file can be read is a parameter (OS::access_ok, include/l_lib.h:58-60); it does not change during one
   search.  PATHSEP is ':' and ENDDIR is "/" (include/md.h:86-87); CHECK_LOCAL_FIRST is not defined.  Paths come from the
   environment or from literals, so they hold no zero character.  Not modelled: what is done with the file. *)
Require Import Ascii List Bool Arith.
Import ListNotations.
Open Scope list_scope.

(* std::string *)
Definition text := list ascii.
(* include/md.h:87 *)
Definition PATHSEP : ascii := ":"%char.
(* include/md.h:86 *)
Definition ENDDIR : ascii := "/"%char.

(* lib/io_findf.cc:50-52: one item of the path, what is left, and whether *p_ptr was evaluated at path.end().  The
   library gives the zero that ends the text there, which is not PATHSEP, so the second test ends the loop. *)
Fixpoint item (p : text) : text * text * bool :=
  match p with
  | [] => ([], [], true)
  | c :: p' =>
      if Ascii.eqb c PATHSEP then ([], p, false)
      else let '(t, r, e) := item p' in (c :: t, r, e)
  end.
(* lib/io_findf.cc:53-56; p_ptr[-1] is the last character copied *)
Definition ended (t : text) : text :=
  match rev t with
  | [] => t
  | c :: _ => if Ascii.eqb c ENDDIR then t else t ++ [ENDDIR]
  end.

(* the text returned and whether the end of the path was dereferenced; Running: the bound n was too small *)
Inductive found := Returned (name : text) (at_end : bool) | Running.

Section Find.
Variable access : text -> bool. (* OS::access_ok(., R_OK)  include/l_lib.h:58-60 *)

(* lib/io_findf.cc:46-66; n bounds the rounds *)
Fixpoint search (n : nat) (f p : text) : found :=
  match n with
  | O => Running
  | S n =>
      match p with
      | [] => Returned [] false                                   (* 47, 66 *)
      | _ :: _ =>
          let '(t, r, e) := item p in
          let target := ended t ++ f in
          if access target then Returned target e                 (* 59-60 *)
          else match r with
               | [] => Returned [] e                              (* 61-62 *)
               | _ :: r' => search n f r'                         (* 47: skip sep *)
               end
      end
  end.
(* lib/io_findf.cc:37 *)
Definition findfile (f p : text) : found := search (S (length p)) f p.

(* lib/c_file.cc:54-60, not relative: the name of the file that is opened (72); None stands for Running *)
Definition include_opens (f incl : text) : option text :=
  if access f then Some f
  else match findfile f incl with Returned n _ => Some n | Running => None end.

(* lib/c_file.cc:72, 80-81, lib/ap_construct.cc:50-65: the warning when the file does not open.  fopen gives the reason, or
   None when it opens; the inner None stands for no warning *)
Definition include_warns (fopen : text -> option text) (f incl : text) : option (option text) :=
  match include_opens f incl with
  | None => None
  | Some n => Some (match fopen n with None => None | Some why => Some (n ++ ":"%char :: why) end)
  end.

(* lib/c_attach.cc:60-82: list, go on with a file, or throw one of the two exceptions *)
Inductive load_result := Listed | Goes_on (n : text) | Not_in_char (c : ascii) | Not_in_path (p : text) | Load_runs.
(* lib/c_attach.cc:60-82 *)
Definition load_finds (f path : text) : load_result :=
  match f with
  | [] => Listed
  | c :: _ =>
      if (Ascii.eqb c "/" || Ascii.eqb c ".")%bool then
        if access f then Goes_on f else Not_in_char c
      else match findfile f path with
           | Returned [] _ => Not_in_path path
           | Returned n _ => Goes_on n
           | Running => Load_runs
           end
  end.

End Find.

(* main/main.cc:62-68: the path given to load when GNUCAP_PLUGPATH is not set *)
Definition plug_path (ldl built_in : text) : text :=
  match ldl with [] => built_in | _ :: _ => (ldl ++ [PATHSEP]) ++ built_in end.
