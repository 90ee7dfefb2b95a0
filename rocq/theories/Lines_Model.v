(* lib/l_trim.cc, lib/ap_construct.cc getlines: reading logical lines from a file. *)
Require Import List Ascii String Bool Arith.
Require Import Verif.Loops Verif.Wmatch_Model Verif.CS_Model.
Import ListNotations.

(* <cstring> strlen on a block of memory; None: no terminator in the block *)
Fixpoint strlen (b : list ascii) : option nat :=
  match b with
  | [] => None
  | c :: b' => if Ascii.eqb c NUL then Some O else let* n := strlen b' in Some (S n)
  end.
(* the C string held by the block *)
Definition c_str (b : list ascii) : option (list ascii) := let* n := strlen b in Some (firstn n b).
(* string[i] = c *)
Fixpoint store (b : list ascii) (i : nat) (c : ascii) : list ascii :=
  match b, i with
  | [], _ => []
  | _ :: b', O => c :: b'
  | x :: b', S i' => x :: store b' i' c
  end.

(* lib/l_trim.cc:32-35: the loop, from idx *)
Fixpoint trim_loop (idx : nat) (b : list ascii) : option (list ascii) :=
  match idx with
  | O => Some b
  | S i => let* c := nth_error b i in if isgraph c then Some b else trim_loop i (store b i NUL)
  end.
(* lib/l_trim.cc:30-37 *)
Definition trim (b : list ascii) : option (list ascii) := let* n := strlen b in trim_loop n b.

Definition NL : ascii := "010"%char.

(* <cstdio> fgets(buffer, n, file): at most n-1 characters, through the first newline; the file is
   its unread text.  None: end of file. *)
Fixpoint fgets_loop (k : nat) (t : list ascii) : list ascii * list ascii :=
  match k, t with
  | O, _ => ([], t)
  | _, [] => ([], [])
  | S k', c :: t' => if Ascii.eqb c NL then ([c], t') else let (a, r) := fgets_loop k' t' in (c :: a, r)
  end.
Definition fgets (n : nat) (t : list ascii) : option (list ascii * list ascii) :=
  match t with [] => None | _ => Some (fgets_loop (n - 1) t) end.

(* while (isspace(c = fgetc(fileptr))); then ungetc *)
Fixpoint skip_space (t : list ascii) : list ascii :=
  match t with c :: t' => if isspace c then skip_space t' else t | [] => [] end.

Inductive got := Line (s rest : list ascii) | EndOfInput.

(* count && buffer[count-1] == '\\' *)
Definition ends_backslash (b : list ascii) : bool :=
  match rev b with c :: _ => Ascii.eqb c "\" | [] => false end.

(* lib/ap_construct.cc:227-270 getlines, from the loop head with s collected so far; n is buffer_size
   (BIGBUFLEN, include/md.h:72).  Running out of fuel is None; getlines below gives enough. *)
Fixpoint getlines_loop (fuel n : nat) (s t : list ascii) : option got :=
  match fuel with
  | O => None
  | S f =>
    match fgets n t with
    | None => Some (match s with [] => EndOfInput | _ => Line s t end)
    | Some (g, t') =>
      let* b := trim (g ++ [NUL]) in
      let* b := c_str b in
      if ends_backslash b then getlines_loop f n (s ++ removelast b ++ [" "%char]) t'
      else
        match skip_space t' with
        | "+"%char :: t'' => getlines_loop f n (s ++ b ++ [" "%char]) t''
        | t'' => Some (Line (s ++ b ++ [" "%char]) t'')
        end
    end
  end.
Definition getlines (n : nat) (t : list ascii) : option got := getlines_loop (S (List.length t)) n [] t.

(* CS::get_line repeated until Exception_End_Of_Input (lib/ap_construct.cc:147-170, the file branch):
   the lines of the whole file *)
Fixpoint read_lines (fuel n : nat) (t : list ascii) : option (list (list ascii)) :=
  match fuel with
  | O => None
  | S f =>
    let* g := getlines n t in
    match g with
    | EndOfInput => Some []
    | Line s t' => let* ls := read_lines f n t' in Some (s :: ls)
    end
  end.
Definition read_file (n : nat) (t : list ascii) : option (list (list ascii)) := read_lines (S (List.length t)) n t.
