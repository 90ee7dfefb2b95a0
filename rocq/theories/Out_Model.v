(* include/io_.h and lib/io_out.cc: OMSTREAM, text output to a set of files.
   Not modelled: encryption (cipher), number formatting (form, ftos). Flushing has no effect here. *)
Require Import ZArith List Ascii Bool.
Require Import Verif.Loops Verif.Wmatch_Model Verif.CS_Model.
Import ListNotations.
Local Open Scope Z_scope.

(* the static state: _stream and _cpos (include/io_.h:35-36), what each file has received, and the
   variable old (lib/io_out.cc:170). A file is known by a number. *)
Record io := Io { stream : nat -> option nat; cpos : nat -> Z; out : nat -> list ascii; old : ascii }.

Definition setf {A} (f : nat -> A) (i : nat) (x : A) : nat -> A := fun j => if Nat.eqb j i then x else f j.
(* the zero-initialised tables at program start *)
Definition io_start : io := Io (fun _ => None) (fun _ => 0) (fun _ => []) NUL.

(* CHAR_BIT*sizeof(int)-1, include/io_.h:31 *)
Definition MAXHANDLE : nat := 31.
(* size_t arithmetic *)
Definition wrap (x : Z) : Z := x mod 2 ^ 64.
(* 1 << ii on int: the sign bit overflows *)
Definition shift1 (ii : nat) : option Z := if Nat.ltb ii 31 then Some (2 ^ Z.of_nat ii) else None.

(* include/io_.h:50-70, the constructor from a FILE*, the loop from ii; n bounds the iterations *)
Fixpoint handle_from (n ii : nat) (f : nat) (st : io) : option (Z * io) :=
  match n with
  | O => None
  | S n' =>
    match stream st ii with
    | None => let* m := shift1 ii in Some (m, Io (setf (stream st) ii (Some f)) (cpos st) (out st) (old st))
    | Some g =>
      if Nat.eqb g f then let* m := shift1 ii in Some (m, st)
      else if Nat.leb MAXHANDLE ii then Some (0, st)
      else handle_from n' (S ii) f st
    end
  end.
Definition handle (f : nat) (st : io) : option (Z * io) := handle_from (S MAXHANDLE) 1 f st.

(* include/io_.h:72,74 *)
Definition attach (m x : Z) : Z := Z.lor m x.
Definition detach (m x : Z) : Z := Z.land m (Z.lnot x).
(* _mask & mm, with mm the bit ii (mm is shifted along with ii) *)
Definition bit (m : Z) (ii : nat) : bool := Z.testbit m (Z.of_nat ii).

Definition TAB := ascii_of_nat 9.
Definition BS := ascii_of_nat 8.
Definition CR := ascii_of_nat 13.
Definition LF := ascii_of_nat 10.
Definition SP := ascii_of_nat 32.

(* lib/io_out.cc:192-221, one pass of the loop over the handles *)
Definition put_one (m : Z) (count : bool) (chr : ascii) (ii : nat) (a : bool * io) : option (bool * io) :=
  let (suppress, st) := a in
  if bit m ii then
    let* f := stream st ii in
    let c1 := if Ascii.eqb chr BS then wrap (cpos st ii - 1) else if count then wrap (cpos st ii + 1) else cpos st ii in
    let '(c2, suppress) :=
      if Ascii.eqb chr LF then (0, suppress)
      else if Ascii.eqb chr CR then (if c1 =? 0 then (c1, true) else (0, suppress))
      else (c1, suppress) in
    let o := if suppress then out st else setf (out st) f (out st f ++ [chr]) in
    Some (suppress, Io (stream st) (setf (cpos st) ii c2) o (old st))
  else Some a.
(* lib/io_out.cc:161-223 operator<<(char); output to handle 0 is an internal error *)
Definition put (m : Z) (pack : bool) (chr : ascii) (st : io) : option io :=
  if bit m 0 then None
  else
    let count := negb (Ascii.eqb chr TAB) in
    let chr := if Ascii.eqb chr TAB then SP else chr in
    let suppress := pack && Ascii.eqb (old st) SP && Ascii.eqb chr SP in
    let st := Io (stream st) (cpos st) (out st) chr in
    let* (_, st) := foldM (put_one m count chr) (seq 0 (S MAXHANDLE)) (suppress, st) in
    Some st.

(* lib/io_out.cc:112-126: the room asked for a string *)
Definition room (s : list ascii) : Z :=
  let sl := Z.of_nat (length s) in
  match rev s with
  | [] => sl
  | c :: _ => if Ascii.eqb c "@" then sl + 16 else if Ascii.eqb c "=" then sl + 15 else if Ascii.eqb c "(" then sl + 12 else sl
  end.
(* lib/io_out.cc:129-136: the line break for one handle; this_file has the single bit *)
Definition break_one (width : Z) (m sl : Z) (ii : nat) (st : io) : option io :=
  if bit m ii && (wrap (sl + cpos st ii) >=? width) && negb (cpos st ii =? 0) then
    let this := Z.land m (2 ^ Z.of_nat ii) in
    let* st := put this false LF st in put this false "+" st
  else Some st.
(* lib/io_out.cc:148-150: a final '@' is not sent *)
Fixpoint sent (s : list ascii) : list ascii :=
  match s with
  | [] => []
  | [c] => if Ascii.eqb c "@" then [] else [c]
  | c :: s' => c :: sent s'
  end.
(* lib/io_out.cc:100-152 operator<<(const char* ) *)
Definition puts (width : Z) (m : Z) (pack : bool) (s : list ascii) (st : io) : option io :=
  if bit m 0 then None
  else
    let* st := foldM (break_one width m (room s)) (seq 0 (S MAXHANDLE)) st in
    foldM (put m pack) (sent s) st.

(* lib/io_out.cc:67-69; n bounds the iterations *)
Fixpoint spaces (n : nat) (m : Z) (ii : nat) (count : Z) (st : io) : option io :=
  if cpos st ii <? count then
    match n with
    | O => None
    | S n' => let* st := put m false SP st in spaces n' m ii count st
    end
  else Some st.
(* lib/io_out.cc:60-72 *)
Definition tab_one (m : Z) (count : Z) (ii : nat) (st : io) : option io :=
  if bit m ii then
    let this := Z.land m (2 ^ Z.of_nat ii) in
    let* st := if cpos st ii >? count then put this false LF st else Some st in
    spaces (Z.to_nat count) this ii count st
  else Some st.
Definition tab (m : Z) (count : Z) (st : io) : option io := foldM (tab_one m count) (seq 0 (S MAXHANDLE)) st.
