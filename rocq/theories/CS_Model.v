(* include/ap.h, lib/ap_skip.cc, lib/ap_match.cc, lib/ap_convert.cc: the command scanner CS.

   Only the scanner state that the operations use is modelled: the text, the cursor, the length, the
   last match and the status flag (include/ap.h:52-57).  _file, _name and _line_number are not.
   size_t is Z without wrap-around; a cursor outside the text makes the next read undefined.
   Character classes are those of the "C" locale; bytes above 127 belong to no class (passing them
   to isgraph/isspace as negative values is formally undefined, here they are just "not"). *)
Require Import ZArith QArith List Ascii String Bool.
Require Import Verif.Loops Verif.Wmatch_Model.
Import ListNotations.
Local Open Scope Z_scope.

Definition str := list_ascii_of_string.
Definition NUL : ascii := "000"%char.
Definition code (c : ascii) : Z := Z.of_N (N_of_ascii c).
(* <cctype>, "C" locale *)
Definition isgraph (c : ascii) : bool := (33 <=? code c) && (code c <=? 126).
Definition isspace (c : ascii) : bool := ((9 <=? code c) && (code c <=? 13)) || (code c =? 32).
Definition isdigit (c : ascii) : bool := (48 <=? code c) && (code c <=? 57).
Definition isalpha (c : ascii) : bool :=
  ((65 <=? code c) && (code c <=? 90)) || ((97 <=? code c) && (code c <=? 122)).
(* toascii: clears the top bit *)
Definition toascii (c : ascii) : ascii := ascii_of_N (N.land (N_of_ascii c) 127).

(* strchr(set, c) != NULL; the set is written without its terminator, and callers exclude c = NUL *)
Definition mem (c : ascii) (set : list ascii) : bool := existsb (Ascii.eqb c) set.

(* include/ap.h:52-57 *)
Record cs := CS { cmd : list ascii; cnt : Z; len : Z; begin_match : Z; end_match : Z; ok : bool }.
Definition set_cnt (s : cs) c := CS (cmd s) c (len s) (begin_match s) (end_match s) (ok s).
Definition set_ok (s : cs) b := CS (cmd s) (cnt s) (len s) (begin_match s) (end_match s) b.
Definition set_match (s : cs) b e := CS (cmd s) (cnt s) (len s) b e (ok s).

(* lib/ap_construct.cc:94-105 CS::CS(STRING) *)
Definition cs_string (line : list ascii) : cs := CS line 0 (Z.of_nat (List.length line)) 0 0 true.

(* std::string::operator[] const: the terminator at size(), undefined beyond *)
Definition at_index (l : list ascii) (i : Z) : option ascii :=
  if i <? 0 then None
  else if i =? Z.of_nat (List.length l) then Some NUL
  else nth_error l (Z.to_nat i).
(* std::string::substr(pos, n): throws (here undefined) when pos > size() *)
Definition substr (l : list ascii) (pos n : Z) : option (list ascii) :=
  if (0 <=? pos) && (pos <=? Z.of_nat (List.length l)) && (0 <=? n)
  then Some (firstn (Z.to_nat n) (skipn (Z.to_nat pos) l)) else None.

(* include/ap.h:82 *)
Definition peek (s : cs) : option ascii := at_index (cmd s) (cnt s).
(* include/ap.h:85 *)
Definition ns_more (s : cs) : option bool := let* c := peek s in Some (negb (Ascii.eqb c NUL)).
(* include/ap.h:92-93 *)
Definition reset (c : Z) (s : cs) : cs := set_ok (set_cnt s c) true.
Definition reset_fail (c : Z) (s : cs) : cs := set_ok (set_cnt s c) false.
(* include/ap.h:148-149 with the default argument *)
Definition skip (s : cs) : cs := let s' := set_cnt s (cnt s + 1) in set_ok s' (cnt s' <=? len s').

(* include/ap.h:107 match1(char), 108-109 match1(string) *)
Definition match1c (c : ascii) (s : cs) : option bool := let* p := peek s in Some (Ascii.eqb p c).
Definition match1 (set : list ascii) (s : cs) : option bool :=
  let* p := peek s in Some (negb (Ascii.eqb p NUL) && mem p set).
(* include/ap.h:112-119 *)
Definition DIGITS := str "0123456789".
Definition is_digit := match1 DIGITS.
Definition is_xdigit := match1 (str "0123456789abcdefABCDEF").
Definition is_float := match1 (str "+-.0123456789").
Definition is_argsym := match1 (str "*?$%_&@").
Definition is_alpha (s : cs) : option bool := let* p := peek s in Some (isalpha (toascii p)).
(* include/ap.h:120-121 *)
Definition TERM := str ",=(){};".
Definition is_term (t : list ascii) (s : cs) : option bool :=
  let* c := peek s in
  if Ascii.eqb c NUL || isspace c then Some true else match1 t s.

(* while (cond) body; the fuel runs out only if the loop makes more rounds than allowed *)
Fixpoint while (n : nat) (cond : cs -> option bool) (body : cs -> option cs) (s : cs) : option cs :=
  match n with
  | O => None
  | S n' => let* b := cond s in if b then let* s' := body s in while n' cond body s' else Some s
  end.
(* rounds allowed: one more than the length of the text *)
Definition rounds (s : cs) : nat := S (List.length (cmd s)).
Definition skip_while (cond : cs -> option bool) (s : cs) : option cs :=
  while (rounds s) cond (fun s => Some (skip s)) s.

(* lib/ap_skip.cc:35-41 *)
Definition skipbl : cs -> option cs :=
  skip_while (fun s => let* c := peek s in Some (negb (Ascii.eqb c NUL) && negb (isgraph c))).
(* lib/ap_skip.cc:57-66, assert(_ok) included *)
Definition skip1c (t : ascii) (s : cs) : option cs :=
  let* m := match1c t s in
  if m then let s' := skip s in if ok s' then Some s' else None else Some (set_ok s false).
(* lib/ap_skip.cc:82-91 *)
Definition skip1 (t : list ascii) (s : cs) : option cs :=
  let* m := match1 t s in
  if m then let s' := skip s in if ok s' then Some s' else None else Some (set_ok s false).
(* lib/ap_skip.cc:46-52 and 71-77 *)
Definition skip1bc (t : ascii) (s : cs) : option cs :=
  let* s := skipbl s in let* s := skip1c t s in skipbl s.
Definition skip1b (t : list ascii) (s : cs) : option cs :=
  let* s := skipbl s in let* s := skip1 t s in skipbl s.
(* include/ap.h:158 *)
Definition skipcom := skip1b (str ",").
(* include/ap.h:86 *)
Definition more (s : cs) : option (bool * cs) :=
  let* s := skipbl s in let* b := ns_more s in Some (b, s).

(* lib/ap_skip.cc:96-113 *)
Definition skiparg (s : cs) : option cs :=
  let here := cnt s in
  let* s := skipcom s in
  let* s :=
    if ok s then Some s
    else
      let* c := peek s in
      let s := if Ascii.eqb c NUL then s else skip s in
      let* s := skip_while (fun s =>
        let* a := is_alpha s in if a then Some true else
        let* b := is_float s in if b then Some true else is_argsym s) s in
      skipcom s in
  Some (set_ok s (here <? cnt s)).

(* lib/ap_skip.cc:118-130 *)
Definition skipto1 (t : list ascii) (s : cs) : option cs :=
  let here := cnt s in
  let* s := skip_while (fun s => let* m := ns_more s in if m then let* b := match1 t s in Some (negb b) else Some false) s in
  let* m := ns_more s in
  let s := set_ok s m in
  Some (if ok s then s else reset here s).
(* lib/ap_skip.cc:135-147 *)
Definition skipto1c (t : ascii) (s : cs) : option cs :=
  let here := cnt s in
  let* s := skip_while (fun s => let* m := ns_more s in if m then let* b := match1c t s in Some (negb b) else Some false) s in
  let* m := ns_more s in
  let s := set_ok s m in
  Some (if ok s then s else reset here s).

(* lib/ap_match.cc:62-64  while ( *str2 != '}' ) ++str2;   None: runs off the end of the pattern *)
Fixpoint to_brace (p : list ascii) : option (list ascii) :=
  match p with
  | [] => None
  | c :: p' => if Ascii.eqb c "}" then Some p else to_brace p'
  end.
(* strchr(str2, '|'): the character before the bar and what follows it *)
Fixpoint find_bar (prev : ascii) (p : list ascii) : option (ascii * list ascii) :=
  match p with
  | [] => None
  | c :: p' => if Ascii.eqb c "|" then Some (prev, p') else find_bar c p'
  end.

(* lib/ap_match.cc:38-76, the loop.  p is str2; ci is OPT::case_insensitive.  *)
Fixpoint umatch_loop (ci : bool) (n : nat) (start : Z) (p : list ascii) (optional : bool) (s : cs) : option cs :=
  match n with
  | O => None
  | S n' =>
    match p with
    | [] => Some (set_ok s true)
    | c :: p' =>
      if Ascii.eqb c "|" then Some (set_ok s true) else
      let* k := peek s in
      let esc := match p' with d :: _ => Ascii.eqb c "\" && Ascii.eqb k d | [] => false end in
      if esc then umatch_loop ci n' start (tl p') optional (skip s)
      else if negb optional && Ascii.eqb c "{" then umatch_loop ci n' start p' true s
      else if optional && Ascii.eqb c "}" then umatch_loop ci n' start p' false s
      else
      let* term := is_term TERM s in
      if Ascii.eqb c " " && term then let* s := skipbl s in umatch_loop ci n' start p' optional s
      else if Ascii.eqb k c then umatch_loop ci n' start p' optional (skip s)
      else if ci && Ascii.eqb (to_lower k) (to_lower c) then umatch_loop ci n' start p' optional (skip s)
      else if optional then let* q := to_brace p in umatch_loop ci n' start q optional s
      else
        match find_bar c p' with
        | Some (prev, q) =>
            if Ascii.eqb prev "\" then Some (set_ok s false)
            else umatch_loop ci n' start q optional (reset start s)
        | None => Some (set_ok s false)
        end
    end
  end.
(* each round but the skip to '}' consumes pattern, so 2*|pattern|+2 rounds are enough *)
Definition umatch_rounds (p : list ascii) : nat := S (S (List.length p + List.length p)).

(* lib/ap_match.cc:30-87 *)
Definition umatch (ci : bool) (p : list ascii) (s : cs) : option cs :=
  let start := cnt s in
  let* s := skipbl s in
  let bm := cnt s in
  let* s := umatch_loop ci (umatch_rounds p) start p false s in
  if ok s then
    let s := set_match s bm (cnt s) in
    let* s := skipcom s in
    Some (set_ok s true)
  else Some (reset_fail start s).

(* lib/ap_match.cc:89-104 *)
Fixpoint scan_loop (ci : bool) (n : nat) (start : Z) (p : list ascii) (s : cs) : option cs :=
  match n with
  | O => None
  | S n' =>
    let* s := umatch ci p s in
    if ok s then Some (set_ok s true)
    else
      let* (m, s) := more s in
      if m then let* s := skiparg s in scan_loop ci n' start p s
      else Some (reset_fail start s)
  end.
Definition scan (ci : bool) (p : list ascii) (s : cs) : option cs :=
  scan_loop ci (rounds s) (cnt s) p s.

(* lib/ap_match.cc:106-109 *)
Definition last_match (s : cs) : option (list ascii) :=
  substr (cmd s) (begin_match s) (end_match s - begin_match s).

(* lib/ap_convert.cc:37-45 *)
Definition ctoc (s : cs) : option (ascii * cs) :=
  let* c := at_index (cmd s) (cnt s) in
  Some (c, if cnt s <=? len s then set_cnt s (cnt s + 1) else s).

(* a digit loop  while (cond) val = f val (ctoc()) ; f gives None on overflow *)
Fixpoint conv_loop {T} (n : nat) (cond : cs -> option bool) (f : T -> ascii -> option T) (v : T) (s : cs) : option (T * cs) :=
  match n with
  | O => None
  | S n' =>
    let* b := cond s in
    if b then let* (c, s) := ctoc s in let* v := f v c in conv_loop n' cond f v s
    else Some (v, s)
  end.
Definition conv {T} (cond : cs -> option bool) (f : T -> ascii -> option T) (v : T) (s : cs) : option (T * cs) :=
  conv_loop (rounds s) cond f v s.

Definition INT_MAX := 2147483647.
Definition INT_MIN := -2147483648.
(* signed overflow is undefined *)
Definition int_chk (x : Z) : option Z := if (INT_MIN <=? x) && (x <=? INT_MAX) then Some x else None.
(* c - '0' *)
Definition dig (c : ascii) : Z := code c - 48.
(* base * val + (ctoc()-'0') in int *)
Definition int_digit (base : Z) (v : Z) (c : ascii) : option Z :=
  let* a := int_chk (base * v) in int_chk (a + dig c).

(* lib/ap_convert.cc:60-62: at most l characters, up to a terminator *)
Fixpoint ctostr_loop (l : nat) (t : list ascii) (acc : list ascii) (s : cs) : option (list ascii * cs) :=
  match l with
  | O => Some (acc, s)
  | S l' =>
    let* e := is_term t s in
    if e then Some (acc, s)
    else let* (c, s) := ctoc s in ctostr_loop l' t (acc ++ [c]) s
  end.
(* lib/ap_convert.cc:56-69; the destination buffer is returned as a list *)
Definition ctostr (l : nat) (t : list ascii) (s : cs) : option (list ascii * cs) :=
  let* s := skipbl s in
  let* (des, s) := ctostr_loop l t [] s in
  let* s := skip_while (fun s => let* e := is_term t s in Some (negb e)) s in
  let* s := skipcom s in
  Some (des, s).

(* lib/ap_convert.cc:169-188 *)
Definition ctoi (s : cs) : option (Z * cs) :=
  let* s := skipbl s in
  let here := cnt s in
  let* s := skip1 (str "-") s in
  let neg := ok s in
  let* s := if neg then Some s else skip1 (str "+") s in
  let* (v, s) := conv is_digit (int_digit 10) 0 s in
  let* s := skipcom s in
  let* r := int_chk (v * (if neg then -1 else 1)) in
  Some (r, set_ok s (here <? cnt s)).

(* lib/ap_convert.cc:195-207, unsigned arithmetic modulo 2^32 *)
Definition ctou (s : cs) : option (Z * cs) :=
  let* s := skipbl s in
  let here := cnt s in
  let* (v, s) := conv is_digit (fun v c => Some ((10 * v + dig c) mod 4294967296)) 0 s in
  let* s := skipcom s in
  Some (v, set_ok s (here <? cnt s)).

(* lib/ap_convert.cc:215-227 *)
Definition ctoo (s : cs) : option (Z * cs) :=
  let* s := skipbl s in
  let here := cnt s in
  let* (v, s) := conv is_digit (int_digit 8) 0 s in
  let* s := skipcom s in
  Some (v, set_ok s (here <? cnt s)).

(* lib/ap_convert.cc:241-245 *)
Definition hex_digit (v : Z) (c : ascii) : option Z :=
  let* a := int_chk (16 * v) in
  int_chk (a + (if isdigit c then dig c else code (to_lower c) - 97 + 10)).
(* lib/ap_convert.cc:234-250 *)
Definition ctox (s : cs) : option (Z * cs) :=
  let* s := skipbl s in
  let here := cnt s in
  let* (v, s) := conv is_xdigit hex_digit 0 s in
  let* s := skipcom s in
  Some (v, set_ok s (here <? cnt s)).

(* include/ap.h:193-202 Set: match the key followed by a blank *)
Definition set_bool (ci : bool) (key : string) (v : bool) (r : option (option bool * cs)) : option (option bool * cs) :=
  let* (got, s) := r in
  match got with
  | Some b => Some (Some b, s)
  | None => let* s := umatch ci (str key ++ [" "%char]) s in Some (if ok s then Some v else None, s)
  end.
(* lib/ap_convert.cc:144-162 *)
Definition ctob (ci : bool) (s : cs) : option (bool * cs) :=
  let* s := skipbl s in
  let here := cnt s in
  let* (got, s) :=
    set_bool ci "#f{alse}" false (set_bool ci "#t{rue}" true
    (set_bool ci "n{o}" false (set_bool ci "y{es}" true
    (set_bool ci "f{alse}" false (set_bool ci "t{rue}" true
    (set_bool ci "0" false (set_bool ci "1" true (Some (None, s))))))))) in
  let* s := skipcom s in
  Some (match got with Some b => b | None => true end, set_ok s (here <? cnt s)).

(* lib/ap_convert.cc:131-138 *)
Definition get_to (t : list ascii) (s : cs) : option (list ascii * cs) :=
  conv (fun s => let* m := ns_more s in if m then let* b := match1 t s in Some (negb b) else Some false)
       (fun v c => Some (v ++ [c])) [] s.

(* include/u_opt.h OPT::units *)
Inductive units := uSI | uSPICE.
(* exact value of 10^e *)
Definition ten_to (e : Z) : Q := Qpower 10 e.

(* the chain of if (skip1(..)) else if ... of lib/ap_convert.cc:303-338: first matching set gives the factor *)
Fixpoint first_skip {T} (l : list (list ascii * T)) (s : cs) : option (option T * cs) :=
  match l with
  | [] => Some (None, s)
  | (t, v) :: l' => let* s := skip1 t s in if ok s then Some (Some v, s) else first_skip l' s
  end.
(* lib/ap_convert.cc:311-337: suffix letters after the spice special case, with their factors *)
Definition suffixes (u : units) : list (list ascii * Q) :=
  [ (str "M", ten_to 6); (str "m", ten_to (-3)); (str "uU", ten_to (-6)); (str "nN", ten_to (-9));
    (str "p", ten_to (-12)); (str "P", match u with uSI => ten_to 15 | uSPICE => ten_to (-12) end);
    (str "fF", ten_to (-15)); (str "aA", ten_to (-18)); (str "kK", ten_to 3); (str "gG", ten_to 9);
    (str "tT", ten_to 12); (str "%", ten_to (-2)) ].
(* lib/ap_convert.cc:291-338.  In spice units M and m never reach the SI entries (their asserts hold). *)
Definition scale (u : units) (s : cs) : option (Q * cs) :=
  let* s := skip1 (str "eE") s in
  if ok s then
    let* s := skip1 (str "-") s in
    let neg := ok s in
    let* s := if neg then Some s else skip1 (str "+") s in
    let* (e, s) := conv is_digit (int_digit 10) 0 s in
    Some (ten_to (e * (if neg then -1 else 1)), s)
  else
    let* (m, s) := match u with
                   | uSPICE => let* s := skip1 (str "mM") s in Some (ok s, s)
                   | uSI => Some (false, s) end in
    if (m : bool) then
      let* s := skip1 (str "eE") s in
      if ok s then Some (ten_to 6, s)
      else let* s := skip1 (str "iI") s in
           if ok s then Some ((254 # 10000000)%Q, s) else Some (ten_to (-3), s)
    else
      let* (f, s) := first_skip (suffixes u) s in
      Some (match f with Some q => q | None => 1%Q end, s).

(* lib/ap_convert.cc:261-345 with exact rational arithmetic in place of double *)
Definition ctof (u : units) (s : cs) : option (Q * cs) :=
  let* s := skipbl s in
  let* fl := is_float s in
  if negb fl then let* s := skipcom s in Some (0%Q, set_ok s false)
  else
    let* s := skip1 (str "-") s in
    let neg := ok s in
    let* s := if neg then Some s else skip1 (str "+") s in
    let* (v, s) := conv is_digit (fun v c => Some (10 * v + inject_Z (dig c))%Q) 0%Q s in
    let* s := skip1 (str ".") s in
    let* (vp, s) := conv is_digit (fun vp c => Some ((10 * fst vp + inject_Z (dig c))%Q, (snd vp * (1 # 10))%Q)) (v, 1%Q) s in
    let* (f, s) := scale u s in
    let* s := skip_while is_alpha s in
    let* s := skipcom s in
    Some ((inject_Z (if neg then -1 else 1) * fst vp * (snd vp * f))%Q, set_ok s true).

(* lib/ap_convert.cc:90-112, the loop inside a quoted string: acc is s, b is begin_string;
   the result also carries end_string *)
Fixpoint quoted (n : nat) (bq eq : ascii) (quotes b : Z) (acc : list ascii) (s : cs) : option (list ascii * Z * Z * cs) :=
  match n with
  | O => None
  | S n' =>
    let* m := ns_more s in
    if negb m then Some (acc, b, cnt s, s)
    else
      let* s := skip1c eq s in
      if ok s then
        if quotes - 1 <=? 0 then Some (acc, b, cnt s - 1, s) else quoted n' bq eq (quotes - 1) b acc s
      else
        let* s := skip1c bq s in
        if ok s then quoted n' bq eq (quotes + 1) b acc s
        else
          let* s := skip1c "\" s in
          if ok s then
            let* piece := substr (cmd s) b (cnt s - 1 - b) in
            let b' := cnt s in
            let* s := skip1c eq s in
            quoted n' bq eq quotes b' (acc ++ piece) s
          else quoted n' bq eq quotes b acc (skip s)
  end.
(* std::string::find_first_of(char): position in the set *)
Fixpoint find_pos (c : ascii) (l : list ascii) : option nat :=
  match l with
  | [] => None
  | d :: l' => if Ascii.eqb c d then Some O else match find_pos c l' with Some k => Some (S k) | None => None end
  end.
(* lib/ap_convert.cc:71-129; trap and the warning texts are not modelled (they only print) *)
Definition ctos (t bqs eqs : list ascii) (s : cs) : option (list ascii * cs) :=
  if negb (Nat.eqb (List.length bqs) (List.length eqs)) then None else
  let* s := skipbl s in
  let* c := peek s in
  let* (r, b, e, s) :=
    match (if Ascii.eqb c NUL then None else find_pos c bqs) with
    | Some k =>
        let s := skip s in
        let* (acc, b, e, s) := quoted (rounds s) (nth k bqs NUL) (nth k eqs NUL) 1 (cnt s) [] s in
        let* piece := substr (cmd s) b (e - b) in
        Some (acc ++ piece, b, e, s)
    | None =>
        let b := cnt s in
        let* s := skip_while (fun s => let* m := ns_more s in if m then let* x := is_term t s in Some (negb x) else Some false) s in
        let* r := substr (cmd s) b (cnt s - b) in
        Some (r, b, cnt s, s)
    end in
  let* s := skipcom s in
  Some (r, set_ok s (b <? e)).

(* lib/ap_error.cc:37-48; the message is not modelled *)
Definition check (ci : bool) (s : cs) : option cs :=
  let* s := skipbl s in
  let* c := peek s in
  if Ascii.eqb c "/" then let* s := umatch ci (str "//") s in Some (skip s)
  else if Ascii.eqb c ";" || Ascii.eqb c "'" then Some (skip (set_ok s true))
  else if Ascii.eqb c NUL then Some (set_ok s true)
  else Some (set_ok s false).
