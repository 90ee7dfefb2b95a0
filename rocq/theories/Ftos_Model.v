(* lib/l_ftos.cc: printing of floating point numbers.

   double is modelled by exact rationals: the results of num *= 1000., num *= .001, num += rnd and
   num -= digit are exact, infinities and NaN (lines 109-118, 127-128) do not occur.  The buffer is one
   row of strpool (40 characters); an access outside it is None.  Negative widths and lengths are
   not representable (they act as 0). *)
Require Import ZArith QArith Qround List Ascii String Bool Arith.
Require Import Verif.Loops Verif.Wmatch_Model Verif.CS_Model Verif.Decimal_Text Verif.Qnum Verif.Lines_Model Verif.Measure_Model.
Import ListNotations.
Local Open Scope nat_scope.

(* ftos_EXP, ftos_SIGN, ftos_FILL  include/l_lib.h:37-42 *)
Record format := Fmt { fEXP : bool; fSIGN : bool; fFILL : bool }.

(* MAXLENGTH  lib/l_ftos.cc:46 *)
Definition MAXLENGTH : nat := 40.
(* ftos_floor  lib/l_ftos.cc:47 *)
Definition ftos_floor : Q := Qpower 10 (-99).
(* NOT_INPUT and NOT_VALID  include/constant.h:99-100 (exact products) *)
Definition NOT_INPUT : Q := - (DBL_MAX * (9547658 # 10000000)).
Definition NOT_VALID : Q := - (DBL_MAX * (9647958 # 10000000)).

(* str[i] = c and the value of str[i], inside the row *)
Definition put (b : list ascii) (i : nat) (c : ascii) : option (list ascii) :=
  if i <? List.length b then Some (store b i c) else None.
Fixpoint puts (b : list ascii) (i : nat) (t : list ascii) : option (list ascii) :=
  match t with [] => Some b | c :: t' => let* b := put b i c in puts b (S i) t' end.

(* lib/l_ftos.cc:98-106: blanks, then terminators *)
Definition blank_string (fieldwidth len : nat) : list ascii :=
  let string_size := Nat.max fieldwidth (len + 6) in
  repeat " "%char string_size ++ repeat NUL (MAXLENGTH - string_size).

(* lib/l_ftos.cc:157-160: while (num < .001); fuel is enough because each round multiplies by 1000 *)
Fixpoint scale_up (n : nat) (num : Q) (expo : Z) : option (Q * Z) :=
  match n with
  | O => None
  | S n' => if qltb num (1 # 1000) then scale_up n' (num * 1000)%Q (expo - 3)%Z else Some (num, expo)
  end.
(* lib/l_ftos.cc:161-164: while (num >= 1.) *)
Fixpoint scale_down (n : nat) (num : Q) (expo : Z) : option (Q * Z) :=
  match n with
  | O => None
  | S n' => if qleb 1 num then scale_down n' (num * (1 # 1000))%Q (expo + 3)%Z else Some (num, expo)
  end.
Definition up_rounds (num : Q) : nat := S (Pos.size_nat (Qden num)).
Definition down_rounds (num : Q) : nat := S (Z.to_nat (Z.log2 (Qnum num)) + 1).

(* lib/l_ftos.cc:195-203; the counter flg is the sum of the digits so far.  Running out of fuel (the
   loop of a number that has no digits) is None. *)
Fixpoint fixed_loop (n : nat) (len : nat) (num : Q) (flg : Z) (nnn : nat) (b : list ascii) : option (nat * list ascii) :=
  match len with
  | O => Some (nnn, b)
  | S len' =>
    match n with
    | O => None
    | S n' =>
      let num := (num * 10)%Q in
      let digit := Qfloor num in
      let num := (num - inject_Z digit)%Q in
      let* b := put b nnn (digit_char digit) in
      let flg := (flg + digit)%Z in
      fixed_loop n' (if (flg =? 0)%Z then len else len') num flg (S nnn) b
    end
  end.
(* lib/l_ftos.cc:206-217 *)
Fixpoint point_loop (n : nat) (iii : Z) (len : nat) (num : Q) (flg : Z) (nnn : nat) (b : list ascii) : option (nat * list ascii) :=
  match len with
  | O => Some (nnn, b)
  | S len' =>
    match n with
    | O => None
    | S n' =>
      let num := (num * 10)%Q in
      let digit := Qfloor num in
      let num := (num - inject_Z digit)%Q in
      let flg := (flg + digit)%Z in
      let* (len, nnn, b) := if (flg =? 0)%Z then Some (len, nnn, b)
                            else let* b := put b nnn (digit_char digit) in Some (len', S nnn, b) in
      let* (nnn, b) := if (iii =? 0)%Z then let* b := put b nnn "."%char in Some (S nnn, b) else Some (nnn, b) in
      point_loop n' (iii - 1)%Z len num flg nnn b
    end
  end.

(* lib/l_ftos.cc:226-228: while (str[--nnn]=='0'), then ++nnn *)
Fixpoint drop_zeros (fieldwidth nnn : nat) (b : list ascii) : option (nat * list ascii) :=
  match nnn with
  | O => None
  | S i =>
    let* c := nth_error b i in
    if Ascii.eqb c "0" then drop_zeros fieldwidth i (store b i (if i <? fieldwidth then " "%char else NUL))
    else Some (S i, b)
  end.

(* sprintf of %+-3d and of %3u (for arguments of three digits or more) *)
Definition pad3 (t : list ascii) : list ascii := t ++ repeat " "%char (3 - List.length t).
Definition exponent_text (expo : Z) : list ascii :=
  "E"%char :: if (expo <? 100)%Z then pad3 (if (expo <? 0)%Z then show expo else "+"%char :: show expo) else show expo.
(* lib/l_ftos.cc:239-242: the character under the terminator that sprintf writes is put back *)
Definition append_exponent (expo : Z) (nnn : nat) (b : list ascii) : option (nat * list ascii) :=
  let* c := nth_error b (nnn + 4) in
  let* b := puts b nnn (exponent_text expo ++ [NUL]) in
  let* b := put b (nnn + 4) c in
  Some (nnn + 4 + 1, b).

(* the string constant of line 244 *)
Definition scale_letters : list ascii := str "fpnum KMGT".
(* lib/l_ftos.cc:235-255 *)
Definition append_scale (f : format) (expo : Z) (nnn : nat) (b : list ascii) : option (nat * list ascii) :=
  let* (nnn, b) :=
    if (expo =? 0)%Z then Some (nnn, b)
    else if fEXP f || (10 <? expo)%Z || (expo <? -16)%Z then append_exponent expo nnn b
    else let* c := nth_error scale_letters (Z.to_nat (Z.quot (expo + 15) 3)) in
         let* b := put b nnn c in Some (S nnn, b) in
  let* c := nth_error b (nnn - 1) in
  if Ascii.eqb c "M" then let* b := puts b nnn (str "eg") in Some (nnn + 2, b) else Some (nnn, b).

(* lib/l_ftos.cc:166-174 *)
Definition adjust_len (f : format) (expo : Z) (len : nat) : nat :=
  let len := if (fEXP f && (expo <? -9)%Z) || (10 <? expo)%Z || (expo <? -16)%Z then len - 1 else len in
  if len <? 3 then S len else len.
(* lib/l_ftos.cc:175-187 *)
Definition round_num (len : nat) (num : Q) (expo : Z) : Q * Z :=
  let rnd := ((1 # 2) / Qpower 10 (Z.of_nat len))%Q in
  let rnd := if qltb num (1 # 100) then (rnd / 100)%Q else if qltb num (1 # 10) then (rnd / 10)%Q else rnd in
  let num := (num + rnd)%Q in
  if qleb 1 num then ((num * (1 # 1000))%Q, (expo + 3)%Z) else (num, expo).

(* lib/l_ftos.cc:143-220: the sign, the scaling and the mantissa of a number other than 0; the exponent
   that remains to be printed *)
Definition mantissa_of (f : format) (len : nat) (num : Q) (b : list ascii) : option (Z * nat * list ascii) :=
  let* (num, b) := if qltb num 0 then let* b := put b 0 "-"%char in Some ((- num)%Q, b)
                   else if fSIGN f then let* b := put b 0 "+"%char in Some (num, b) else Some (num, b) in
  let* (num, expo) := scale_up (up_rounds num) num (-3) in
  let* (num, expo) := scale_down (down_rounds num) num expo in
  let len := adjust_len f expo len in
  let (num, expo) := round_num len num expo in
  if (expo =? -3)%Z then
    let* b := put b 1 "0"%char in
    let* b := put b 2 "."%char in
    let* (nnn, b) := fixed_loop (len + 3) len num 0 3 b in
    Some (0%Z, nnn, b)
  else
    let* (nnn, b) := point_loop (len + 3) 2 len num 0 1 b in
    Some (expo, nnn, b).

(* lib/l_ftos.cc:136-142: strcpy (with its terminator), then len-1 zeros *)
Definition zero_of (len : nat) (b : list ascii) : option (Z * nat * list ascii) :=
  let* b := puts b 0 (str " 0." ++ [NUL]) in
  let* b := puts b 3 (repeat "0"%char (len - 1)) in
  Some (0%Z, 3 + (len - 1), b).

(* lib/l_ftos.cc:129-256 *)
Definition number_of (f : format) (fieldwidth len : nat) (num : Q) (b : list ascii) : option (list ascii) :=
  let num := if qltb (Qabs.Qabs num) ftos_floor then 0%Q else num in
  let* (expo, nnn, b) := if qeqb num 0 then zero_of len b else mantissa_of f len num b in
  let* c := nth_error b nnn in
  let* _ := if Ascii.eqb c " " || Ascii.eqb c NUL then Some tt else None in
  let* (nnn, b) := if fFILL f then Some (nnn, b) else drop_zeros fieldwidth nnn b in
  let* (_, b) := append_scale f expo nnn b in
  Some b.

(* lib/l_ftos.cc:68-264; the string returned *)
Definition ftos (num : Q) (fieldwidth len : nat) (f : format) : option (list ascii) :=
  let len := if len <? 3 then 3 else len in
  let len := if MAXLENGTH - 6 <? len then MAXLENGTH - 6 else len in
  let fieldwidth := if MAXLENGTH - 1 <? fieldwidth then MAXLENGTH - 1 else fieldwidth in
  let b := blank_string fieldwidth len in
  let* b :=
    if qeqb num NOT_VALID then puts b 0 (str " ??")
    else if qeqb num NOT_INPUT then puts b 0 (str " NA")
    else if qleb BIGBIG num then puts b 0 (str " Inf")
    else if qleb num (- BIGBIG)%Q then puts b 0 (str "-Inf")
    else number_of f fieldwidth len num b in
  let* b := if fieldwidth =? 0 then trim b else Some b in
  c_str b.

(* lib/l_ftos.cc:63-66 *)
Definition to_string_double (n : Q) : option (list ascii) := ftos n 0 15 (Fmt false false false).
(* Float::val_string  include/m_base.h:312 *)
Definition val_string_double (n : Q) : option (list ascii) := ftos n 0 15 (Fmt true false false).
