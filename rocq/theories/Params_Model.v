(* lib/e_compon.cc: setting and listing the parameters of a component by name and by index. *)
Require Import String.
Require Import ZArith List Ascii Bool.
Require Import Verif.Loops Verif.Wmatch_Model Verif.CS_Model.
Import ListNotations.
Local Open Scope string_scope.
Local Open Scope Z_scope.
Local Open Scope list_scope.

(* lib/l_pmatch.cc:35-39 *)
Definition Umatch (ci : bool) (str1 str2 : list ascii) : option bool :=
  let* s := umatch ci str2 (cs_string str1) in Some (ok s).

(* A component with a common: the common's own parameters, each with its names param_name(i,0),
   param_name(i,1), ... up to the first empty one, and the text of each value; and the system
   parameters of HS_PARAM (lib/e_compon.cc:365-398). A value is the text it was set from; evaluating
   it is not modelled. That a shared common is copied first is in Common_Model.v. *)
Record comp := Comp { own_names : list (list (list ascii)); own : list (list ascii); hs : list (list ascii) }.

(* include/e_compon.h:36 *)
Definition sysparams_count : Z := 8.
(* include/e_compon.h:266-272; the common's count is the number of its names *)
Definition own_count (c : comp) : Z := Z.of_nat (length (own_names c)).
Definition param_count (c : comp) : Z := sysparams_count + own_count c.

Definition upd (l : list (list ascii)) (i : Z) (v : list ascii) : option (list (list ascii)) :=
  if (0 <=? i) && (i <? Z.of_nat (length l)) then Some (firstn (Z.to_nat i) l ++ v :: skipn (S (Z.to_nat i)) l) else None.
(* std::array::operator[] outside the array is undefined (lib/e_compon.cc:372-374) *)
Definition set_hs (c : comp) (i : Z) (v : list ascii) : option comp :=
  let* h := upd (hs c) i v in Some (Comp (own_names c) (own c) h).
(* the common's set_param_by_index: lib/e_compon.cc:229-237 for the base class; an index that is not
   there is an assert *)
Definition set_own (c : comp) (i : Z) (v : list ascii) : option comp :=
  let* o := upd (own c) i v in Some (Comp (own_names c) o (hs c)).

(* lib/e_compon.cc:691-709: which, -1 if none *)
Definition hs_which (name : list ascii) : Z :=
  let eqs n := if list_eq_dec ascii_dec name (str n) then true else false in
  if eqs "$mfactor" then 0 else if eqs "$xposition" then 1 else if eqs "$yposition" then 2 else if eqs "$zposition" then 3
  else if eqs "$hflip" then 4 else if eqs "$vflip" then 5 else if eqs "$bflip" then 6 else if eqs "$angle" then 7 else -1.

(* lib/e_compon.cc:312-325, one pass of the outer loop: the names of parameter i *)
Fixpoint any_name (ci : bool) (name : list ascii) (aliases : list (list ascii)) : option bool :=
  match aliases with
  | [] => Some false
  | a :: r => let* m := Umatch ci name (a ++ [" "%char]) in if m then Some true else any_name ci name r
  end.
Inductive outcome := Set_at (i : Z) (c : comp) | No_match.
(* from i-1 down to 0; n is i *)
Fixpoint search (ci : bool) (n : nat) (name value : list ascii) (c : comp) : option outcome :=
  match n with
  | O => Some No_match
  | S i =>
    let* m := any_name ci name (nth i (own_names c) []) in
    if m then let* c := set_own c (Z.of_nat i) value in Some (Set_at (Z.of_nat i) c)
    else search ci i name value c
  end.
(* lib/e_compon.cc:727-744 *)
Definition set_param_by_name (ci : bool) (name value : list ascii) (c : comp) : option outcome :=
  let which := hs_which name in
  if which =? -1 then search ci (length (own_names c)) name value c
  else let* c' := set_hs c which value in Some (Set_at (param_count c - (which + 1)) c').

(* lib/e_compon.cc:746-762 *)
Definition set_param_by_index (i : Z) (value : list ascii) (c : comp) : option comp :=
  let I := param_count c - 1 - i in
  if I <? sysparams_count then set_hs c I value else set_own c i value.

(* lib/e_compon.cc:781-802; the first name of an own parameter *)
Definition param_name (c : comp) (i : Z) : list ascii :=
  let I := param_count c - 1 - i in
  if I =? 0 then str "$mfactor" else if I =? 1 then str "$xposition" else if I =? 2 then str "$yposition" else if I =? 3 then str "$zposition"
  else if I =? 4 then str "$angle" else if I =? 5 then str "$hflip" else if I =? 6 then str "$vflip" else if I =? 7 then str "$sflip"
  else hd [] (nth (Z.to_nat i) (own_names c) []).
(* lib/e_compon.cc:825-839 *)
Definition param_value (c : comp) (i : Z) : list ascii :=
  let I := param_count c - 1 - i in
  if (0 <=? I) && (I <? sysparams_count) then nth (Z.to_nat I) (hs c) [] else nth (Z.to_nat i) (own c) [].
