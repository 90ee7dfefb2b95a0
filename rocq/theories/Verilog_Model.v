(* Instance lines in verilog form: apps/lang_verilog.cc:111-393, 676-688 (reading) and 711-862
   (printing), on the scanner of CS_Model.v.

   A device is not modelled: reading gives the list of the calls that are made on it, in order.  The
   exceptions of those calls are caught inside the loops and lead to a warning only, so they do not
   change what is read.  Not modelled: warnings; module headers (parse_ports with all_new), which ask
   the device about its nodes while reading; ports of the kind current_port (789-794); devices with
   use_obsolete_callback_print. *)
Require Import ZArith List Ascii String Bool.
Require Import Verif.Loops Verif.Wmatch_Model Verif.CS_Model.
Import ListNotations.
Local Open Scope Z_scope.

Definition text := list ascii.
(* the calls on the device: set_dev_type (152), set_param_by_name (186) or set_param_by_index (202, the
   number counted from the last parameter) with the attributes that are stored for it (188, 203),
   set_label (225, 227), set_port_by_name (315) or set_port_by_index (342) with the attributes (316,
   343), the loop that grounds every port that is not connected (325-334, 381-391), the loop that grounds
   all from the given port on (372-374), and the attributes of the instance (680) *)
Inductive call :=
  | SetType (t : text) | SetParam (n v a : text) | SetParamAt (k : nat) (v a : text)
  | SetLabel (l : text) | NoLabel
  | SetPort (n v a : text) | SetPortAt (k : nat) (v a : text) | GroundOpen | GroundFrom (k : nat)
  | Attributes (a : text).

(* isalnum in the C locale; negative arguments (characters beyond 127) are undefined *)
Definition isalnum (c : ascii) : bool := isalpha c || isdigit c.
Definition isalnum_of (c : ascii) : option bool := if code c <? 128 then Some (isalnum c) else None.
(* CS::is_alnum  include/ap.h:119 *)
Definition is_alnum (s : cs) : option bool := let* c := peek s in Some (isalnum (toascii c)).
(* operator>>(std::string&)  include/ap.h:145, with the defaults of 126-129 *)
Definition DQ : ascii := """"%char.
Definition word (s : cs) : option (text * cs) := ctos TERM [DQ; "'"%char; "{"%char] [DQ; "'"%char; "}"%char] s.

Section Read.
Variable ci : bool.                          (* OPT::case_insensitive *)

(* LANG_VERILOG::parse_attributes, the inner loop, 124-126 *)
Fixpoint attr_body (n : nat) (acc : text) (s : cs) : option (text * cs) :=
  match n with
  | O => None
  | S n' =>
      let* m := ns_more s in
      if negb m then Some (acc, s)
      else let* s := umatch ci (str "*)") s in
           if ok s then Some (acc, s)
           else let* (c, s) := ctoc s in attr_body n' (acc ++ [c]) s
  end.
(* lib lang_verilog.cc:118-130 *)
Fixpoint attr_loop (n : nat) (comma acc : text) (s : cs) : option (text * cs) :=
  match n with
  | O => None
  | S n' =>
      let* s := umatch ci (str "(*") s in
      if ok s then let* (acc, s) := attr_body (rounds s) (acc ++ comma) s in attr_loop n' (str ", ") acc s
      else Some (acc, s)
  end.
Definition parse_attributes (s : cs) : option (text * cs) := attr_loop (rounds s) [] [] s.

(* LANG_VERILOG::parse_args_instance: by name, 181-196 *)
Fixpoint named_args (n : nat) (att : text) (s : cs) : option (list call * cs) :=
  match n with
  | O => None
  | S n' =>
      let* s := skip1bc "." s in
      if ok s then
        let* (nm, s) := ctos (str "(") [] [] s in
        let* (v, s) := ctos (str ",)") (str "(") (str ")") s in
        let* s := skip1bc "," s in
        let* (att', s) := parse_attributes s in
        let* (l, s) := named_args n' att' s in
        Some (SetParam nm v att :: l, s)
      else Some ([], s)
  end.
(* by order, 199-212 *)
Fixpoint ordered_args (n k : nat) (att : text) (s : cs) : option (list call * cs) :=
  match n with
  | O => None
  | S n' =>
      let* a := is_alnum s in
      let* p := match1 (str "+-.") s in
      if a || p then
        let* (v, s) := ctos (str ",)") [] [] s in
        let* (att', s) := parse_attributes s in
        let* (l, s) := ordered_args n' (S k) att' s in
        Some (SetParamAt k v att :: l, s)
      else Some ([], s)
  end.
(* 171-218 *)
Definition parse_args (s : cs) : option (list call * cs) :=
  let* s := umatch ci (str "#(") s in
  if ok s then
    let* (att, s) := parse_attributes s in
    let* b := match1c "." s in
    let* (l, s) := if b then named_args (rounds s) att s else ordered_args (rounds s) 0 att s in
    let* s := skip1bc ")" s in Some (l, s)
  else Some ([], s).

(* LANG_VERILOG::parse_label, 220-230 *)
Definition parse_label (s : cs) : option (list call * cs) :=
  let* (l, s) := word s in Some ([if ok s then SetLabel l else NoLabel], s).

(* the loop of get_identifier, 269-276 *)
Fixpoint all_alnum (id : text) : option bool :=
  match id with [] => Some true | c :: r => let* b := isalnum_of c in if b then all_alnum r else Some false end.
(* get_identifier, 252-291; skip() at 265 is unconditional *)
Definition get_identifier (term : text) (s : cs) : option (text * cs) :=
  let* s := skipbl s in
  let* s := skip1bc "\" s in
  if ok s then
    let* (id, s) := get_to [" "%char; ascii_of_nat 9; ascii_of_nat 12] s in
    let* plain := all_alnum id in
    Some (if plain then id else "\"%char :: id, skip s)
  else ctos term [] [] s.

(* LANG_VERILOG::parse_ports: by name, 303-324 *)
Fixpoint named_ports (n : nat) (att : text) (s : cs) : option (list call * cs) :=
  match n with
  | O => None
  | S n' =>
      let* s := skip1bc "." s in
      if ok s then
        let* (nm, s) := get_identifier (str "(") s in
        let* s := skip1bc "(" s in
        let paren := ok s in
        let* (v, s) := get_identifier (str ")") s in
        let* s := if paren then skip1bc ")" s else Some s in
        let* s := skip1bc "," s in
        let* (att', s) := parse_attributes s in
        let* (l, s) := named_ports n' att' s in
        Some (SetPort nm v att :: l, s)
      else Some ([GroundOpen], s)
  end.
(* by order, 337-375, with all_new false *)
Fixpoint ordered_ports (n k : nat) (att : text) (s : cs) : option (list call * cs) :=
  match n with
  | O => None
  | S n' =>
      let* a := is_alnum s in
      let* b := match1c "\" s in
      if a || b then
        let* (v, s) := get_identifier (str ",)") s in
        let* s := skip1bc "," s in
        let* (att', s) := parse_attributes s in
        let* (l, s) := ordered_ports n' (S k) att' s in
        Some (SetPortAt k v att :: l, s)
      else Some ([GroundFrom k], s)
  end.
(* 293-393 *)
Definition parse_ports (s : cs) : option (list call * cs) :=
  let* s := skip1bc "(" s in
  if ok s then
    let* (att, s) := parse_attributes s in
    let* b := match1c "." s in
    let* (l, s) := if b then named_ports (rounds s) att s else ordered_ports (rounds s) 0 att s in
    let* s := skip1bc ")" s in Some (l, s)
  else Some ([GroundOpen], s).

(* LANG_VERILOG::parse_instance, 676-688; nothing is stored for empty attributes (135) *)
Definition parse_instance (s : cs) : option (list call * cs) :=
  let s := reset 0 s in
  let* (a, s) := parse_attributes s in
  let* (t, s) := word s in
  let* (args, s) := parse_args s in
  let* (lab, s) := parse_label s in
  let* (ports, s) := parse_ports s in
  let* s := skip1bc ";" s in
  let* s := check ci s in
  Some (Attributes a :: SetType t :: args ++ lab ++ ports, s).
End Read.

(* LANG_VERILOG::parse_args_paramset, 155-169: the parameters of a paramset, as far as they are on this line.
   A failed step of the chain at 163 does not stop the others (ap.h:143-145). *)
Fixpoint paramset_args (n : nat) (s : cs) : option (list call * cs) :=
  match n with
  | O => None
  | S n' =>
      let* s := skip1bc "." s in
      if ok s then
        let* (nm, s) := word s in
        let* s := skip1bc "=" s in
        let* (v, s) := word s in
        let* s := skip1bc ";" s in
        let* (l, s) := paramset_args n' s in
        Some (SetParam nm v [] :: l, s)
      else Some ([], s)
  end.
Definition parse_args_paramset (s : cs) : option (list call * cs) := paramset_args (rounds s) s.

(* ---- printing ---- *)
(* what is printed of a device: attributes, dev_type, the printable parameters (name, value, attributes)
   in the order of printing, short_label, the ports (name, node, attributes) *)
Record inst := mkinst { i_attr : text; i_type : text; i_args : list (text * text * text); i_label : text; i_ports : list (text * text * text) }.

(* print_attributes, 712-723 *)
Definition attr_text (a : text) : text := match a with [] => [] | _ => str "(* " ++ a ++ str " *) " end.
(* mangle, 233-244; name[0] of an empty string is the terminator *)
Definition mangle (n : text) : text :=
  match n with
  | c :: _ => if isdigit c then "\"%char :: n ++ str " " else if Ascii.eqb c "\" then n ++ str " " else n
  | [] => n
  end.
(* the loops of 750-759 and 782-788: sep is empty the first time *)
Fixpoint items (mg : text -> text) (sep : text) (l : list (text * text * text)) : text :=
  match l with
  | [] => []
  | (n, v, a) :: r => sep ++ attr_text a ++ "."%char :: mg n ++ "("%char :: mg v ++ ")"%char :: items mg (str ",") r
  end.
(* print_instance, 855-863, with print_args (741-762) and print_ports_long (776-796), without the line end *)
Definition print_instance (x : inst) : text :=
  attr_text (i_attr x) ++ i_type x ++ str " #(" ++ items (fun n => n) [] (i_args x) ++ str ") " ++
  i_label x ++ str " (" ++ items mangle [] (i_ports x) ++ str ")" ++ str ";".

(* print_args(MODEL_CARD), 725-739: name and value of every printable parameter, in the order of printing *)
Fixpoint paramset_items (l : list (text * text)) : text :=
  match l with [] => [] | (n, v) :: r => str " ." ++ n ++ str "=" ++ v ++ str ";" ++ paramset_items r end.
