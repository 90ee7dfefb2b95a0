(* Instance and model lines in spice form: apps/lang_spice.cc:110-630 (reading) and 680-816 (printing), on the
   scanner of CS_Model.v.

   A device is not modelled: reading gives the list of the calls that are made on it, in order.  An
   Exception_No_Match of such a call is caught inside the loop (440) and leads to a warning only; calls that
   throw something else are not modelled.  A node that was set counts as connected (265).  Not modelled:
   warnings; .subckt headers (parse_ports with all_new); the parsers of behavioural models and of "table"
   models, which are called for devices with use_obsolete_callback_parse (351, 452); of such devices only the
   nodes are read here (element_ports); devices with use_obsolete_callback_print. *)
Require Import ZArith List Ascii String Bool.
Require Import Verif.Loops Verif.Wmatch_Model Verif.CS_Model Verif.Verilog_Model.
Import ListNotations.
Local Open Scope Z_scope.

(* the calls on the device: set_dev_type (387), set_label (481, 483), set_port_by_index (262),
   set_port_to_ground (297), set_param_by_name (402, 407, 430-438: a parameter $mfactor or m is given by its
   name whichever class takes it) *)
Inductive call :=
  | SetType (t : text) | SetLabel (l : text) | NoLabel | SetPort (k : Z) (v : text) | Ground (k : Z) | SetParam (n v : text).
(* what the parser asks the device: max_nodes, min_nodes, tail_size, print_type_in_spice, value_name
   (include/e_compon.h:245-248, 290, include/e_card.h:148) *)
Record dev := mkdev { d_max : Z; d_min : Z; d_tail : Z; d_shown : bool; d_value : text }.

(* include/ap.h:157-161: if (cond && cmd.skip1b(c)) *)
Definition close_if (cond : bool) (c : ascii) (s : cs) : option (bool * cs) :=
  if cond then let* s := skip1bc c s in Some (ok s, s) else Some (false, s).

(* count_ports, 145-156: the number of nodes when the line ends after i words *)
Definition at_end (mx mn tail i : Z) : Z :=
  if i <=? mn then i else if i <=? mn + tail then mn else if i <=? mx + tail then i - tail else mx.
(* 157-163: when a parenthesis or brace follows *)
Definition at_paren (mx tail i : Z) : Z := if mx + tail <? i then mx else i - tail.
(* 165-171: when an equal sign follows *)
Definition at_equal (mx tail i : Z) : Z := if mx + tail + 1 <? i then mx else i - tail - 1.
(* the loop of count_ports, 135-175: the number of nodes and the places where they may end *)
Fixpoint count_loop (n : nat) (paren : bool) (mx mn tail i : Z) (spots : list Z) (s : cs) : option (Z * list Z * cs) :=
  match n with
  | O => None
  | S n' =>
      let i := i + 1 in
      let* (_, s) := word s in
      let spots := spots ++ [cnt s] in
      let* (closed, s) := close_if paren ")" s in
      if closed then Some (i, spots, s) else
      let* (m, s) := more s in
      if negb m then Some (at_end mx mn tail i, spots, s) else
      let* s := skip1b (str "({})") s in
      if ok s then Some (at_paren mx tail i, spots, s) else
      let* s := skip1bc "=" s in
      if ok s then Some (at_equal mx tail i, spots, s)
      else count_loop n' paren mx mn tail i spots s
  end.
(* count_ports, 123-189, with its three assertions; None as a number: the exception of 176-178 *)
Definition count_ports (mx mn tail start : Z) (s : cs) : option (option Z * cs) :=
  if (mx <=? start) || (mx <? mn) then None else
  let* s := skip1bc "(" s in
  let paren := ok s in
  let* (num, spots, s) := count_loop (rounds s) paren mx mn tail start [cnt s] s in
  if num <? start then Some (None, reset (last spots 0) s)
  else let* spot := nth_error spots (Z.to_nat (num - start)) in
       if mx <? num then None else Some (Some num, reset spot s).

Section Read.
Variables (ci keys : bool).                  (* OPT::case_insensitive, OPT::keys_between_nodes *)

(* 244-248 *)
Definition KEYS := [str "poly "; str "pwl "; str "vccap "; str "vcg "; str "vcr "].
(* the chain of || at 244-248 *)
Fixpoint any_key (l : list text) (s : cs) : option (bool * cs) :=
  match l with
  | [] => Some (false, s)
  | k :: l' => let* s := umatch ci k s in if ok s then Some (true, s) else any_key l' s
  end.
(* the loop of parse_ports, 234-281, with all_new false: the calls, the number of nodes.  A node name that
   is empty throws (257-259) and ends the loop *)
Fixpoint ports_loop (n : nat) (paren : bool) (index num : Z) (s : cs) : option (list call * Z * cs) :=
  match n with
  | O => None
  | S n' =>
      let here1 := cnt s in
      let* (closed, s) := close_if paren ")" s in
      if closed then Some ([], index, s)
      else if num <=? index then Some ([], index, s)
      else
        let* (m, s) := more s in
        if negb m then Some ([], index, s)
        else
          let* (k, s) := if keys then any_key KEYS s else Some (false, s) in
          if k then Some ([], index, reset here1 s)
          else
            let here := cnt s in
            let* (v, s) := word s in
            if here <? cnt s then
              let* (l, index', s) := ports_loop n' paren (index + 1) num s in Some (SetPort index v :: l, index', s)
            else Some ([], index, s)
  end.
(* 296-298 *)
Fixpoint grounds (k : nat) (from : Z) : list call :=
  match k with O => [] | S k' => Ground from :: grounds k' (from + 1) end.
(* parse_ports, 225-300 *)
Definition parse_ports (mn start num : Z) (s : cs) : option (list call * Z * cs) :=
  let* s := skip1bc "(" s in
  let* (l, index, s) := ports_loop (rounds s) (ok s) start num s in
  Some (l ++ grounds (Z.to_nat (mn - index)) index, index, s).

(* parse_element_using_obsolete_callback, 308-316: the nodes of a device with use_obsolete_callback_parse;
   currents is num_current_ports.  What follows is not modelled *)
Definition element_ports (mx currents : Z) (s : cs) : option (list call * Z * cs) :=
  let here := cnt s in
  let* (num, s) := count_ports (mx - currents) 0 0 0 s in
  match num with
  | None => Some ([], 0, s)
  | Some num => parse_ports 0 0 num (reset here s)
  end.

(* the loop of parse_args, 410-445 *)
Definition BQ : text := str """'{(".
Definition EQ : text := str """'})".
Fixpoint args_loop (n : nat) (paren : bool) (here : Z) (s : cs) : option (list call * cs) :=
  match n with
  | O => None
  | S n' =>
      let* (closed, s) := close_if paren ")" s in
      if closed then Some ([], s)
      else
        let* (m, s) := more s in
        if negb m then Some ([], s)
        else
          let* (nm, s) := ctos (str "=") [] [] s in
          let* s := skip1bc "=" s in
          let* (v, s) := ctos (str ",=;)") BQ EQ s in
          if here <? cnt s then let* (l, s') := args_loop n' paren (cnt s) s in Some (SetParam nm v :: l, s')
          else Some ([], s)
  end.
(* parse_args, 390-445; vn is the value_name of a component, None for a model card: there 407 calls through
   a null pointer *)
Definition parse_args (vn : option text) (s : cs) : option (list call * cs) :=
  let* s := umatch ci (str "params:") s in
  let* s := skip1bc "(" s in
  let paren := ok s in
  let* f := is_float s in
  let* q := match1 (str "'{") s in
  let* (first, s) :=
    match vn with
    | Some name =>
        if f then let* (v, s) := word s in Some ([SetParam name v], s)
        else if q then let* (v, s) := word s in Some ([SetParam name ("{"%char :: v ++ ["}"%char])], s)
        else Some ([], s)
    | None => if q then None else Some ([], s)
    end in
  let* (l, s) := args_loop (rounds s) paren (cnt s) s in
  Some (first ++ l, s).

(* parse_label, 476-486; parse_type, 382-388 *)
Definition parse_label (s : cs) : option (list call * cs) :=
  let* (l, s) := word s in Some ([if ok s then SetLabel l else NoLabel], s).
Definition parse_type (s : cs) : option (list call * cs) :=
  let* (t, s) := word s in Some ([SetType t], s).

(* parse_instance, 575-612, for a device without use_obsolete_callback_parse *)
Definition parse_instance (d : dev) (s : cs) : option (list call * cs) :=
  let s := reset 0 s in
  let* s := umatch ci (str "*>") s in
  let* s := skip1bc "." s in
  let* (dot, s) := if ok s then parse_type s else Some ([], s) in
  let* (lab, s) := parse_label s in
  let here := cnt s in
  let* (num, s) := count_ports (d_max d) (d_min d) (d_tail d) 0 s in
  match num with
  | None => Some (dot ++ lab, s)
  | Some num =>
      let* (ports, _, s) := parse_ports (d_min d) 0 num (reset here s) in
      let* (ty, s) :=
        if d_shown d then
          let* (t, s) := parse_type s in
          let* s := if d_tail d =? 2 then skiparg s else Some s in Some (t, s)
        else Some ([], s) in
      let* (args, s) := parse_args (Some (d_value d)) s in
      Some (dot ++ lab ++ ports ++ ty ++ args, s)
  end.

(* parse_paramset, 521-531 *)
Definition parse_paramset (s : cs) : option (list call * cs) :=
  let s := reset 0 s in
  let* s := umatch ci (str ".model ") s in
  let* (lab, s) := parse_label s in
  let* (ty, s) := parse_type s in
  let* (args, s) := parse_args None s in
  let* s := check ci s in
  Some (lab ++ ty ++ args, s).
End Read.

(* ---- printing ---- *)
(* what is printed of a device: short_label, id_letter, the nodes and currents, print_type_in_spice,
   tail_size, modelname of the common, dev_type, the parameter that is printed without its name (783), and
   the other printable parameters in the order of printing *)
Record inst := mkinst { i_label : text; i_letter : ascii; i_ports : list text; i_shown : bool; i_tail : Z; i_model : text;
  i_type : text; i_value : option text; i_args : list (text * text) }.
(* print_ports, 801-816: sep is empty the first time *)
Fixpoint port_items (sep : text) (l : list text) : text :=
  match l with [] => [] | p :: r => sep ++ p ++ port_items (str " ") r end.
(* fix_case, 680-683 *)
Definition fix_case (ci : bool) (c : ascii) : ascii := if ci then to_lower c else c.
(* print_type, 757-772 *)
Definition type_text (ci : bool) (x : inst) : text :=
  if i_shown x then
    if i_tail x =? 2 then str "  " ++ i_model x ++ str " " ++ i_type x else str "  " ++ i_type x
  else if Ascii.eqb (fix_case ci (hd NUL (i_label x))) (fix_case ci (i_letter x)) then [] else str "  " ++ i_type x.
(* the loops of 747-753 and 781-791 *)
Fixpoint arg_items (l : list (text * text)) : text :=
  match l with [] => [] | (n, v) :: r => str " " ++ n ++ str "=" ++ v ++ arg_items r end.
(* print_instance, 710-717, with print_label (795-799) and print_args (774-793), without the line end *)
Definition print_instance (ci : bool) (x : inst) : text :=
  i_label x ++ (str " ( " ++ port_items [] (i_ports x) ++ str " )") ++ type_text ci x ++
  str " " ++ match i_value x with Some v => v | None => [] end ++ arg_items (i_args x).
(* print_paramset, 685-691, with print_args (741-755), without the line end *)
Definition print_paramset (label ty : text) (args : list (text * text)) : text :=
  str ".model " ++ label ++ str " " ++ ty ++ str " (" ++ arg_items args ++ str ")".
