(* lib/u_probe.cc, include/u_probe.h, lib/u_prblst.cc, include/u_prblst.h, apps/c_prbcmd.cc, lib/e_base.cc,
   apps/s__out.cc: probes on nodes and devices, the lists they are kept in, the commands that edit the lists
   (print, plot, alarm, store), and the waves recorded for the store list.

   Not modelled: the text printed (warnings, listings, results, plots); the copying of the circuit by
   _sim->init (apps/c_prbcmd.cc:89), which can only create and destroy objects: that is the operations New
   and Delete below; a value of a probe is an arbitrary number (a parameter of the output step). *)
Require Import ZArith QArith List Ascii String Bool.
Require Import Verif.Loops Verif.Wmatch_Model Verif.CS_Model.
Import ListNotations.
Local Open Scope Z_scope.

(* How an execution ends.  Assert: a failed assert of the bookkeeping of probes.  Undef: a read outside the
   text or outside an array, or an int that overflows.  NoEnd: more rounds than allowed. *)
Inductive out (A : Type) := Done (a : A) | Assert | Undef | NoEnd.
Arguments Done {A} a. Arguments Assert {A}. Arguments Undef {A}. Arguments NoEnd {A}.
Definition obind {A B} (x : out A) (f : A -> out B) : out B :=
  match x with Done a => f a | Assert => Assert | Undef => Undef | NoEnd => NoEnd end.
Notation "'do' x '<-' e ';' k" := (obind e (fun x => k)) (at level 200, x pattern, e at level 100, k at level 200).
(* the scanner of CS_Model: None is a read outside the text *)
Definition txt {A} (x : option A) : out A := match x with Some a => Done a | None => Undef end.

(* include/u_probe.h:30-35.  An object (node or device) is its address; None is the null pointer *)
Record probe := Probe { p_what : list ascii; p_obj : option Z; p_lo : Q; p_hi : Q }.
(* include/e_base.h:39: the number of probes that every object has *)
Definition counts := Z -> Z.
Definition set_count (c : counts) (o v : Z) : counts := fun k => if k =? o then v else c k.
(* include/e_base.h:75-76, with the assert *)
Definition inc_probes (o : Z) (c : counts) : counts := set_count c o (c o + 1).
Definition dec_probes (o : Z) (c : counts) : out counts := if 0 <? c o then Done (set_count c o (c o - 1)) else Assert.
(* lib/u_probe.cc:37-40, 50-53, 66-69 *)
Definition attach (b : option Z) (c : counts) : counts := match b with Some o => inc_probes o c | None => c end.
(* lib/u_probe.cc:78-86 *)
Definition detach (b : option Z) (c : counts) : out counts := match b with Some o => dec_probes o c | None => Done c end.
(* lib/u_probe.cc:30-41 *)
Definition construct (what : list ascii) (b : option Z) (c : counts) : probe * counts := (Probe what b 0 0, attach b c).
(* lib/u_probe.cc:43-54 *)
Definition copy (p : probe) (c : counts) : probe * counts := (p, attach (p_obj p) c).
(* include/u_probe.h:39 *)
Definition destroy (p : probe) (c : counts) : out counts := detach (p_obj p) c.
(* lib/u_probe.cc:59-71: the new left side *)
Definition assign (l r : probe) (c : counts) : out (probe * counts) := do c <- detach (p_obj l) c; Done (r, attach (p_obj r) c).

(* copies and destructors of a range, in order *)
Definition copy_all (l : list probe) (c : counts) : counts := fold_left (fun c p => snd (copy p c)) l c.
Fixpoint destroy_all (l : list probe) (c : counts) : out counts :=
  match l with [] => Done c | p :: l' => do c <- destroy p c; destroy_all l' c end.

(* include/e_cardlist.h, include/u_nodemap.h: what the commands see of the circuit.  The nodes of a scope are the
   entries of the map in its order: key, label of the node, address *)
Inductive card := Card (c_label : list ascii) (c_id : Z) (c_dev : bool) (c_sub : option scope)
with scope := Scope (s_nodes : list (list ascii * (list ascii * Z))) (s_cards : list card).
Definition nodes (sc : scope) := match sc with Scope n _ => n end.
Definition cards (sc : scope) := match sc with Scope _ l => l end.
Definition c_id (k : card) := match k with Card _ o _ _ => o end.
Definition c_label (k : card) := match k with Card l _ _ _ => l end.

(* std::string ==, and comparison without case: strcasecmp *)
Fixpoint same_text (ci : bool) (a b : list ascii) : bool :=
  match a, b with
  | [], [] => true
  | x :: a', y :: b' => Ascii.eqb (fix_case ci x) (fix_case ci y) && same_text ci a' b'
  | _, _ => false
  end.
(* std::map::find *)
Fixpoint map_find (key : list ascii) (l : list (list ascii * (list ascii * Z))) : option Z :=
  match l with
  | [] => None
  | (k, (_, o)) :: l' => if same_text false k key then Some o else map_find key l'
  end.

(* include/mode.h:37-44; sSTART is s_NONE and sCOUNT is s_FOURIER + 1 *)
Inductive mode := s_NONE | s_AC | s_OP | s_DC | s_TRAN | s_FOURIER.
Definition modes : list mode := [s_NONE; s_AC; s_OP; s_DC; s_TRAN; s_FOURIER].
(* include/u_prblst.h:62-69 *)
Inductive kind := k_alarm | k_plot | k_print | k_store.
Definition mode_eqb (a b : mode) : bool :=
  match a, b with
  | s_NONE, s_NONE | s_AC, s_AC | s_OP, s_OP | s_DC, s_DC | s_TRAN, s_TRAN | s_FOURIER, s_FOURIER => true
  | _, _ => false
  end.
Definition kind_eqb (a b : kind) : bool :=
  match a, b with k_alarm, k_alarm | k_plot, k_plot | k_print, k_print | k_store, k_store => true | _, _ => false end.
Definition lists := kind -> mode -> list probe.
Definition set_list (ls : lists) (k : kind) (m : mode) (l : list probe) : lists :=
  fun k' m' => if kind_eqb k' k && mode_eqb m' m then l else ls k' m'.

(* include/constant.h:108, include/ap.h:126-128 *)
Definition TOKENTERM := str ",=()[]".
Definition QB : list ascii := ["034"%char; "'"%char; "{"%char].
Definition QE : list ascii := ["034"%char; "'"%char; "}"%char].

Section Lists.
Variable ci : bool.                        (* OPT::case_insensitive *)
Variable u : units.                        (* OPT::units *)
Variable grow : list probe -> bool.        (* whether std::vector reallocates when it appends to this contents *)
Variable long_label : Z -> list ascii.     (* CKT_BASE::long_label of the object *)

(* lib/u_probe.cc:92-99 *)
Definition label (p : probe) : list ascii :=
  match p_obj p with
  | Some o => p_what p ++ str "(" ++ long_label o ++ str ")"
  | None => p_what p ++ str "(0)"
  end.

(* std::vector<PROBE>::push_back(const PROBE& ): the new element is a copy; when the storage grows every old
   element is copied (PROBE has no move constructor) and the old one destroyed *)
Definition push_back (bag : list probe) (p : probe) (c : counts) : out (list probe * counts) :=
  let (q, c) := copy p c in
  if grow bag then
    let c := copy_all bag c in
    do c <- destroy_all bag c;
    Done (bag ++ [q], c)
  else Done (bag ++ [q], c).
(* lib/u_prblst.cc:195-198: a temporary, the copy in the list, the temporary destroyed *)
Definition push_new_probe (what : list ascii) (b : option Z) (st : list probe * counts) : out (list probe * counts) :=
  let (t, c) := construct what b (snd st) in
  do (bag, c) <- push_back (fst st) t c;
  do c <- destroy t c;
  Done (bag, c).
Fixpoint push_all (what : list ascii) (os : list (option Z)) (st : list probe * counts) : out (list probe * counts) :=
  match os with [] => Done st | b :: os' => do st <- push_new_probe what b st; push_all what os' st end.

(* std::remove after its first match: kept is what is before the result iterator (reversed), gap the elements between
   the result iterator and the one looked at, which are still there and get assigned over *)
Fixpoint remove_loop (pred : probe -> bool) (kept gap rest : list probe) (c : counts) : out (list probe * list probe * counts) :=
  match rest with
  | [] => Done (rev kept, gap, c)
  | x :: rest' =>
    if pred x then remove_loop pred kept (gap ++ [x]) rest' c
    else match gap with
         | [] => Undef
         | g :: gs => do (g', c) <- assign g x c; remove_loop pred (g' :: kept) (gs ++ [x]) rest' c
         end
  end.
(* std::remove(begin, end, v): up to the first match nothing is written *)
Fixpoint std_remove (pred : probe -> bool) (kept rest : list probe) (c : counts) : out (list probe * list probe * counts) :=
  match rest with
  | [] => Done (rev kept, [], c)
  | x :: rest' => if pred x then remove_loop pred kept [x] rest' c else std_remove pred (x :: kept) rest' c
  end.
(* lib/u_prblst.cc:92-94, 119: remove, then erase (and so destroy) the rest *)
Definition remove_erase (pred : probe -> bool) (st : list probe * counts) : out (list probe * counts) :=
  do (l, x, c) <- std_remove pred [] (fst st) (snd st);
  do c <- destroy_all x c;
  Done (l, c).
(* lib/u_prblst.cc:104-107, 116-122 *)
Definition remove_one (o : Z) (st : list probe * counts) : out (list probe * counts) :=
  remove_erase (fun p => match p_obj p with Some k => k =? o | None => false end) st.
(* lib/u_prblst.cc:56-59 *)
Definition clear (st : list probe * counts) : out (list probe * counts) :=
  do c <- destroy_all (fst st) (snd st); Done ([], c).

(* lib/u_prblst.cc:32-40 *)
Definition purge_one (o : Z) (k : kind) (m : mode) (st : lists * counts) : out (lists * counts) :=
  do (l, c) <- remove_one o (fst st k m, snd st);
  Done (set_list (fst st) k m l, c).
Fixpoint purge_loop (o : Z) (ms : list mode) (st : lists * counts) : out (lists * counts) :=
  match ms with
  | [] => Done st
  | m :: ms' =>
    do st <- purge_one o k_alarm m st;
    do st <- purge_one o k_plot m st;
    do st <- purge_one o k_print m st;
    do st <- purge_one o k_store m st;
    purge_loop o ms' st
  end.
Definition purge (o : Z) (st : lists * counts) : out (lists * counts) := purge_loop o modes st.

(* lib/u_nodemap.cc:68-80 NODE_MAP::operator[] *)
Definition node_named (s : list ascii) (sc : scope) : option Z :=
  match map_find s (nodes sc) with
  | Some o => Some o
  | None => if ci then map_find (map to_lower s) (nodes sc) else None
  end.
(* lib/e_cardlist.cc:89-101, include/l_stlextra.h:43-49, lib/e_base.cc:172-179 *)
Fixpoint find_card (s : list ascii) (l : list card) : option Z :=
  match l with
  | [] => None
  | k :: l' => if same_text ci (c_label k) s then Some (c_id k) else find_card s l'
  end.
Definition opt_list {A} (x : option A) : list A := match x with Some a => [a] | None => [] end.

(* device.find_first_of("."): what is before and after the first dot *)
Fixpoint cut_first (d : list ascii) : option (list ascii * list ascii) :=
  match d with
  | [] => None
  | c :: d' => if Ascii.eqb c "." then Some ([], d')
               else match cut_first d' with Some (a, b) => Some (c :: a, b) | None => None end
  end.
(* device.find_last_of("."): what is before and after the last dot *)
Fixpoint cut_last (d : list ascii) : option (list ascii * list ascii) :=
  match d with
  | [] => None
  | c :: d' => match cut_last d' with
               | Some (a, b) => Some (c :: a, b)
               | None => if Ascii.eqb c "." then Some ([], d') else None
               end
  end.
(* find_first_of("*?") != npos *)
Definition has_wild (d : list ascii) : bool := existsb (fun c => Ascii.eqb c "*" || Ascii.eqb c "?") d.

(* lib/u_prblst.cc:264-315: the objects that get a probe, in order.  (The push of each one, which is done as it is
   found, does not influence the search.) *)
Definition add_here (device : list ascii) (sc : scope) : list Z :=
  if has_wild device then
    flat_map (fun n : list ascii * (list ascii * Z) =>
      if negb (same_text false (fst n) (str "0")) && wmatch ci (fst (snd n)) device then [snd (snd n)] else []) (nodes sc)
    ++ flat_map (fun k => if wmatch ci (c_label k) device then [c_id k] else []) (cards sc)
  else opt_list (node_named device sc) ++ opt_list (find_card device (cards sc)).
(* lib/u_prblst.cc:238-247, 253-262 *)
Definition look_inside (f : scope -> list Z) (container : list ascii) (sc : scope) : list Z :=
  flat_map (fun k => match k with Card l _ dev sub =>
    match sub with
    | Some inner => if dev && wmatch ci l container then f inner else []
    | None => []
    end end) (cards sc).
(* lib/u_prblst.cc:222-318; n bounds the depth *)
Fixpoint add_branches_n (n : nat) (device : list ascii) (sc : scope) : list Z :=
  match n with
  | O => []
  | S n' =>
    match cut_first device with
    | None => add_here device sc
    | Some (container, dev) =>
      look_inside (add_branches_n n' dev) container sc
      ++ match cut_last device with
         | Some (dev, container) => look_inside (add_branches_n n' dev) container sc
         | None => []
         end
    end
  end.
(* every level takes one dot off the name *)
Definition add_branches (device : list ascii) (sc : scope) : list Z := add_branches_n (S (List.length device)) device sc.
(* lib/u_prblst.cc:200-217 *)
Definition add_all_nodes (sc : scope) : list Z :=
  flat_map (fun n : list ascii * (list ascii * Z) =>
    if negb (same_text false (fst n) (str "0")) && negb (existsb (Ascii.eqb ".") (fst n)) then [snd (snd n)] else []) (nodes sc).

(* include/ap.h:119 *)
Definition is_alnum (s : cs) : option bool := let* p := peek s in Some (isalpha (toascii p) || isdigit (toascii p)).
(* cmd.is_alnum() || cmd.match1("*?") *)
Definition starts_name (s : cs) : option bool := let* a := is_alnum s in if a then Some true else match1 (str "*?") s.

(* lib/u_prblst.cc:158-171 *)
Fixpoint more_names (n : nat) (what : list ascii) (sc : scope) (st : list probe * counts) (s : cs) : out (list probe * counts * cs) :=
  match n with
  | O => NoEnd
  | S n' =>
    do b <- txt (starts_name s);
    if negb b then Done (st, s)
    else
      let here2 := cnt s in
      do (nm, s) <- txt (ctos TERM QB QE s);
      let found := add_branches nm sc in
      do st <- push_all what (map Some found) st;
      match found with
      | [] => Done (st, reset here2 s)
      | _ => more_names n' what sc st s
      end
  end.
(* p->set_limit for the probes from the old size on *)
Definition set_limits (old : nat) (lo hi : Q) (l : list probe) : list probe :=
  firstn old l ++ map (fun p => Probe (p_what p) (p_obj p) lo hi) (skipn old l).

(* lib/u_prblst.cc:130-193 *)
Definition add_list (sc : scope) (st : list probe * counts) (s : cs) : out (list probe * counts * cs) :=
  let oldcount := List.length (fst st) in
  do (what, s) <- txt (ctos TOKENTERM QB QE s);
  do s <- txt (skip1bc "(" s);
  do s <- txt (umatch ci (str "nodes ") s);
  do (st, s) <-
    if ok s then do st <- push_all what (map Some (add_all_nodes sc)) st; Done (st, s)
    else
      do s <- txt (umatch ci (str "0") s);
      if ok s then do st <- push_new_probe what None st; Done (st, s)
      else
        do b <- txt (starts_name s);
        if b : bool then
          do (nm, s) <- txt (ctos TERM QB QE s);
          do st <- push_all what (map Some (add_branches nm sc)) st;
          more_names (rounds s) what sc st s
        else Done (st, s);
  do s <- txt (skip1bc ")" s);
  do s <- txt (skip1bc "(" s);
  if ok s then
    do (lo, s) <- txt (ctof u s);
    do (hi, s) <- txt (ctof u s);
    let st := (set_limits oldcount lo hi (fst st), snd st) in
    do s <- txt (skip1bc ")" s);
    if ok s then Done (st, s) else do s <- txt (check ci s); Done (st, s)
  else Done (st, s).

(* lib/u_prblst.cc:65-68, 78-98 *)
Definition remove_list (st : list probe * counts) (s : cs) : out (list probe * counts * cs) :=
  do (w1, s) <- txt (ctos TOKENTERM QB QE s);
  do s <- txt (skip1bc "(" s);
  do (w2, s) <- txt (ctos TOKENTERM QB QE s);
  do s <- txt (skip1bc ")" s);
  let parameter := w1 ++ str "(" ++ w2 ++ str ")" in
  do st <- remove_erase (fun p => wmatch ci (label p) parameter) st;
  Done (st, s).

(* apps/c_prbcmd.cc:48 *)
Inductive action := aADD | aDELETE | aNEW.
(* apps/c_prbcmd.cc:51-59, 90-97, 104-111: a sign changes the action and is skipped *)
Definition sign (a : action) (s : cs) : out (action * cs) :=
  do m <- txt (match1c "-" s);
  if m : bool then Done (aDELETE, skip s)
  else do p <- txt (match1c "+" s); if p : bool then Done (aADD, skip s) else Done (a, s).
(* apps/c_prbcmd.cc:103-117 *)
Fixpoint edit (n : nat) (sc : scope) (a : action) (st : list probe * counts) (s : cs) : out (list probe * counts * cs) :=
  match n with
  | O => NoEnd
  | S n' =>
    do (m, s) <- txt (more s);
    if negb m then Done (st, s)
    else
      do (a, s) <- sign a s;
      do (st, s) <- match a with aDELETE => remove_list st s | _ => add_list sc st s end;
      edit n' sc a st s
  end.
(* apps/c_prbcmd.cc:61-67; include/ap.h:193-202: the first keyword that matches *)
Fixpoint sim_word (l : list (string * mode)) (s : cs) : out (mode * cs) :=
  match l with
  | [] => Done (s_NONE, s)
  | (key, m) :: l' => do s <- txt (umatch ci (str key ++ str " ") s); if ok s then Done (m, s) else sim_word l' s
  end.
Definition sim_words : list (string * mode) :=
  [("tr{ansient}", s_TRAN); ("ac", s_AC); ("dc", s_DC); ("op", s_OP); ("fo{urier}", s_FOURIER)]%string.
(* apps/c_prbcmd.cc:77-79 *)
Fixpoint clear_all (k : kind) (ms : list mode) (st : lists * counts) : out (lists * counts) :=
  match ms with
  | [] => Done st
  | m :: ms' => do (l, c) <- clear (fst st k m, snd st); clear_all k ms' (set_list (fst st) k m l, c)
  end.
(* apps/c_prbcmd.cc:37-120 but for line 47 (set_command_none, in the step of the command below); the flag says that the
   exception of line 81 was thrown; n is the number of rounds the loop of line 103 may make *)
Definition do_probe (n : nat) (k : kind) (sc : scope) (st : lists * counts) (s : cs) : out (lists * counts * bool) :=
  do (a, s) <- sign aNEW s;
  do (m, s) <- sim_word sim_words s;
  do (b, s) <- txt (more s);
  match m with
  | s_NONE =>
    if negb b then Done (st, false)
    else do s <- txt (umatch ci (str "clear ") s);
         if ok s then do st <- clear_all k modes st; Done (st, false)
         else Done (st, true)
  | _ =>
    if negb b then Done (st, false)
    else do s <- txt (umatch ci (str "clear ") s);
         if ok s then do (l, c) <- clear (fst st k m, snd st); Done (set_list (fst st) k m l, c, false)
         else
           do (a, s) <- sign a s;
           do (a, l, c) <- match a with
                           | aNEW => do (l, c) <- clear (fst st k m, snd st); Done (aADD, l, c)
                           | _ => Done (a, fst st k m, snd st)
                           end;
           do (l, c, s) <- edit n sc a (l, c) s;
           Done (set_list (fst st) k m l, c, false)
  end.

(* include/u_sim_data.h:153-159 _mode and _waves; m_wave.h WAVE::push appends (time, value) (no delay here).
   live: the objects that exist *)
Definition wave := list (Q * Q).
Record world := World { w_live : Z -> bool; w_counts : counts; w_lists : lists; w_mode : mode; w_waves : option (list wave) }.
(* lib/e_base.cc:147-168: the position in _waves of the wave of the first probe of the store list whose label matches;
   the outer option is a read outside the array *)
Fixpoint find_wave_loop (name : list ascii) (ii : nat) (l : list probe) : option nat :=
  match l with
  | [] => None
  | p :: l' => if wmatch ci (label p) name then Some ii else find_wave_loop name (S ii) l'
  end.
Definition find_wave (name : list ascii) (w : world) : out (option wave) :=
  match find_wave_loop name O (w_lists w k_store (w_mode w)) with
  | None => Done None
  | Some ii => match w_waves w with
               | Some ws => match nth_error ws ii with Some v => Done (Some v) | None => Undef end
               | None => Undef
               end
  end.

(* apps/s__out.cc:84-89 *)
Definition head_waves (w : world) : world :=
  World (w_live w) (w_counts w) (w_lists w) (w_mode w) (Some (map (fun _ => []) (w_lists w k_store (w_mode w)))).
(* _waves[ii].push(x, y) *)
Fixpoint push_at (ws : list wave) (ii : nat) (d : Q * Q) : out (list wave) :=
  match ws, ii with
  | [], _ => Undef
  | w :: ws', O => Done ((w ++ [d]) :: ws')
  | w :: ws', S i => do ws'' <- push_at ws' i d; Done (w :: ws'')
  end.
(* apps/s__out.cc:144-151 *)
Fixpoint store_loop (x : Q) (value : probe -> Q) (ii : nat) (l : list probe) (ws : list wave) : out (list wave) :=
  match l with
  | [] => Done ws
  | p :: l' => do ws <- push_at ws ii (x, value p); store_loop x value (S ii) l' ws
  end.
Definition store_results (x : Q) (value : probe -> Q) (w : world) : out world :=
  match w_waves w with
  | None => Undef
  | Some ws => do ws <- store_loop x value O (w_lists w k_store (w_mode w)) ws;
               Done (World (w_live w) (w_counts w) (w_lists w) (w_mode w) (Some ws))
  end.
Fixpoint outputs (pts : list (Q * (probe -> Q))) (w : world) : out world :=
  match pts with [] => Done w | (x, v) :: pts' => do w <- store_results x v w; outputs pts' w end.

(* lib/e_base.cc:43-61 with the assert of line 53 (the lists and _sim exist) *)
Definition delete_object (o : Z) (w : world) : out world :=
  do (ls, c) <- if w_counts w o =? 0 then Done (w_lists w, w_counts w) else purge o (w_lists w, w_counts w);
  if c o =? 0 then Done (World (fun k => if k =? o then false else w_live w k) c ls (w_mode w) (w_waves w)) else Assert.

(* what happens to the lists *)
Inductive op :=
| New (o : Z)                                     (* an object is built: include/e_base.h:48-50 *)
| Delete (o : Z)                                  (* an object is destroyed *)
| Command (k : kind) (sc : scope) (line : list ascii)   (* alarm, plot, print or store followed by this text *)
| Run (m : mode) (pts : list (Q * (probe -> Q)))  (* an analysis that gets to head() and outputs these points *)
| Fail (m : mode).                                (* an analysis whose setup throws: apps/s__init.cc:41-66 *)
Definition set_mode (m : mode) (w : world) : world := World (w_live w) (w_counts w) (w_lists w) m (w_waves w).
Definition step (w : world) (x : op) : out world :=
  match x with
  | New o => Done (World (fun k => if k =? o then true else w_live w k) (set_count (w_counts w) o 0) (w_lists w) (w_mode w) (w_waves w))
  | Delete o => delete_object o w
  | Command k sc line =>
      (* apps/c_prbcmd.cc:47, then the rest *)
      do (ls, c, _) <- do_probe (S (List.length line)) k sc (w_lists w, w_counts w) (cs_string line);
      Done (World (w_live w) c ls s_NONE (w_waves w))
  | Run m pts => outputs pts (head_waves (set_mode m w))
  | Fail m => Done (set_mode m w)
  end.
Fixpoint run (w : world) (l : list op) : out world :=
  match l with [] => Done w | x :: l' => do w <- step w x; run w l' end.
(* at start: lib/e_base.cc:40-41; no object, all lists empty, no wave *)
Definition world0 : world := World (fun _ => false) (fun _ => 0) (fun _ _ => []) s_NONE None.
End Lists.
