(* The commands modify, fault, unfault and the values of sweep: apps/c_modify.cc, lib/findbr.cc, include/u_cardst.h,
   apps/c_sweep.cc.

   A card has a label, an identity and, for subcircuit instances, a list of its own.  The values and commons of the
   elements are a store over identities; commons have an attach count, and one whose count is zero is freed.  Undef is
   the use of something freed or a failed cast; Throw an exception.

   Simplified: numbers are rational; pow is given.  Not modelled: the messages, _sim->uninit(), the file in which sweep
   keeps its commands (only the values of its steps are). *)
Require Import String Ascii List Bool ZArith QArith Lia.
Require Import Verif.Loops Verif.CS_Model Verif.Wmatch_Model.
Import ListNotations.
Open Scope Z_scope.
Open Scope list_scope.

(* how a call ends: apps/c_modify.cc:72-74 throws, 50-51 and 109-110 assert, include/u_cardst.h:40-43 uses _brh *)
Inductive outcome (A : Type) := Done (a : A) | Undef | Throw | NoEnd.
Arguments Done {A}. Arguments Undef {A}. Arguments Throw {A}. Arguments NoEnd {A}.
(* sequencing of outcomes  apps/c_modify.cc:91-128 *)
Definition obind {A B} (x : outcome A) (f : A -> outcome B) : outcome B :=
  match x with Done a => f a | Undef => Undef | Throw => Throw | NoEnd => NoEnd end.
Notation "'do' x <- e ; k" := (obind e (fun x => k)) (at level 200, x pattern, e at level 100, k at level 200).
(* a failure of the text scanner  lib/ap_convert.cc, modelled in CS_Model.v *)
Definition txt {A} (x : option A) : outcome A := match x with Some a => Done a | None => Undef end.

(* what a card is: not a device, a device that is no ELEMENT, an ELEMENT  include/e_card.h, include/e_elemnt.h *)
Inductive what := Other | Device | Element.
(* include/e_card.h: label, identity, kind, subckt() *)
Inductive card := Card (label : list ascii) (id : Z) (k : what) (sub : option (list card)).
(* its fields  include/e_card.h:71-131 *)
Definition label (c : card) := match c with Card l _ _ _ => l end.
Definition ident (c : card) := match c with Card _ i _ _ => i end.
Definition kind (c : card) := match c with Card _ _ k _ => k end.
Definition sub (c : card) := match c with Card _ _ _ s => s end.

(* an element: the PARAMETER _value (number and text, include/u_parameter.h:97-99) and _common *)
Record elem := Elem { e_val : Q; e_text : list ascii; e_common : option Z }.
(* include/u_cardst.h:31-33 CARDSTASH *)
Record stash := Stash { s_brh : Z; s_elem : elem }.
(* the elements that exist, their contents, the attach counts, and faultstack (apps/c_modify.cc:35), top first *)
Record world := World { w_live : Z -> bool; w_elem : Z -> elem; w_cnt : Z -> Z; w_stack : list stash }.
(* writes to the above  include/e_elemnt.h:41-44, lib/e_compon.cc:59-107, apps/c_modify.cc:49 and 160 *)
Definition set_elem (i : Z) (e : elem) (w : world) : world :=
  World (w_live w) (fun j => if j =? i then e else w_elem w j) (w_cnt w) (w_stack w).
Definition set_cnt_of (k v : Z) (w : world) : world :=
  World (w_live w) (w_elem w) (fun j => if j =? k then v else w_cnt w j) (w_stack w).
Definition set_stack (l : list stash) (w : world) : world := World (w_live w) (w_elem w) (w_cnt w) l.

(* lib/e_compon.cc:59-89 attach_common to an empty pointer *)
Definition attach (c : option Z) (w : world) : outcome world :=
  match c with None => Done w | Some k => if 0 <? w_cnt w k then Done (set_cnt_of k (w_cnt w k + 1) w) else Undef end.
(* lib/e_compon.cc:91-107 detach_common *)
Definition detach (c : option Z) (w : world) : outcome world :=
  match c with None => Done w | Some k => if 0 <? w_cnt w k then Done (set_cnt_of k (w_cnt w k - 1) w) else Undef end.
(* comparison of two pointers  lib/e_elemnt.cc:74 *)
Definition same_ptr (a b : option Z) : bool :=
  match a, b with None, None => true | Some x, Some y => x =? y | _, _ => false end.
(* the text of a PARAMETER that was given a number  include/u_parameter.h:142 *)
Definition HASH : list ascii := str "#".
(* lib/e_elemnt.cc:72-80 set_value(double, COMMON_COMPONENT pointer) *)
Definition set_value (i : Z) (v : Q) (c : option Z) (w : world) : outcome world :=
  if w_live w i then
    let e := w_elem w i in
    do w <- (if same_ptr c (e_common e) then Done w else do w <- detach (e_common e) w; attach c w);
    Done (set_elem i (Elem v HASH c) w)
  else Undef.
(* include/e_elemnt.h:41 set_value(PARAMETER) *)
Definition set_value_par (i : Z) (v : Q) (t : list ascii) (w : world) : outcome world :=
  if w_live w i then Done (set_elem i (Elem v t (e_common (w_elem w i))) w) else Undef.

(* include/u_cardst.h:58-74: the stash of an element *)
Definition make_stash (i : Z) (w : world) : outcome (stash * world) :=
  if w_live w i then do w' <- attach (e_common (w_elem w i)) w; Done (Stash i (w_elem w i), w') else Undef.
(* apps/c_modify.cc:49: push_back copies the stash (include/u_cardst.h:76-82), the temporary is then destroyed (38) *)
Definition push_stash (i : Z) (w : world) : outcome world :=
  do (st, w) <- make_stash i w;
  do w <- attach (e_common (s_elem st)) w;
  do w <- detach (e_common (s_elem st)) w;
  Done (set_stack (st :: w_stack w) w).
(* include/u_cardst.h:40-44 *)
Definition restore (st : stash) (w : world) : outcome world :=
  do w <- set_value (s_brh st) (e_val (s_elem st)) (e_common (s_elem st)) w;
  set_value_par (s_brh st) (e_val (s_elem st)) (e_text (s_elem st)) w.
(* apps/c_modify.cc:40-55 *)
Definition faultbranch (c : card) (v : Q) (w : world) : outcome world :=
  match kind c with
  | Other => Done w
  | k =>
      match sub c with
      | Some _ => Done w
      | None =>
          match k with
          | Element => do w <- push_stash (ident c) w; set_value (ident c) v None w
          | _ => Undef
          end
      end
  end.
(* apps/c_modify.cc:108-113 *)
Definition modifybranch (c : card) (v : Q) (w : world) : outcome world :=
  match kind c with Element => set_value (ident c) v None w | _ => Undef end.
(* apps/c_modify.cc:157-163 *)
Fixpoint unfault_loop (l : list stash) (w : world) : outcome world :=
  match l with
  | [] => Done w
  | st :: l' =>
      do w <- restore st w;
      do w <- detach (e_common (s_elem st)) w;
      unfault_loop l' (set_stack l' w)
  end.
Definition unfault (w : world) : outcome world := unfault_loop (w_stack w) w.

(* elements deleted: by the command delete, or when a subcircuit is expanded again (lib/e_card.cc:204-219).  Simplified:
   their commons are not detached here *)
Definition delete_elems (l : list Z) (w : world) : world :=
  World (fun i => w_live w i && negb (existsb (Z.eqb i) l)) (w_elem w) (w_cnt w) (w_stack w).

(* strrchr(label, '.')  lib/findbr.cc:54-64: before and after the last dot *)
Fixpoint cut_last (d : list ascii) : option (list ascii * list ascii) :=
  match d with
  | [] => None
  | c :: d' => match cut_last d' with
               | Some (a, b) => Some (c :: a, b)
               | None => if Ascii.eqb c "." then Some ([], d') else None
               end
  end.

Section Commands.
Variable ci : bool.            (* OPT::case_insensitive *)
Variable u : units.            (* OPT::units *)
Variable pow : Q -> Q -> Q.    (* pow *)
(* the sweep in progress: steps is 0 if there is none  apps/c_sweep.cc:27-30 *)
Variables (swp_steps swp_count : Z) (swp_log : bool).

(* lib/findbr.cc:39-107.  An iterator is what remains of the list it is in, empty at the end.  The label read again
   inside is the same text, because it has no terminators *)
Fixpoint findbranch (n : nat) (wanted : list ascii) (here : list card) : list card :=
  match n, wanted with
  | O, _ => []
  | _, [] => []
  | Datatypes.S n, _ =>
      let '(local, last) := match cut_last wanted with Some (a, b) => (Some a, b) | None => (None, wanted) end in
      (fix loop (here : list card) : list card :=
        match here with
        | [] => []
        | k :: rest =>
            if wmatch ci (label k) last then
              match local with
              | None => here
              | Some loc =>
                  match sub k with
                  | Some l => match findbranch n loc l with [] => loop rest | r => r end
                  | None => loop rest
                  end
              end
            else loop rest
        end) here
  end.
Definition find (wanted : list ascii) (here : list card) : list card := findbranch (Datatypes.S (List.length wanted)) wanted here.

(* apps/c_sweep.cc:37-41: the number of steps as written, kept as the number of intervals *)
Definition sweep_intervals (n : Z) : Z := if n =? 0 then 0 else n - 1.
(* apps/c_modify.cc:68-83: the value between start and last *)
Definition sweep_value (start last : Q) : outcome Q :=
  let offset := (inject_Z swp_count / inject_Z swp_steps)%Q in
  if swp_log then (if Qeq_bool start 0 then Throw else Done (start * pow (last / start) offset)%Q)
  else Done (start + (last - start) * offset)%Q.
(* apps/c_modify.cc:61-89 *)
Definition sweep_fix (s : cs) : outcome (Q * cs) :=
  do (start, s) <- txt (ctof u s);
  if swp_steps =? 0 then Done (start, s)
  else
    do f <- txt (is_float s);
    if f then do (last, s) <- txt (ctof u s); do v <- sweep_value start last; Done (v, s)
    else Done (start, s).

(* include/md.h:71, include/constant.h:108 *)
Definition BUFLEN : nat := 256.
Definition TOKENTERM : list ascii := str ",=()[]".
(* apps/c_modify.cc:98-120, the search for one name; n bounds the rounds *)
Fixpoint each_match (n : nat) (fault : bool) (mark cmax : Z) (here : list card) (s : cs) (w : world) : outcome (Z * cs * world) :=
  match n with
  | O => NoEnd
  | Datatypes.S n =>
      let s := reset mark s in
      do (wanted, s1) <- txt (ctostr BUFLEN TOKENTERM s);
      match find wanted here with
      | [] => let s := reset (cnt s) s1 in Done (Z.max cmax (cnt s), s, w)
      | k :: rest =>
          let cmax := Z.max cmax (cnt s1) in
          do s <- txt (skip1bc "=" s1);
          do (v, s) <- (if fault then sweep_fix s else txt (ctof u s));
          do w <- (if fault then faultbranch k v w else modifybranch k v w);
          each_match n fault mark (Z.max cmax (cnt s)) rest s w
      end
  end.
(* the number of cards in a list with everything inside, for the bound of apps/c_modify.cc:98 *)
Fixpoint weight (c : card) : nat :=
  match c with Card _ _ _ s => Datatypes.S (match s with Some l => (fix go (l : list card) := match l with [] => O | k :: l' => (weight k + go l')%nat end) l | None => O end) end.
Definition weights (l : list card) : nat := fold_right (fun k n => (weight k + n)%nat) O l.
(* apps/c_modify.cc:91-128 *)
Fixpoint modify_fault (n : nat) (fault : bool) (scope : list card) (s : cs) (w : world) : outcome world :=
  match n with
  | O => NoEnd
  | Datatypes.S n =>
      do a <- txt (is_alpha s);
      if a then
        let mark := cnt s in
        do (cmax, s, w) <- each_match (Datatypes.S (weights scope)) fault mark mark scope s w;
        let s := reset cmax s in
        do s <- (if mark =? cmax then do s <- txt (check ci s); txt (skiparg s) else Done s);
        modify_fault n fault scope s w
      else Done w
  end.
(* the commands modify and fault  apps/c_modify.cc:130-144; each round takes a character, so the length is a bound *)
Definition command (fault : bool) (scope : list card) (s : cs) (w : world) : outcome world :=
  modify_fault (Datatypes.S (List.length (cmd s))) fault scope s w.
End Commands.
