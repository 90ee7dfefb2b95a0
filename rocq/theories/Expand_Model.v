(* Flattening of subcircuits and numbering of nodes: lib/e_cardlist.cc map_subckt_nodes,
   lib/e_node.cc node_t, lib/d_subckt.cc expand, lib/u_sim_data.cc map__nodes. *)
Require Import ZArith List Bool.
Require Import Verif.Loops Verif.Wmatch_Model Verif.CS_Model Verif.AMap Verif.Nodemap_Model.
Import ListNotations.
Local Open Scope Z_scope.

(* outcome of a call: a value, an exception, undefined behaviour or a failed assert *)
Inductive out (A : Type) : Type := Done (a : A) | Raise | Undef.
Arguments Done {A} a. Arguments Raise {A}. Arguments Undef {A}.
Definition obind {A B} (x : out A) (f : A -> out B) : out B :=
  match x with Done a => f a | Raise => Raise | Undef => Undef end.
Notation "'do' x '<-' e ';' k" := (obind e (fun x => k)) (at level 200, x pattern, e at level 100, k at level 200).

(* include/e_node.h:36 *)
Definition INVALID_NODE : Z := -1.

(* What a card is, as far as nodes go: a device; an inductor that takes part in a coupling, which
   makes a node of its own when expanded (apps/d_coil.cc:230-241); an instance of the k-th
   prototype (the result of find_looking_out, lib/d_subckt.cc:222-236, not modelled); a model
   card, which has no nodes.  Other devices that make nodes are not modelled. *)
Inductive kind := Plain | Coil | Inst (k : nat) | ModelCard.
(* its connections, n_(0) .. n_(net_nodes()-1), each given by e_() (include/e_node.h:126-128) *)
Record cdef := CDef { ckind : kind; cnodes : list Z }.
(* a prototype (.subckt): e_() of its own ports, nodes()->how_many(), the cards to be copied
   (lib/e_cardlist.cc:507-519: devices and model cards) *)
Record proto := Proto { pports : list Z; phow : Z; pcards : list cdef }.
(* an expanded card: t_() of its connections and of the nodes it made, and its subckt() *)
Inductive ecard := ECard (what : kind) (ts own : list Z) (sub : list ecard).

(* include/u_sim_data.h:69-72 *)
Record counts := Counts { user_nodes : Z; subckt_nodes : Z; model_nodes : Z; total_nodes : Z }.
(* include/u_sim_data.h:121-123 *)
Definition init_node_count (u s m : Z) : counts := Counts u s m (u + s + m).
(* include/u_sim_data.h:124 *)
Definition newnode_subckt (c : counts) : Z * counts :=
  (total_nodes c + 1, Counts (user_nodes c) (subckt_nodes c + 1) (model_nodes c) (total_nodes c + 1)).
(* include/u_sim_data.h:125 *)
Definition newnode_model (c : counts) : Z * counts :=
  (total_nodes c + 1, Counts (user_nodes c) (subckt_nodes c) (model_nodes c + 1) (total_nodes c + 1)).

(* lib/d_subckt.cc:44,72-74: n_(i).t_() of an instance with connections ts; the others are
   default node_t, lib/e_node.cc:75-80 *)
Definition PORTS_PER_SUBCKT : Z := 100.
Definition inst_node (ts : list Z) (i : Z) : out Z :=
  if (0 <=? i) && (i <? PORTS_PER_SUBCKT) then Done (nth (Z.to_nat i) ts INVALID_NODE) else Undef.

(* lib/e_cardlist.cc:549-553, the array filled from place i on *)
Fixpoint fill_ports (n : nat) (i : Z) (ts : list Z) (m : Z -> Z) : out (Z -> Z) :=
  match n with
  | O => Done m
  | S n' => do t <- inst_node ts (i - 1); fill_ports n' (i + 1) ts (upd m i t)
  end.
(* lib/e_cardlist.cc:556-560 *)
Fixpoint fill_internal (n : nat) (i : Z) (m : Z -> Z) (c : counts) : (Z -> Z) * counts :=
  match n with
  | O => (m, c)
  | S n' => let (t, c') := newnode_subckt c in fill_internal n' (i + 1) (upd m i t) c'
  end.

(* include/e_node.h:95-104 *)
Definition node_is_valid (c : counts) (i : Z) : bool := (0 <=? i) && (i <=? total_nodes c).
(* lib/e_node.cc:205-219; m has places 0..how *)
Definition map_subckt_node (how : Z) (m : Z -> Z) (c : counts) (e : Z) : out Z :=
  if e =? INVALID_NODE then Raise
  else if (0 <=? e) && (e <=? how) then (if node_is_valid c (m e) then Done (m e) else Raise)
  else Undef.
Fixpoint mapM {A B} (f : A -> out B) (l : list A) : out (list B) :=
  match l with [] => Done [] | a :: l' => do b <- f a; do bs <- mapM f l'; Done (b :: bs) end.
(* lib/e_cardlist.cc:571-586 for one card; what is not a device has no connections *)
Definition map_card (how : Z) (m : Z -> Z) (c : counts) (d : cdef) : out (kind * list Z) :=
  match ckind d with
  | ModelCard => Done (ModelCard, [])
  | k => do ts <- mapM (map_subckt_node how m c) (cnodes d); Done (k, ts)
  end.

(* lib/e_cardlist.cc:522-588 map_subckt_nodes, called by the constructor, 40-57: the copied cards
   with their connections mapped.  The array is uninitialized (0 here) until filled. *)
Definition map_subckt_nodes (p : proto) (ts : list Z) (c : counts) : out (list (kind * list Z) * counts) :=
  let nports := Z.of_nat (length (pports p)) in
  if negb (nports <=? phow p) then Undef (* 535 *)
  else if negb (forallb (fun e => e <=? phow p) (pports p)) then Undef (* 541 *)
  else
    do m <- fill_ports (length (pports p)) 1 ts (fun _ => 0);
    let (m, c) := fill_internal (Z.to_nat (phow p - nports)) (nports + 1) m c in
    do cards <- mapM (map_card (phow p) m c) (pcards p);
    Done (cards, c).

Section EXPAND.
  Variable protos : list proto.
  (* one card, given how to expand the list of cards inside an instance: lib/d_subckt.cc:217-251,
     apps/d_coil.cc:230-241 *)
  Definition expand_card (inner : list (kind * list Z) -> counts -> out (list ecard * counts))
      (k : kind) (ts : list Z) (c : counts) : out (ecard * counts) :=
    match k with
    | Plain | ModelCard => Done (ECard k ts [] [], c)
    | Coil => let (t, c) := newnode_model c in Done (ECard k ts [t] [], c)
    | Inst i =>
      match nth_error protos i with
      | None => Raise
      | Some p =>
        do (sub, c) <- map_subckt_nodes p ts c;
        do (sub, c) <- inner sub c;
        Done (ECard k ts [] sub, c)
      end
    end.
  (* lib/e_cardlist.cc:166-185 expand, third loop; nothing else in it makes nodes *)
  Fixpoint expand_list (inner : list (kind * list Z) -> counts -> out (list ecard * counts))
      (cards : list (kind * list Z)) (c : counts) : out (list ecard * counts) :=
    match cards with
    | [] => Done ([], c)
    | (k, ts) :: rest =>
      do (e, c) <- expand_card inner k ts c;
      do (es, c) <- expand_list inner rest c;
      Done (e :: es, c)
    end.
  (* nesting without end is a stack overflow: out of fuel *)
  Fixpoint expand (fuel : nat) (cards : list (kind * list Z)) (c : counts) : out (list ecard * counts) :=
    match fuel with O => Undef | S fuel' => expand_list (expand fuel') cards c end.
  (* lib/u_sim_data.cc:271-272: the top level; t_() of its nodes is the user number
     (lib/e_node.cc:180-190) *)
  Definition expand_top (fuel : nat) (users : Z) (cards : list cdef) : out (list ecard * counts) :=
    expand fuel (map (fun d => (ckind d, match ckind d with ModelCard => [] | _ => cnodes d end)) cards)
           (init_node_count users 0 0).
End EXPAND.

(* ---------- ordering ---------- *)
(* include/u_opt.h: enum order_t *)
Inductive order_t := oREVERSE | oFORWARD | oAUTO.
(* lib/u_sim_data.cc:229-235, 240-246, 251-257: the array _nm[0..total]; 0 stands for what is not yet
   written *)
Definition order_reverse (total : Z) : option (Z -> Z) :=
  for_up 1 (total + 1) (fun node nm => Some (upd nm node (total - node + 1))) (upd (fun _ => 0) 0 0).
Definition order_forward (total : Z) : option (Z -> Z) :=
  for_up 1 (total + 1) (fun node nm => Some (upd nm node node)) (upd (fun _ => 0) 0 0).
Definition order_auto (total : Z) : option (Z -> Z) :=
  for_up 1 (total + 1) (fun node nm => Some (upd nm node (total - node + 1))) (upd (fun _ => 0) 0 0).
(* lib/u_sim_data.cc:211-224 *)
Definition map__nodes (o : order_t) (total : Z) : option (Z -> Z) :=
  match o with oAUTO => order_auto total | oREVERSE => order_reverse total | oFORWARD => order_forward total end.
(* lib/u_sim_data.cc:298-301: user number recorded at each place of _nstat *)
Definition nstat_numbers (total : Z) (nm : Z -> Z) : option (Z -> Z) :=
  for_up 0 (total + 1)
    (fun ii st => if (0 <=? nm ii) && (nm ii <=? total) then Some (upd st (nm ii) ii) else None)
    (fun _ => INVALID_NODE).
(* include/e_node.h:105-109, 141-149: node_t::map, the matrix number of a connection *)
Definition map_node (c : counts) (nm : Z -> Z) (t : Z) : option Z :=
  if t =? INVALID_NODE then Some INVALID_NODE else if node_is_valid c t then Some (nm t) else None.

(* ---------- header of a subcircuit ---------- *)
(* apps/lang_spice.cc:225-299 parse_ports with all_new, on the names read so far, with
   lib/e_compon.cc:473-486 set_port_by_index and node_t::new_node (lib/e_node.cc:180-190):
   the node in place `index` is overwritten, _net_nodes never shrinks.  The list is e_() of
   n_(0) .. n_(net_nodes()-1).  Names that run past the limit of ports are not modelled. *)
Fixpoint put_at (l : list Z) (i : nat) (v : Z) : list Z :=
  match l, i with
  | [], O => [v]
  | [], S i' => INVALID_NODE :: put_at [] i' v
  | _ :: l', O => v :: l'
  | x :: l', S i' => x :: put_at l' i' v
  end.
Fixpoint header (ci : bool) (names : list key) (index : nat) (ports : list Z) (m : nmap) : list Z * nmap :=
  match names with
  | [] => (ports, m)
  | s :: rest =>
    let (m', nd) := new_node ci s m in
    let ports' := put_at ports index (nnum nd) in
    let index' :=
      if nnum nd =? 0 then index (* node 0 not allowed here *)
      else if negb (how_many m' =? Z.of_nat index + 1) then index (* duplicate port name, skipping *)
      else S index in
    header ci rest index' ports' m'
  end.
Definition subckt_header (ci : bool) (names : list key) : list Z * nmap := header ci names 0 [] empty_map.
