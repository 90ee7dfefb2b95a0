(* lib/u_nodemap.cc, include/u_nodemap.h: NODE_MAP. *)
Require Import ZArith List Ascii String Bool.
Require Import Verif.Loops Verif.Wmatch_Model Verif.CS_Model Verif.AMap.
Import ListNotations.
Local Open Scope Z_scope.

(* a NODE object: its address, its name and its user number (include/e_node.h); simulation data of
   the node is not modelled *)
Record node := Node { addr : nat; nname : key; nnum : Z }.

(* the map, null pointers included, and the next free address *)
Record nmap := NMap { entries : amap (option node); next_addr : nat }.

Definition zero_name : key := str "0".
(* lib/u_nodemap.cc:28 *)
Definition ground_node : node := Node 0 zero_name 0.
(* lib/u_nodemap.cc:30-34 *)
Definition empty_map : nmap := NMap [(zero_name, Some ground_node)] 1.

(* include/u_nodemap.h:47 *)
Definition how_many (m : nmap) : Z := Z.of_nat (List.length (entries m)) - 1.

(* notstd::to_lower (include/l_stlextra.h) *)
Definition lower (s : key) : key := map to_lower s.

(* lib/u_nodemap.cc:66-78 operator[]; None is nullptr *)
Definition lookup (ci : bool) (s : key) (m : nmap) : option node :=
  match find (entries m) s with
  | Some p => p
  | None => if ci then match find (entries m) (lower s) with Some p => p | None => None end else None
  end.

(* std::map::operator[]: inserts a null pointer when the key is absent *)
Definition ref (m : amap (option node)) (s : key) : amap (option node) * option node :=
  match find m s with Some p => (m, p) | None => (put m s None, None) end.

(* lib/u_nodemap.cc:83-99 new_node *)
Definition new_node (ci : bool) (s : key) (m : nmap) : nmap * node :=
  let s := if ci then lower s else s in
  let (es, p) := ref (entries m) s in
  match p with
  | Some n => (NMap es (next_addr m), n)
  | None =>
    let n := Node (next_addr m) s (how_many (NMap es (next_addr m))) in
    (NMap (put es s (Some n)) (S (next_addr m)), n)
  end.
