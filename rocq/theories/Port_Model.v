(* The impedance and power probes: include/e_aux.h:29-54, lib/e_elemnt.cc:376-478 (p, pd, ps, z, zraw),
   lib/e_node.cc:120-121, 157-160 (z).  Definitions only.

   Numbers are those of an arbitrary field (exA K); division by zero is None (a double would give an
   infinity or NaN, which the probe shows). *)
Require Import ZArith List Bool.
Require Import Verif.Loops Verif.FieldSums Verif.Matrix_Model Verif.Matrix_Exact Verif.Solver_Model Verif.Storage_Model Verif.Elements_Model Verif.AC_Model.
Import ListNotations.
Local Open Scope Z_scope.

Section S.
Variable K : fld.
Notation T := (F K).
Notation A := (exA K).

(* port_impedance: the array that is solved for  include/e_aux.h:33-45.  The second assignment
   overwrites the first when the nodes are the same *)
Definition zapit (n1 n2 : Z) : Z -> T :=
  let a := fun _ : Z => f0 K in
  let b := if n1 =? 0 then a else fun k => if k =? n1 then f1 K else a k in
  if n2 =? 0 then b else fun k => if k =? n2 then fopp K (f1 K) else b k.
(* 1./x *)
Definition recip (x : T) : option T := if fz K x then None else Some (fdiv K (f1 K) x).
(* port_impedance  include/e_aux.h:29-54.  D: what mat.fbsub substitutes in, the factors
   (include/m_matrix_solver.h:70-72 for _aa, 147-149 for _acx) *)
Definition port_impedance (D : data A) (n1 n2 : Z) (parallel : T) : option T :=
  let* x := fbsub1 A D (zapit n1 n2) in
  let raw := fsub K (x n1) (x n2) in
  if fz K parallel then Some raw
  else let* g := recip raw in recip (fsub K g parallel).

(* NODE::tr_probe_num, ac_probe_ext "z "  lib/e_node.cc:120-121, 157-160 *)
Definition node_z (D : data A) (n : Z) : option T := port_impedance D n 0 (f0 K).

Section El.
Variable short : T.
Variable leb : T -> T -> bool.
(* ELEMENT::tr_probe_num "z ", "zraw "  lib/e_elemnt.cc:432-435; mf: mfactor() *)
Definition probe_z (e : element K) (mf : T) (D : data A) : option T :=
  let* s := eval K short leb e in
  port_impedance D (fst (outs K e)) (snd (outs K e)) (fmul K mf (fadd K (cc1 K (e_m K s)) (e_loss K s))).
Definition probe_zraw (e : element K) (D : data A) : option T := port_impedance D (fst (outs K e)) (snd (outs K e)) (f0 K).
(* ELEMENT::ac_probe_ext "z ", "zraw "  lib/e_elemnt.cc:449, 471-474 *)
Definition probe_z_ac (small : T -> bool) (jw : T) (op : bool) (x : ael K) (mf : T) (D : data A) : option T :=
  let* p := ac_state K short leb small jw op x in
  let admittance := if is_source K (ae K x) then v_loss K (fst p) else fadd K (v_acg K (fst p)) (v_loss K (fst p)) in
  port_impedance D (fst (outs K (ae K x))) (snd (outs K (ae K x))) (fmul K mf admittance).
(* ELEMENT::tr_probe_num "p ", "pd ", "ps "  lib/e_elemnt.cc:384-391; tr_outvolts is the voltage
   across the output nodes (include/e_elemnt.h:143) *)
Definition probe_p (e : element K) (x : Z -> T) : option T :=
  let* i := tr_amps K short leb e x in Some (fmul K i (dv K x (outs K e))).
Definition probe_pd (e : element K) (x : Z -> T) : option T :=
  let* p := probe_p e x in Some (if ltb K leb (f0 K) p then p else f0 K).
Definition probe_ps (e : element K) (x : Z -> T) : option T :=
  let* p := probe_p e x in Some (if ltb K leb p (f0 K) then fopp K p else f0 K).
End El.
End S.
