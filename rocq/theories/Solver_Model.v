(* The Newton iteration loop: apps/s__solve.cc, the incremental loading of include/e_elemnt.h,
   and the incremental-mode state of include/u_sim_data.h.  Definitions only.

   What the devices compute is not modelled: it enters as an arbitrary stream of events (values
   evaluated, loads queued, flags raised), one entry per iteration.  Everything the loop itself
   does with them is modelled. *)
Require Import ZArith List Bool.
Require Import Verif.Loops Verif.Matrix_Model.
Import ListNotations.
Local Open Scope Z_scope.

(* include/u_sim_data.h:39, 78: enum TRI_STATE {tsNO=0, tsYES=1, tsBAD=-1}; _inc_mode *)
Inductive tri := tsNO | tsYES | tsBAD.
(* include/u_sim_data.h:126 is_inc_mode: conversion to bool, so both YES and BAD are true *)
Definition is_inc (m : tri) : bool := match m with tsNO => false | _ => true end.
(* include/u_sim_data.h:132-138 mark_inc_mode_bad *)
Definition mark_bad (m : tri) : tri := match m with tsYES => tsBAD | tsBAD => tsBAD | tsNO => tsNO end.

Section S.
Variable A : arith.
Notation T := (num A).

(* the options the loop reads: lib/u_opt1.cc:34-110 *)
Record opts := mkopts {
  o_incmode : bool; o_traceload : bool; o_lubypass : bool; o_fbbypass : bool;
  o_itermin : Z; o_trlow : Z; o_sstep : Z;      (* itl[TRLOW], itl[SSTEP] *)
  o_gmin : T; o_dampmax : T; o_dampmin : T; o_dsinit : bool;
  o_noise : T -> T -> bool;   (* include/l_denoise.h:41-46: |z| < |r*roundofftol| *)
  o_lt99 : T -> bool          (* x < .99, s__solve.cc:84 *)
}.

(* where a pair (new value, last loaded value) of a device goes.  The nodes are matrix rows
   (n_(..).m_()), 0 for ground. *)
Inductive place :=
| PInode (o1 o2 i1 : Z)        (* include/e_elemnt.h:213-222 tr_load_inode *)
| PShunt (o1 o2 : Z)           (* 237-245 tr_load_shunt, and the c1 part of 322-330 tr_load_passive *)
| PSource (o1 o2 : Z)          (* 259-279 tr_load_source *)
| PCouple (o1 o2 : Z)          (* 300-308 tr_load_couple *)
| PActive (o1 o2 i1 i2 : Z)    (* 344-353 the c1 part of tr_load_active, 368-378 tr_load_extended *)
| PSourcePoint (n : Z)         (* 387-399 tr_load_source_point *)
| PDiagonal (n : Z)            (* 409-418 tr_load_diagonal_point *)
| PPoint (n1 n2 : Z).          (* 425-434 tr_load_point *)

(* a value to load and the value loaded before (_loss0/_loss1, _m0/_m1, new_value/old_value) *)
Record slot := mkslot { s_place : place; s_new : T; s_old : T }.
(* a device: mfactor(), is_constant(), and its load calls in order.  tr_load_passive is the pair
   PShunt (c1), PSource (c0); tr_load_active is PActive (c1), PSource (c0).  A call that a device
   omits in some of its states is a slot whose values are 0. *)
Record dev := mkdev { d_m : T; d_const : bool; d_slots : list slot }.

(* what is observed of one iteration that loaded and solved; not part of the program *)
Record snap := mksnap {
  sn_full : bool;             (* the arrays were cleared in this iteration *)
  sn_gmin : T;                (* OPT::gmin at that time *)
  sn_mat : mat A;             (* the matrix after load_matrix *)
  sn_rhs : Z -> T;            (* _i after load_matrix *)
  sn_devs : list dev;         (* the devices after load_matrix *)
  sn_lu : data A;             (* the factors used *)
  sn_x : Z -> T               (* _v0 after solve_equations *)
}.

(* the part of SIM_DATA the loop uses, with the devices and the observations *)
Record sim := mksim {
  s_inc : tri; s_iter : Z; s_print : Z; s_total : Z;   (* _inc_mode, _iter[iSTEP/iPRINTSTEP/iTOTAL] *)
  s_damp : T; s_limiting : bool; s_fulldamp : bool; s_conv : bool;  (* _damp, _limiting, _fulldamp, converged *)
  s_mat : mat A; s_rhs : Z -> T; s_v0 : Z -> T;        (* _aa, _i, _v0 *)
  s_devs : list dev; s_loadq : list nat; s_log : list snap
}.
Definition with_inc (m : tri) (x : sim) := mksim m (s_iter x) (s_print x) (s_total x) (s_damp x) (s_limiting x)
  (s_fulldamp x) (s_conv x) (s_mat x) (s_rhs x) (s_v0 x) (s_devs x) (s_loadq x) (s_log x).
Definition with_iters (i p t : Z) (x : sim) := mksim (s_inc x) i p t (s_damp x) (s_limiting x)
  (s_fulldamp x) (s_conv x) (s_mat x) (s_rhs x) (s_v0 x) (s_devs x) (s_loadq x) (s_log x).
Definition with_damp (d : T) (x : sim) := mksim (s_inc x) (s_iter x) (s_print x) (s_total x) d (s_limiting x)
  (s_fulldamp x) (s_conv x) (s_mat x) (s_rhs x) (s_v0 x) (s_devs x) (s_loadq x) (s_log x).
Definition with_flags (l f c : bool) (x : sim) := mksim (s_inc x) (s_iter x) (s_print x) (s_total x) (s_damp x) l
  f c (s_mat x) (s_rhs x) (s_v0 x) (s_devs x) (s_loadq x) (s_log x).
Definition with_sys (M : mat A) (r : Z -> T) (x : sim) := mksim (s_inc x) (s_iter x) (s_print x) (s_total x) (s_damp x)
  (s_limiting x) (s_fulldamp x) (s_conv x) M r (s_v0 x) (s_devs x) (s_loadq x) (s_log x).
Definition with_v0 (v : Z -> T) (x : sim) := mksim (s_inc x) (s_iter x) (s_print x) (s_total x) (s_damp x)
  (s_limiting x) (s_fulldamp x) (s_conv x) (s_mat x) (s_rhs x) v (s_devs x) (s_loadq x) (s_log x).
Definition with_devs (ds : list dev) (x : sim) := mksim (s_inc x) (s_iter x) (s_print x) (s_total x) (s_damp x)
  (s_limiting x) (s_fulldamp x) (s_conv x) (s_mat x) (s_rhs x) (s_v0 x) ds (s_loadq x) (s_log x).
Definition with_loadq (q : list nat) (x : sim) := mksim (s_inc x) (s_iter x) (s_print x) (s_total x) (s_damp x)
  (s_limiting x) (s_fulldamp x) (s_conv x) (s_mat x) (s_rhs x) (s_v0 x) (s_devs x) q (s_log x).
Definition with_log (l : list snap) (x : sim) := mksim (s_inc x) (s_iter x) (s_print x) (s_total x) (s_damp x)
  (s_limiting x) (s_fulldamp x) (s_conv x) (s_mat x) (s_rhs x) (s_v0 x) (s_devs x) (s_loadq x) l.

(* include/l_denoise.h:50-55 dn_diff = fixzero(a-b, a) (41-46) *)
Definition dn_diff (o : opts) (a b : T) : T :=
  let z := nsub A a b in if o_noise o z a then n0 A else z.

(* include/e_elemnt.h:197-211 dampdiff: the value to add, and *v0 afterwards.
   u_sim_data.h:180 is_advance_or_first_iteration: _iter[iSTEP] <= 1 *)
Definition dampdiff (o : opts) (x : sim) (mf new old : T) : T * T :=
  let diff := dn_diff o new old in
  let '(diff, new) := if s_iter x <=? 1 then (diff, new)
                      else (nmul A diff (s_damp x), nadd A old (nmul A diff (s_damp x))) in
  (nmul A mf (if is_inc (s_inc x) then diff else new), new).

(* n_(n).i() += d or -= d, skipped for ground: include/e_elemnt.h:267-275, 391-394.  A row outside
   the array is an access outside _i. *)
Definition add_i (M : mat A) (n : Z) (d : T) (r : Z -> T) : option (Z -> T) :=
  if n =? 0 then Some r else let* v := vget A (size (aa M)) r n in vset A (size (aa M)) r n (nadd A v d).
Definition sub_i (M : mat A) (n : Z) (d : T) (r : Z -> T) : option (Z -> T) :=
  if n =? 0 then Some r else let* v := vget A (size (aa M)) r n in vset A (size (aa M)) r n (nsub A v d).

(* the body of each tr_load_*, see place *)
Definition load_place (p : place) (d : T) (M : mat A) (r : Z -> T) : option (mat A * (Z -> T)) :=
  if nzero A d then Some (M, r) else
  match p with
  | PInode o1 o2 i1 =>
      let* M1 := do_load A (@LCouple A o1 i1 (nsub A (n0 A) d)) M in
      let* M2 := do_load A (@LCouple A o2 i1 d) M1 in Some (M2, r)
  | PShunt o1 o2 => let* M1 := do_load A (@LSym A o1 o2 d) M in Some (M1, r)
  | PSource o1 o2 => let* r1 := add_i M o2 d r in let* r2 := sub_i M o1 d r1 in Some (M, r2)
  | PCouple o1 o2 => let* M1 := do_load A (@LCouple A o1 o2 d) M in Some (M1, r)
  | PActive o1 o2 i1 i2 => let* M1 := do_load A (@LAsym A o1 o2 i1 i2 d) M in Some (M1, r)
  | PSourcePoint n => let* r1 := add_i M n d r in Some (M, r1)
  | PDiagonal n => let* M1 := do_load A (@LDiag A n d) M in Some (M1, r)
  | PPoint n1 n2 => let* M1 := do_load A (@LPoint A n1 n2 d) M in Some (M1, r)
  end.

(* one tr_load_* call: dampdiff, the load, and old = new *)
Definition load_slot (o : opts) (x : sim) (mf : T) (sl : slot) (M : mat A) (r : Z -> T) : option (slot * mat A * (Z -> T)) :=
  let '(d, new) := dampdiff o x mf (s_new sl) (s_old sl) in
  let* Mr := load_place (s_place sl) d M r in
  Some (mkslot (s_place sl) new new, fst Mr, snd Mr).

(* the calls of a device, those for which the mask is true *)
Fixpoint load_slots (o : opts) (x : sim) (mf : T) (mask : nat -> bool) (l : list slot) (M : mat A) (r : Z -> T)
  : option (list slot * mat A * (Z -> T)) :=
  match l with
  | [] => Some ([], M, r)
  | sl :: l' =>
      let* a := if mask 0%nat then load_slot o x mf sl M r else Some (sl, M, r) in
      let '(sl', M1, r1) := a in
      let* b := load_slots o x mf (fun k => mask (S k)) l' M1 r1 in
      let '(l'', M2, r2) := b in
      Some (sl' :: l'', M2, r2)
  end.

Fixpoint set_nth {X} (n : nat) (v : X) (l : list X) : list X :=
  match l, n with
  | [], _ => []
  | _ :: t, O => v :: t
  | h :: t, S k => h :: set_nth k v t
  end.

(* tr_load of device number k (all its calls, or those of an unload) *)
Definition load_dev (o : opts) (mask : nat -> bool) (k : nat) (x : sim) : option sim :=
  let* d := nth_error (s_devs x) k in
  let* a := load_slots o x (d_m d) mask (d_slots d) (s_mat x) (s_rhs x) in
  let '(sl, M, r) := a in
  Some (with_sys M r (with_devs (set_nth k (mkdev (d_m d) (d_const d) sl) (s_devs x)) x)).

(* what devices do during evaluation or advance *)
Inductive event :=
| EEval (k : nat) (f : nat -> T) (q : bool)  (* device k computed new values; q: it called q_load() (e_compon.h:213) *)
| EMark                                      (* _sim->mark_inc_mode_bad() *)
| ELimit                                     (* _sim->_limiting = true *)
| EFulldamp                                  (* _sim->_fulldamp = true *)
| EVolts (v : Z -> T).                       (* node voltages rewritten: s__solve.cc:163 (regress) *)

Fixpoint put_new (f : nat -> T) (l : list slot) : list slot :=
  match l with
  | [] => []
  | sl :: l' => mkslot (s_place sl) (f 0%nat) (s_old sl) :: put_new (fun k => f (S k)) l'
  end.

Definition do_event (e : event) (x : sim) : option sim :=
  match e with
  | EEval k f q =>
      let* d := nth_error (s_devs x) k in
      let x1 := with_devs (set_nth k (mkdev (d_m d) (d_const d) (put_new f (d_slots d))) (s_devs x)) x in
      Some (if q then with_loadq (s_loadq x ++ [k]) x1 else x1)
  | EMark => Some (with_inc (mark_bad (s_inc x)) x)
  | ELimit => Some (with_flags true (s_fulldamp x) (s_conv x) x)
  | EFulldamp => Some (with_flags (s_limiting x) true (s_conv x) x)
  | EVolts v => Some (with_v0 v x)
  end.

(* advance_time (s__solve.cc:151-174) runs tr_advance, tr_regress or dc_advance of every device;
   besides the events above these may unload a device (d_logic.cc:332-372) *)
Inductive aevent :=
| AEv (e : event)
| AUnload (k : nat) (mask : nat -> bool).

Fixpoint zero_new (mask : nat -> bool) (l : list slot) : list slot :=
  match l with
  | [] => []
  | sl :: l' => (if mask 0%nat then mkslot (s_place sl) (n0 A) (s_old sl) else sl) :: zero_new (fun k => mask (S k)) l'
  end.

(* include/e_elemnt.h:224-229, 247-252, 281-286, 310-315, 332-337, 355-360 tr_unload_*:
   the new values become 0, mark_inc_mode_bad(), tr_load_* *)
Definition unload (o : opts) (k : nat) (mask : nat -> bool) (x : sim) : option sim :=
  let* d := nth_error (s_devs x) k in
  let x1 := with_devs (set_nth k (mkdev (d_m d) (d_const d) (zero_new mask (d_slots d))) (s_devs x)) x in
  load_dev o mask k (with_inc (mark_bad (s_inc x1)) x1).

Definition do_aevent (o : opts) (e : aevent) (x : sim) : option sim :=
  match e with
  | AEv e => do_event e x
  | AUnload k mask => unload o k mask x
  end.

(* apps/s__solve.cc:182-202 set_flags; _bypass_ok only decides which devices evaluate, so it is
   part of the event stream *)
Definition set_flags (o : opts) (x : sim) : sim :=
  let x := with_flags false false (s_conv x) x in
  if negb (o_incmode o) then with_inc tsNO x
  else match s_inc x with
       | tsBAD => with_inc tsNO x
       | _ => if s_iter x =? o_trlow o then with_inc tsNO x
              else if s_iter x =? 0 then x
              else with_inc tsYES x
       end.

(* apps/s__solve.cc:204-213 clear_arrays; fill_n of size+1 entries of _i *)
Definition clear_arrays (o : opts) (x : sim) : option sim :=
  if is_inc (s_inc x) then Some x
  else
    let M := s_mat x in
    let* D := dezero A (o_gmin o) (zero A (aa M)) in
    Some (with_sys (mkmat D (lu M) (changed M) (min_pivot M)) (fun i => if i <=? size D then n0 A else s_rhs x i) x).

(* apps/s__solve.cc:50-58, 65-81: the devices' events and verdict of one iteration *)
Record step := mkstep { st_events : list event; st_conv : bool }.

(* apps/s__solve.cc:240-252 set_damp *)
Definition set_damp (o : opts) (x : sim) : sim :=
  if (s_iter x =? 2) && negb (s_conv x) && o_dsinit o then with_damp (o_dampmin o) x
  else if (s_iter x =? 1) || s_conv x then with_damp (o_dampmax o) x
  else if s_fulldamp x then with_damp (o_dampmin o) x
  else with_damp (o_dampmax o) x.

Definition all (_ : nat) : bool := true.
(* lib/e_cardlist.cc:340-358 CARD_LIST::tr_load; nested lists are flattened *)
Definition load_all (o : opts) (x : sim) : option sim :=
  foldM (fun k y => let* d := nth_error (s_devs y) k in
                    if is_inc (s_inc y) && d_const d then Some y else load_dev o all k y)
        (seq 0 (length (s_devs x))) x.
(* apps/s__solve.cc:254-272 load_matrix: the queue is taken from the back *)
Definition load_matrix (o : opts) (x : sim) : option sim :=
  if o_traceload o && is_inc (s_inc x) then
    let* y := foldM (load_dev o all) (rev (s_loadq x)) x in Some (with_loadq [] y)
  else load_all o (with_loadq [] x).

(* apps/s__solve.cc:274-283 solve_equations; full records, for the observation, whether the arrays
   were cleared *)
Definition solve_equations (o : opts) (full : bool) (x : sim) : option sim :=
  let* M := lu_decomp A (o_lubypass o && is_inc (s_inc x)) (s_mat x) in
  let* v := fbsub3 A (lu M) (s_rhs x) (s_v0 x) in
  Some (with_log (mksnap full (o_gmin o) (s_mat x) (s_rhs x) (s_devs x) (lu M) v :: s_log x)
         (with_v0 v (with_sys M (s_rhs x) x))).

(* apps/s__solve.cc:55-90: one pass of the loop.  cc is convergedcount.  set_limit() (72) changes
   only the voltage limits, which the devices read. *)
Definition iteration (o : opts) (st : step) (x : sim) (cc : Z) : option (sim * Z) :=
  let x1 := set_flags o x in
  let full := negb (is_inc (s_inc x1)) in
  let* x2 := clear_arrays o x1 in
  let x3 := with_iters (s_iter x2 + 1) (s_print x2 + 1) (s_total x2 + 1) x2 in
  let* x4 := foldM do_event (st_events st) x3 in
  let cc1 := if st_conv st then (if s_limiting x4 then 0 else cc + 1) else 0 in
  let conv := if cc1 <=? o_itermin o then false else st_conv st in
  let x5 := with_flags (s_limiting x4) (s_fulldamp x4) conv x4 in
  if negb conv || negb (o_fbbypass o) || o_lt99 o (s_damp x5) then
    let x6 := set_damp o x5 in
    let* x7 := load_matrix o x6 in
    let* x8 := solve_equations o full x7 in
    Some (x8, cc1)
  else Some (with_loadq [] x5, cc1).

(* the devices' behaviour for the whole run: a function of _iter[iTOTAL], which never repeats
   within a run *)
Record world := mkworld { w_adv : Z -> list aevent; w_step : Z -> step }.

(* apps/s__solve.cc:54-91 the do-while loop; None stands for running out of fuel too *)
Fixpoint loop (fuel : nat) (o : opts) (itl : Z) (w : world) (x : sim) (cc : Z) : option sim :=
  match fuel with
  | O => None
  | S n =>
      let* a := iteration o (w_step w (s_total x)) x cc in
      let '(y, cc1) := a in
      if negb (s_conv y) && negb (itl <? s_iter y) then loop n o itl w y cc1 else Some y
  end.

(* apps/s__solve.cc:42-94 solve(itl), itl being the value of OPT::itl[..]; the assert at 44 *)
Definition solve (o : opts) (itl : Z) (w : world) (x : sim) : option sim :=
  match s_loadq x with
  | [] =>
      let x1 := with_iters 0 (s_print x) (s_total x) (with_flags (s_limiting x) (s_fulldamp x) false x) in
      let* x2 := foldM (do_aevent o) (w_adv w (s_total x1)) x1 in
      loop (Z.to_nat (itl + 2)) o itl w (with_damp (o_dampmax o) x2) 0
  | _ :: _ => None
  end.

(* the numbers of the homotopy: 1, 3.5, 4 and the comparison of gmin *)
Record consts := mkconsts { c_one : T; c_35 : T; c_4 : T; c_gt : T -> T -> bool }.
Definition with_gmin (g : T) (it : Z) (o : opts) := mkopts (o_incmode o) (o_traceload o) (o_lubypass o) (o_fbbypass o)
  it (o_trlow o) (o_sstep o) g (o_dampmax o) (o_dampmin o) (o_dsinit o) (o_noise o) (o_lt99 o).

(* apps/s__solve.cc:104-116 *)
Fixpoint homotopy (fuel : nat) (cs : consts) (o : opts) (itl : Z) (w : world) (g : T) (x : sim) : option sim :=
  if (s_print x <? o_sstep o) && c_gt cs g (o_gmin o) then
    match fuel with
    | O => None
    | S n =>
        let* y := solve (with_gmin g 0 o) itl w (with_inc tsNO x) in
        homotopy n cs o itl w (if s_conv y then ndiv A g (c_4 cs) else nmul A g (c_35 cs)) y
    end
  else Some x.

(* apps/s__solve.cc:96-129 solve_with_homotopy *)
Definition solve_with_homotopy (cs : consts) (o : opts) (itl : Z) (w : world) (x : sim) : option sim :=
  let* y := solve o itl w x in
  if negb (s_conv y) && (0 <? o_sstep o) then
    let* z := homotopy (Z.to_nat (o_sstep o - s_print y)) cs o itl w (c_one cs) y in
    solve o itl w z
  else Some y.

(* what an analysis does around the solves *)
Inductive cmd :=
| CSolve (o : opts) (itl : Z)
| CHomotopy (cs : consts) (o : opts) (itl : Z)
| CBad                                  (* set_inc_mode_bad(): s_dc.cc:452, s_tr_swp.cc:93 *)
| COutside (o : opts) (es : list aevent) (p : Z).
    (* anything the devices do between solves (accept, restore, begin, review; also
       mark_inc_mode_bad at s_tr_swp.cc:508,527,541), with the load queue empty afterwards, as the
       assert at s__solve.cc:44 demands and s_tr_swp.cc:122 arranges; p is the iPRINTSTEP
       counter, which printing resets *)

Definition do_cmd (w : world) (c : cmd) (x : sim) : option sim :=
  match c with
  | CSolve o itl => solve o itl w x
  | CHomotopy cs o itl => solve_with_homotopy cs o itl w x
  | CBad => Some (with_inc tsBAD x)
  | COutside o es p =>
      let* y := foldM (do_aevent o) es x in
      Some (with_loadq [] (with_iters (s_iter y) p (s_total y) y))
  end.
End S.
