(* Logic values, gates and logic nodes: include/e_logicval.h, lib/e_logicval.cc,
   lib/e_logicnode.cc, include/e_logicnode.h, apps/d_logic.cc.
   double is modelled by exact rationals; a failed assert or unreachable() is None. *)
Require Import ZArith QArith List Bool.
Require Import Verif.Qnum Verif.Loops.
Import ListNotations.
Local Open Scope Q_scope.

(* enum _LOGICVAL  include/e_logicval.h:29 *)
Inductive LV := S0 | R | F | S1 | U.
(* the index of a value in the tables (the enum order) *)
Definition lv_index (a : LV) : nat := match a with S0 => 0 | R => 1 | F => 2 | S1 => 3 | U => 4 end.
Definition lv_eqb (a b : LV) : bool := Nat.eqb (lv_index a) (lv_index b).

(* lib/e_logicval.cc:27-33 *)
Definition or_truth : list (list LV) :=
  [ [S0; R; F; S1; U] ; [R; R; R; S1; R] ; [F; R; F; S1; U] ; [S1; S1; S1; S1; S1] ; [U; R; U; S1; U] ].
(* lib/e_logicval.cc:35-41 *)
Definition xor_truth : list (list LV) :=
  [ [S0; R; F; S1; U] ; [R; F; R; F; U] ; [F; R; F; R; U] ; [S1; F; R; S0; U] ; [U; U; U; U; U] ].
(* lib/e_logicval.cc:43-49 *)
Definition and_truth : list (list LV) :=
  [ [S0; S0; S0; S0; S0] ; [S0; R; F; R; U] ; [S0; F; F; F; F] ; [S0; R; F; S1; U] ; [S0; U; F; U; U] ].
(* lib/e_logicval.cc:51-53 *)
Definition not_truth : list LV := [S1; F; R; S0; U].
(* lib/e_logicval.cc:55-61 *)
Definition prop_truth : list (list LV) :=
  [ [S0; U; U; R; U] ; [F; U; U; R; U] ; [F; U; U; R; U] ; [F; U; U; S1; U] ; [F; U; U; R; U] ].
(* table[a][b] *)
Definition look (t : list (list LV)) (a b : LV) : LV := nth (lv_index b) (nth (lv_index a) t []) U.

(* operator&=, |=, ^=, ~  include/e_logicval.h:50-56 *)
Definition lv_and := look and_truth.
Definition lv_or := look or_truth.
Definition lv_xor := look xor_truth.
Definition lv_not (a : LV) : LV := nth (lv_index a) not_truth U.
(* lv_future, lv_old  include/e_logicval.h:59-60: bits 0 and 1 of the enum value; the assert
   excludes unknown *)
Definition lv_future (a : LV) : option bool :=
  match a with U => None | _ => Some (Nat.odd (lv_index a)) end.
Definition lv_old (a : LV) : option bool :=
  match a with U => None | _ => Some (Nat.odd (Nat.div2 (lv_index a))) end.
(* set_in_transition  include/e_logicval.h:68-73 *)
Definition set_in_transition (a v : LV) : option LV :=
  match look prop_truth a v with U => None | r => Some r end.

(* the gates  apps/d_logic.cc:118-236 *)
Inductive gate := gAND | gNAND | gOR | gNOR | gXOR | gXNOR | gINV.
(* logic_eval(n, incount): [n] are the values of the inputs; with no input n[0] is outside *)
Definition logic_eval (g : gate) (n : list LV) : option LV :=
  match n with
  | [] => None
  | a :: r =>
      Some (match g with
      | gAND => fold_left lv_and r a
      | gNAND => lv_not (fold_left lv_and r a)
      | gOR => fold_left lv_or r a
      | gNOR => lv_not (fold_left lv_or r a)
      | gXOR => fold_left lv_xor r a
      | gXNOR => lv_not (fold_left lv_xor r a)
      | gINV => lv_not a
      end)
  end.

(* ---------- nodes ---------- *)

(* the logic model card  include/e_logicmod.h:49-67 (delay, vmax, vmin, unknown, rise, fall,
   th1, th0, mr, mf, over), and OPT::transits *)
Record lmodel := mkL { l_delay : Q; vmax : Q; vmin : Q; vunk : Q; lrise : Q; lfall : Q;
                       th1 : Q; th0 : Q; mr : Q; mf : Q; over : Q; transits : Z }.
(* range = vmax - vmin  include/e_logicmod.h:67 *)
Definition range (m : lmodel) : Q := vmax m - vmin m.

(* LOGIC_NODE  include/e_logicnode.h:36-46, without the iteration tags, the family pointer and
   the text of the failure; _final_time None is NEVER *)
Record lnode := mkN { n_lv : LV; n_old : LV; n_final : option Q; n_last : Q; n_oldlast : Q; n_q : Z }.

(* in_transit  include/e_logicnode.h:70 *)
Definition in_transit (n : lnode) : bool := match n_final n with Some _ => true | None => false end.
(* store_old_last_change_time, store_old_lv  90-91 *)
Definition store_old (n : lnode) : lnode := mkN (n_lv n) (n_lv n) (n_final n) (n_last n) (n_last n) (n_q n).

(* LOGIC_NODE::set_event  lib/e_logicnode.cc:309-327; [ft] is the time returned by new_event,
   [dynamic] is analysis_is_tran_dynamic *)
Definition set_event (now ft : Q) (dynamic : bool) (v : LV) (n : lnode) : option lnode :=
  let* l := set_in_transition (n_lv n) v in
  Some (mkN l (n_old n) (Some ft) now (n_oldlast n) (if dynamic && in_transit n then 0%Z else n_q n)).

(* LOGIC_NODE::propagate  268-282 *)
Definition propagate (now : Q) (n : lnode) : option lnode :=
  if in_transit n then
    Some (mkN (match n_lv n with R => S1 | F => S0 | l => l end) (n_old n) None now (n_oldlast n) (n_q n))
  else None.
(* LOGIC_NODE::unpropagate  284-290 *)
Definition unpropagate (n : lnode) : lnode :=
  mkN (n_old n) (n_old n) (Some (n_last n)) (n_oldlast n) (n_oldlast n) (n_q n).

(* DEV_LOGIC::tr_advance, digital  apps/d_logic.cc:379-389 *)
Definition digital_advance (now : Q) (n : lnode) : option lnode :=
  match n_final n with
  | Some ft => if qleb ft now then propagate now n else Some n
  | None => Some n
  end.
(* DEV_LOGIC::tr_regress, digital  409-419 *)
Definition digital_regress (now : Q) (n : lnode) : option lnode :=
  if qltb now (n_last n) then
    let n' := unpropagate n in
    match n_final n' with Some ft => if qltb now ft then Some n' else None | None => Some n' end
  else
    match n_final n with
    | Some ft => if qleb ft now then propagate now n else Some n
    | None => Some n
    end.

(* LOGIC_NODE::to_analog  lib/e_logicnode.cc:224-266; NEVER is later than any time *)
Definition to_analog (m : lmodel) (now : Q) (n : lnode) : Q :=
  let ramp (start stop rf : Q) :=
    match n_final n with
    | None => start
    | Some ft =>
        if qleb now (ft - rf) then start
        else if qleb ft now then stop
        else stop - (stop - start) * (ft - now) / rf
    end in
  match n_lv n with
  | S0 => vmin m
  | R => ramp (vmin m) (vmax m) (lrise m)
  | F => ramp (vmax m) (vmin m) (lfall m)
  | S1 => vmax m
  | U => vunk m
  end.

(* newly_stable  lib/e_logicnode.cc:69-76 *)
Definition newly_stable (old new : LV) : bool :=
  match old, new with
  | S0, S1 | R, S1 | F, S0 | S1, S0 | U, S0 | U, S1 => true
  | _, _ => false
  end.

(* LOGIC_NODE::to_logic for an analog node that is out of date  lib/e_logicnode.cc:103-221.
   [static]: analysis_is_static or restore.  v0, vt1: the new and the old voltage.  None: the
   exception of line 120. *)
Definition to_logic (m : lmodel) (static : bool) (now v0 vt1 : Q) (n : lnode) : option lnode :=
  (* 108-113 *)
  let n := if static then mkN U (n_old n) (n_final n) 0 0 (n_q n) else n in
  let dt := now - n_last n in
  (* 114-128 *)
  let* nd :=
    if qltb dt 0 then
      let dt := now - n_oldlast n in
      if qleb dt 0 then None
      else Some (mkN (n_old n) (n_old n) (n_final n) (n_last n) (n_oldlast n) (n_q n), dt)
    else Some (store_old n, dt) in
  let (n, dt) := nd in
  let bad := 0%Z in let keepq := n_q n in
  let sv := v0 / range m in
  (* 131-208: the new value and the new quality *)
  let (l, q) :=
    if qleb (th1 m) sv then
      (S1, match n_lv n with F => bad | U => transits m | _ => keepq end)
    else if qleb sv (th0 m) then
      (S0, match n_lv n with R => bad | U => transits m | _ => keepq end)
    else
      let diff := sv - vt1 / range m in
      if qltb 0 diff then
        (R, match n_lv n with
            | S0 => keepq
            | R => if qltb diff (dt / (mr m * lrise m)) then bad else keepq
            | _ => bad end)
      else if qltb diff 0 then
        (F, match n_lv n with
            | S1 => keepq
            | F => if qltb (- diff) (dt / (mf m * lfall m)) then bad else keepq
            | _ => bad end)
      else (n_lv n, bad) in
  (* 209-211 *)
  let q := if qltb (1 + over m) sv || qltb sv (- over m) then bad else q in
  (* 212-214: improve_quality *)
  let q := if newly_stable (n_old n) l then if Z.ltb q (transits m) then (q + 1)%Z else q else q in
  Some (mkN l (n_old n) (n_final n) now (n_oldlast n) q).

(* the digital part of DEV_LOGIC::tr_accept  apps/d_logic.cc:617-668, when an input changed or
   the analysis is static: [inputs] are the values of the input nodes, [ft] what new_event
   returns for now + delay *)
Definition accept_digital (g : gate) (inputs : list LV) (static : bool) (now ft : Q) (q_good : Z) (n : lnode) : option lnode :=
  let* fs := logic_eval g inputs in
  let* n1 :=
    if (match n_lv n with U => true | _ => false end) && static then
      (* force_initial_value  lib/e_logicnode.cc:292-307, and store_old_lv *)
      if qeqb now 0 then Some (mkN fs fs None now (n_oldlast n) q_good) else None
    else if lv_eqb fs (n_lv n) then Some n
    else
      match fs with
      | U => None
      | _ =>
          let fs' := match fs with R => S0 | F => S1 | l => l end in
          match lv_future fs', lv_future (n_lv n) with
          | Some a, Some b => if Bool.eqb a b then Some n else set_event now ft (negb static) fs' n
          | _, _ => set_event now ft (negb static) fs' n
          end
      end in
  Some (store_old n1).
