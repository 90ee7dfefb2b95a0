(* Voltage and current controlled switches: apps/d_switch.cc (SWITCH_BASE).
   double is modelled by exact rationals; a failed assert is None. *)
Require Import ZArith QArith List Bool.
Require Import Verif.Qnum Verif.Loops.
Import ListNotations.
Local Open Scope Q_scope.

(* enum state_t  apps/d_switch.cc:36 *)
Inductive state_t := sUNKNOWN | sON | sOFF.
Definition state_eqb (a b : state_t) : bool :=
  match a, b with sUNKNOWN, sUNKNOWN | sON, sON | sOFF, sOFF => true | _, _ => false end.

(* the model card: thresholds and resistances *)
Record swmodel := mkM { von : Q; voff : Q; ron : Q; roff : Q }.
(* (state == _ON) ? ron : roff : unknown is off *)
Definition res (m : swmodel) (s : state_t) : Q := match s with sON => ron m | _ => roff m end.

(* the device: _in[0..1], _state[0..1], _time[0..1], _y[0].f1, _m0.c1, what is in the matrix
   (_m1.c1, the value last loaded), and whether it is queued for evaluation or loading *)
Record sw := mkW { in0 : Q; in1 : Q; st0 : state_t; st1 : state_t; tm0 : Q; tm1 : Q;
                   yf1 : Q; c1 : Q; loaded : Q; q_eval : bool; q_load : bool }.

(* the assert that ends tr_advance, tr_regress and do_tr: _y[0].f1 is the resistance of
   _state[0] *)
Definition consistent (m : swmodel) (w : sw) : bool := qeqb (yf1 w) (res m (st0 w)).

(* SWITCH_BASE::tr_begin  apps/d_switch.cc:434-453 with initial state [ic]; all times are 0
   (ELEMENT::tr_begin); the matrix starts empty and everything is loaded *)
Definition tr_begin (m : swmodel) (ic : state_t) (w : sw) : sw :=
  let f := res m ic in
  mkW (in0 w) (in1 w) ic ic 0 0 f (1 / f) (1 / f) false false.

(* SWITCH_BASE::dc_advance  455-459 *)
Definition dc_advance (w : sw) : sw :=
  mkW (in0 w) (in1 w) (st0 w) (st0 w) (tm0 w) (tm1 w) (yf1 w) (c1 w) (loaded w) (q_eval w) (q_load w).

(* SWITCH_BASE::tr_advance  461-495; [now] is _sim->_time0 (ELEMENT::tr_advance shifts the
   times).  The assert of conchk(_m0.c1, 1./_y[0].f1) is left out: it holds as c1 = 1/f1. *)
Definition tr_advance (m : swmodel) (now : Q) (w : sw) : option sw :=
  let x := in0 w in
  let old := st0 w in
  let new := if qleb (von m) x then sON else if qleb x (voff m) then sOFF else old in
  let chg := negb (state_eqb old new) in
  let f := if chg then res m new else yf1 w in
  let c := if chg then 1 / f else c1 w in
  let w' := mkW (in0 w) (in0 w) new old now (tm0 w) f c (loaded w) (q_eval w || chg) (q_load w) in
  if consistent m w' then Some w' else None.

(* SWITCH_BASE::tr_regress  497-512 *)
Definition tr_regress (m : swmodel) (now : Q) (w : sw) : option sw :=
  let w' := mkW (in0 w) (in1 w) (st0 w) (st1 w) now (tm1 w) (yf1 w) (c1 w) (loaded w) (q_eval w) (q_load w) in
  if consistent m w' && qeqb (c1 w) (1 / yf1 w) then Some w' else None.

(* SWITCH_BASE::do_tr  513-563.  [x] is the control (voltage difference or current).  The
   result also says whether it converged; evaluation takes it off the queue. *)
Definition do_tr (m : swmodel) (static : bool) (x : Q) (w : sw) : option (sw * bool) :=
  let r :=
    if static then
      let new := if qltb (von m) x then sON else if qltb x (voff m) then sOFF else st1 w in
      if state_eqb new (st0 w) then
        (mkW (in0 w) (in1 w) (st0 w) (st1 w) (tm0 w) (tm1 w) (yf1 w) (c1 w) (loaded w) false (q_load w), true)
      else
        let f := res m new in
        (mkW (in0 w) (in1 w) new (st1 w) (tm0 w) (tm1 w) f (1 / f) (loaded w) false true, false)
    else
      (mkW (in0 w) (in1 w) (st0 w) (st1 w) (tm0 w) (tm1 w) (yf1 w) (c1 w) (loaded w) false
         (q_load w || negb (state_eqb (st0 w) (st1 w))), true) in
  if consistent m (fst r) then Some r else None.

(* evaluation of a time point: do_tr when queued (or always, when bypass is off), and loading
   of the matrix (ELEMENT::tr_load, include/e_elemnt.h:322-330) when queued *)
Definition evaluate (m : swmodel) (nobypass static : bool) (x : Q) (w : sw) : option (sw * bool) :=
  let* r := if nobypass || static || q_eval w then do_tr m static x w else Some (w, true) in
  let (w1, ok) := r in
  Some (if q_load w1 then
          (mkW (in0 w1) (in1 w1) (st0 w1) (st1 w1) (tm0 w1) (tm1 w1) (yf1 w1) (c1 w1) (c1 w1) (q_eval w1) false, ok)
        else (w1, ok)).

(* SWITCH_BASE::tr_review  565-601: [x] is the control; the result is the predicted switching
   time given to min_event, None for none.  (The asserts on _time_by concern the error
   estimate, which ELEMENT::tr_review leaves at NEVER here.) *)
Definition tr_review (m : swmodel) (x : Q) (w : sw) : sw * option Q :=
  let w' := mkW x (in1 w) (st0 w) (st1 w) (tm0 w) (tm1 w) (yf1 w) (c1 w) (loaded w) (q_eval w) (q_load w) in
  let old_dt := tm0 w - tm1 w in
  let old_dv := x - in1 w in
  (w',
   if negb (state_eqb (st0 w) sON) && qltb 0 old_dv then
     Some (tm1 w + old_dt * (von m - in1 w) / old_dv)
   else if negb (state_eqb (st0 w) sOFF) && qltb old_dv 0 then
     Some (tm1 w + old_dt * (voff m - in1 w) / old_dv)
   else None).
