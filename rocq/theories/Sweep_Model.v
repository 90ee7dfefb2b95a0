(* The DC and AC sweeps: DCOP::fix_args, first, next, sweep_recursive (apps/s_dc.cc) and
   AC::setup (the step), first, next, sweep (apps/s_ac.cc).

   double is modelled by exact rationals.  pow() is not modelled: its results are given as
   arguments.  The solution at each point is not modelled: a run is the list of points at
   which the circuit is solved and printed.  The program is taken as built with NDEBUG, the
   default (include/MakeConf.default:4): in a build with assertions a log sweep with "loop"
   fails assert(sweepval == NOT_VALID) at apps/s_dc.cc:598 when it turns around.
   Loops carry fuel; running out of fuel is None, and is no result. *)
Require Import ZArith QArith Qabs List Bool.
Require Import Verif.Loops Verif.Qnum.
Import ListNotations.
Local Open Scope Q_scope.

(* the step modes  apps/s_dc.cc:135, apps/s_ac.cc:66 *)
Inductive stepmode := ONE_PT | LIN_STEP | LIN_PTS | TIMES | OCTAVE | DECADE.

(* ---------- DC ---------- *)

(* One nest of the sweep: _start, _stop, _step, _linswp, _loop, _reverse_in
   (apps/s_dc.cc:117-134).  [fud] is pow(_step, .1), used by a log sweep only. *)
Record swp := mk_swp {
  start : Q; stop : Q; step : Q; lin : bool; fud : Q; loop : bool; reverse_in : bool }.

(* the value being swept and _reverse  apps/s_dc.cc:117-134 *)
Record var := mk_var { val : Q; rev_ : bool }.

(* fixzero(&z, r)  include/l_denoise.h:31-39; tol is OPT::roundofftol *)
Definition fixzero (tol z r : Q) : Q :=
  if qltb (Qabs z) (Qabs (r * tol)) then 0 else z.

(* DCOP::fix_args  apps/s_dc.cc:361-409.  [root] is the result of pow(2.00000001, 1./step)
   or pow(10., 1./step), given the step.  Returns _step and _linswp. *)
Definition fix_args (root : Q -> Q) (m : stepmode) (start stop step_in : Q) : Q * bool :=
  let (step, lin) :=
    match m with
    | ONE_PT | LIN_STEP => (step_in, true)
    | LIN_PTS => (if qleb step_in 2 then 2 else step_in, true)
    | TIMES => (if qeqb step_in 0 && negb (qeqb start 0) then stop / start else step_in, false)
    | OCTAVE | DECADE => (root (if qeqb step_in 0 then 1 else step_in), false)
    end in
  if qeqb step 0 then (stop - start, true) else (step, lin).

(* the test of a candidate value  apps/s_dc.cc:555,575 (linear), 588,600 (log) *)
Definition in_window (c : swp) (x : Q) : bool :=
  if lin c then in_order (start c - step c / 10) x (stop c + step c / 10)
  else in_order (start c / fud c) x (stop c * fud c).

(* DCOP::next  apps/s_dc.cc:536-615.  Returns the state after the call and the result. *)
Definition dc_next (tol : Q) (c : swp) (v : var) : var * bool :=
  if (if lin c then qeqb (step c) 0 else qeqb (step c) 1) then (v, false)
  else
    let up := if lin c then fixzero tol (val v + step c) (step c) else val v * step c in
    let ok1 := negb (rev_ v) && in_window c up in
    let r := if negb (rev_ v) && negb ok1 && loop c then true else rev_ v in
    let dn := if lin c then fixzero tol (val v - step c) (step c) else val v / step c in
    let (x, ok) := if r then (dn, in_window c dn) else (up, ok1) in
    if ok then (mk_var x r, true) else (mk_var (val v) r, false).

(* while (next(Nest)) {}  apps/s_dc.cc:526-528: the state after the loop *)
Fixpoint drain (fuel : nat) (tol : Q) (c : swp) (v : var) : option var :=
  match fuel with
  | O => None
  | S f => let (v', ok) := dc_next tol c v in if ok then drain f tol c v' else Some v'
  end.

(* DCOP::first  apps/s_dc.cc:515-534 (the phase is not modelled) *)
Definition dc_first (fuel : nat) (tol : Q) (c : swp) : option var :=
  let v := mk_var (start c) false in
  if reverse_in c then
    let* v1 := drain fuel tol c v in
    Some (fst (dc_next tol c (mk_var (val v1) true)))
  else Some v.

(* do { body } while (next(Nest))  apps/s_dc.cc:494-512 *)
Fixpoint dc_loop (fuel : nat) (tol : Q) (c : swp) (body : Q -> option (list (list Q))) (v : var)
  : option (list (list Q)) :=
  match fuel with
  | O => None
  | S f =>
      let* o := body (val v) in
      let (v', ok) := dc_next tol c v in
      if ok then let* r := dc_loop f tol c body v' in Some (o ++ r) else Some o
  end.

(* DCOP::sweep_recursive  apps/s_dc.cc:485-513.  The nests are given from the outermost
   (highest index) to the innermost (index 0).  [env] holds the values of the enclosing
   nests.  The result is the list of circuits solved, each described by the values of all
   the swept quantities, outermost first. *)
Fixpoint sweep_recursive (fuel : nat) (tol : Q) (nests : list swp) (env : list Q)
  : option (list (list Q)) :=
  match nests with
  | [] => Some [env]
  | c :: inner =>
      let* v := dc_first fuel tol c in
      dc_loop fuel tol c (fun x => sweep_recursive fuel tol inner (env ++ [x])) v
  end.

(* ---------- AC ---------- *)

(* AC::_start, _stop, _step, _linswp  apps/s_ac.cc:60-66.  [hund] is pow(_step, .01). *)
Record acp := mk_acp { a_start : Q; a_stop : Q; a_step : Q; a_lin : bool; hund : Q }.

(* the step in AC::setup  apps/s_ac.cc:171-228; [root] as in fix_args *)
Definition ac_setup (root : Q -> Q) (m : stepmode) (start stop step_in : Q) : Q * bool :=
  let '(step, lin, needslinfix) :=
    match m with
    | ONE_PT | LIN_STEP => (step_in, true, false)
    | LIN_PTS => (if qleb step_in 2 then 2 else step_in, true, true)
    | TIMES =>
        (if qeqb step_in 0 && negb (qeqb start 0) then stop / start else step_in, false, false)
    | OCTAVE | DECADE => (root (if qeqb step_in 0 then 1 else step_in), false, false)
    end in
  let step := if needslinfix then (stop - start) / (step - 1) else step in
  if qeqb step 0 then (stop - start, true) else (step, lin).

(* AC::next  apps/s_ac.cc:276-294: the frequency after the call and the result *)
Definition ac_next (c : acp) (freq : Q) : Q * bool :=
  let realstop := if a_lin c then a_stop c - a_step c / 100 else a_stop c / hund c in
  if negb (in_order (a_start c) freq realstop) then (freq, false)
  else
    let f := if a_lin c then freq + a_step c else freq * a_step c in
    (f, negb (in_order f (a_start c) (a_stop c))).

(* the loop of AC::sweep  apps/s_ac.cc:260-265 *)
Fixpoint ac_loop (fuel : nat) (c : acp) (freq : Q) : option (list Q) :=
  match fuel with
  | O => None
  | S f =>
      let (freq', ok) := ac_next c freq in
      if ok then let* r := ac_loop f c freq' in Some (freq :: r) else Some [freq]
  end.

(* AC::sweep  apps/s_ac.cc:254-269 with AC::first 271-274: the frequencies analysed *)
Definition ac_sweep (fuel : nat) (c : acp) : option (list Q) := ac_loop fuel c (a_start c).
