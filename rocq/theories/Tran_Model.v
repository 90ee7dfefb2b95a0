(* Transient time stepping: TIME_t, SIM_DATA::new_event and the event queue,
   TRANSIENT::first, next, review, accept and the loop of sweep (apps/s_tr_swp.cc), and
   TIME_PAIR (include/u_time_pair.h).

   double is modelled by exact rationals Q.  TIME_t holds a double "used as a signed
   integer" (apps/s_tr_swp.cc:56): modelled by Z.  Infinite and NaN values and the
   rounding of double arithmetic are not modelled. *)
Require Import ZArith QArith Qround List Bool.
Require Import Verif.Loops.
Import ListNotations.
Local Open Scope Z_scope.

(* ---------- numbers ---------- *)

(* a < b and a <= b on double *)
Definition qlt (a b : Q) : bool := negb (Qle_bool b a).
Definition qle (a b : Q) : bool := Qle_bool a b.
(* std::round (libc): to nearest, halves away from zero.  Used by apps/s_tr_swp.cc:61,69,70
   and include/u_sim_data.h:148 *)
Definition qround (x : Q) : Z :=
  if qle 0 x then Qfloor (x + (1#2)) else - Qfloor ((1#2) - x).

(* ---------- parameters of the analysis ---------- *)

(* SIM_DATA::_dtmin (include/u_sim_data.h:62), TRANSIENT::_dtmax, _tstart, _tstop, _tstrobe
   (include/s_tr.h:95-103), OPT::trstepshrink, trstephold, trstepgrow (lib/u_opt1.cc:90-92),
   OPT::quitconvfail (lib/u_opt1.cc:101).
   [dbg]: the program was compiled without NDEBUG, so that assert() is checked. *)
Record tpar := mk_tpar {
  dtmin : Q; dtmax : Q; tstart : Q; tstop : Q; tstrobe : Q;
  shrink : Q; hold : Q; grow : Q; quitfail : bool; dbg : bool }.

(* assert(b); with NDEBUG (the default, include/MakeConf.default:4) it does nothing *)
Definition chk {A} (P : tpar) (b : bool) (k : option A) : option A :=
  if dbg P then (if b then k else None) else k.

(* TIME_t::TIME_t(const double&)  apps/s_tr_swp.cc:61 *)
Definition tick (P : tpar) (x : Q) : Z := qround (x / dtmin P).
(* TIME_t::to_double  apps/s_tr_swp.cc:81 *)
Definition untick (P : tpar) (k : Z) : Q := inject_Z k * dtmin P.
(* TIME_t::operator*(double)  apps/s_tr_swp.cc:69 *)
Definition tmul (k : Z) (b : Q) : Z := qround (inject_Z k * b).
(* TIME_t::operator/(double)  apps/s_tr_swp.cc:70 *)
Definition tdiv (k : Z) (b : Q) : Z := qround (inject_Z k / b).

(* ---------- the event queue ---------- *)

(* _eq: std::priority_queue of EVENT ordered by std::greater<double>
   (include/u_sim_data.h:93).  Only the times are kept; the owner is not used by the code
   modelled here.  The heap is modelled by a list kept in nondecreasing order: top() is the
   head, pop() drops it. *)
Fixpoint eq_push (x : Q) (l : list Q) : list Q :=
  match l with
  | [] => [x]
  | y :: r => if qle x y then x :: l else y :: eq_push x r
  end.

(* SIM_DATA::new_event  include/u_sim_data.h:139-152: the time at which the event is put.
   assert(Time <= BIGBIG) is not modelled (rationals are finite). *)
Definition event_time (dtm now t : Q) : Q :=
  if qle dtm 0 then t
  else if qle t (now + dtm) then inject_Z (Qceiling (t / dtm)) * dtm
  else inject_Z (qround (t / dtm)) * dtm.

(* ---------- TIME_PAIR ---------- *)

(* TIME_PAIR  include/u_time_pair.h:29-31 *)
Record tpair := mk_tpair { tp_err : Q; tp_ev : Q }.
(* TIME_PAIR::min_error_estimate, min_event, min  include/u_time_pair.h:47-63 *)
Definition tp_min_err (p : tpair) (e : Q) : tpair :=
  if qlt e (tp_err p) then mk_tpair e (tp_ev p) else p.
Definition tp_min_ev (p : tpair) (e : Q) : tpair :=
  if qlt e (tp_ev p) then mk_tpair (tp_err p) e else p.
Definition tp_min (p q : tpair) : tpair := tp_min_ev (tp_min_err p (tp_err q)) (tp_ev q).
(* a circuit: devices, given by the pair their tr_review returns, and subcircuit instances *)
Inductive ckt := Dev (p : tpair) | Sub (l : list ckt).
(* CARD_LIST::tr_review  lib/e_cardlist.cc:362-370 and BASE_SUBCKT::tr_review
   include/e_subckt.h:62; [never] is NEVER (include/constant.h:98) *)
Fixpoint card_review (never : Q) (c : ckt) : tpair :=
  match c with
  | Dev p => p
  | Sub l => fold_left (fun t d => tp_min t (card_review never d)) l (mk_tpair never never)
  end.
Definition list_review (never : Q) (l : list ckt) : tpair := card_review never (Sub l).

(* ---------- the state ---------- *)

(* _sim->_time0, _time1, _time_by_user_request, _time_by_error_estimate,
   _time_by_ambiguous_event, _sim->_eq, ::status.control, _converged, _accepted
   (include/s_tr.h:102-113, include/u_sim_data.h).  The step counters are not modelled. *)
Record tst := mk_tst {
  time0 : Q; time1 : Q; t_user : Q; t_err : Q; t_amb : Q; eq_ : list Q;
  control : Z; converged : bool; accepted : bool }.

(* enum STEP_CAUSE  include/s_tr.h:33-47 *)
Definition scUSER := 1. Definition scEVENTQ := 2. Definition scSKIP := 3.
Definition scITER_R := 4. Definition scITER_A := 5. Definition scTE := 6.
Definition scAMBEVENT := 7. Definition scADT := 8. Definition scINITIAL := 9.
Definition scREJECT := 10. Definition scZERO := 20. Definition scSMALL := 30.

(* the local variables newtime, new_dt, new_control of next *)
Record cand := mk_cand { newtime : Z; new_dt : Z; cause : Z }.

(* check_consistency2()  apps/s_tr_swp.cc:271-281 *)
Definition consistent2 (P : tpar) (s : tst) (t1 ref : Z) (c : cand) : bool :=
  (newtime c >? t1) && (newtime c >? ref) && (newtime c =? ref + new_dt c)
  && (newtime c <=? tick P (t_user s + dtmin P)) && (newtime c <=? tick P (t_user s))
  && (new_dt c >=? tick P 0) && (new_dt c >? tick P 0) && (new_dt c >=? tick P (dtmin P)).
(* check_consistency()  apps/s_tr_swp.cc:256-270 *)
Definition consistent (P : tpar) (s : tst) (t1 ref almost fixed : Z) (c : cand) : bool :=
  (almost <=? fixed) && (newtime c <=? fixed) && (newtime c <=? almost)
  && consistent2 P s t1 ref c.

(* up_order on TIME_t  include/l_compar.h:28-32 *)
Definition up_order (a b c : Z) : bool := (a <=? b) && (b <=? c).

(* apps/s_tr_swp.cc:304-322: the user step, then the event queue *)
Definition next_fixed (P : tpar) (s : tst) (t1 ref : Z) : option cand :=
  let c := mk_cand (tick P (t_user s)) (tick P (t_user s) - ref) scUSER in
  chk P (consistent2 P s t1 ref c)
  (match eq_ s with
   | e :: _ =>
     if tick P e <? newtime c then
       let c' := mk_cand (tick P e) (tick P e - ref) scEVENTQ in
       chk P (consistent2 P s t1 ref c') (Some c')
     else Some c
   | [] => Some c
   end).

(* apps/s_tr_swp.cc:326-335: ambiguous events *)
Definition next_amb (P : tpar) (s : tst) (t1 ref : Z) (c : cand) : option cand :=
  if tick P (t_amb s) <? newtime c then
    let c' := mk_cand (tick P (t_amb s)) (tick P (t_amb s) - ref) scAMBEVENT in
    chk P (consistent2 P s t1 ref c') (Some c')
  else Some c.

(* apps/s_tr_swp.cc:340-347: error estimates *)
Definition next_err (P : tpar) (s : tst) (t1 ref almost fixed : Z) (c : cand) : option cand :=
  if tick P (t_err s) <? newtime c then
    let c' := mk_cand (tick P (t_err s)) (tick P (t_err s) - ref) scTE in
    chk P (consistent P s t1 ref almost fixed c') (Some c')
  else Some c.

(* apps/s_tr_swp.cc:349-356: dtmax *)
Definition next_skip (P : tpar) (s : tst) (t1 ref almost fixed : Z) (c : cand) : option cand :=
  if tick P (dtmax P) <? new_dt c then
    let c' := mk_cand (ref + tick P (dtmax P)) (tick P (dtmax P)) scSKIP in
    chk P (consistent P s t1 ref almost fixed c') (Some c')
  else Some c.

(* std::max(_dtmax/100., _sim->_dtmin) *)
Definition qmax (a b : Q) : Q := if qlt a b then b else a.

(* apps/s_tr_swp.cc:361-370: the first step of a run *)
Definition next_initial (P : tpar) (t0 : Z) (c : cand) : cand :=
  let d := tick P (qmax (dtmax P / 100) (dtmin P)) in
  if d <? new_dt c then mk_cand (t0 + d) d scINITIAL else c.

(* apps/s_tr_swp.cc:371-406: after a convergence failure, after many iterations ([over]:
   _sim->exceeds_iteration_limit(OPT::TRLOW)), limit of growth *)
Definition next_normal (P : tpar) (s : tst) (over : bool)
    (t1 ref almost fixed old : Z) (c : cand) : option cand :=
  let* c1 :=
    (if negb (converged s) then
       if tdiv old (shrink P) <? new_dt c then
         chk P (negb (accepted s))
           (Some (mk_cand (ref + tdiv old (shrink P)) (tdiv old (shrink P)) scITER_R))
       else Some c
     else Some c) in
  let* c2 :=
    (if over then
       if tmul old (hold P) <? new_dt c1 then
         let c' := mk_cand (ref + tmul old (hold P)) (tmul old (hold P)) scITER_A in
         chk P (accepted s) (chk P (consistent P s t1 ref almost fixed c') (Some c'))
       else Some c1
     else Some c1) in
  if tmul old (grow P) <? new_dt c2 then
    let c' := mk_cand (ref + tmul old (grow P)) (tmul old (grow P)) scADT in
    chk P (consistent P s t1 ref almost fixed c') (Some c')
  else Some c2.

(* apps/s_tr_swp.cc:464-494: a new step size, an integer fraction of the time to the next
   fixed point.  ticks() / ticks() truncates (both are nonnegative here, Z.quot);
   operator/(int64_t) is floor.  Division by zero is undefined behaviour. *)
Definition next_fraction (P : tpar) (s : tst) (t1 ref almost fixed : Z) (c : cand)
    : option cand :=
  let target := fixed - ref in
  chk P (target >=? new_dt c)
  (if new_dt c =? 0 then None else
   let steps := Z.quot target (new_dt c) in
   let* d :=
     (if new_dt c * steps =? target then Some (new_dt c)
      else if (target / (steps + 1)) * (steps + 1) =? target then Some (target / (steps + 1))
      else if (target / (steps + 2)) * (steps + 2) =? target then Some (target / (steps + 2))
      else
        let d := target / (steps + 1) + tick P (dtmin P) in
        chk P (d * (steps + 1) >? target) (Some d)) in
   chk P (d =? tick P (untick P d))
   (let c' := mk_cand (ref + d) d (cause c) in
    chk P (consistent P s t1 ref almost fixed c') (Some c'))).

(* apps/s_tr_swp.cc:412-496 *)
Definition next_smooth (P : tpar) (s : tst) (t1 t0 ref almost fixed old : Z) (c : cand)
    : option cand :=
  let u := tick P (t_user s) in
  if newtime c >? almost then Some c
  else if newtime c =? u then chk P (cause c =? scUSER) (Some c)
  else if newtime c =? fixed then chk P (cause c =? scEVENTQ) (Some c)
  else if newtime c =? almost then chk P (cause c =? scAMBEVENT) (Some c)
  else if newtime c <? t0 then Some c
  else
    chk P (ref =? t0)
    (if up_order (tmul old (8#10)) (new_dt c) (tmul old (15#10)) && (ref + old <=? almost)
     then
       let nt := ref + old in
       let k := if nt >? almost then cause c
                else if nt =? u then scUSER
                else if nt =? fixed then scEVENTQ
                else if nt =? almost then scAMBEVENT
                else cause c in
       let c' := mk_cand nt old k in
       chk P (consistent P s t1 ref almost fixed c') (Some c')
     else next_fraction P s t1 ref almost fixed c).

(* TRANSIENT::next  apps/s_tr_swp.cc:287-558.  [over] as in next_normal.  The result also
   says whether to go on (the return value).  Messages and the marking of the matrix as bad
   are not modelled; unreachable() only prints. *)
Definition next (P : tpar) (over : bool) (s : tst) : option (tst * bool) :=
  let t1 := tick P (time1 s) in
  let t0 := tick P (time0 s) in
  let ref := if accepted s then t0 else t1 in
  let* cf := next_fixed P s t1 ref in
  let fixed := newtime cf in
  let* ca := next_amb P s t1 ref cf in
  let almost := newtime ca in
  chk P (consistent P s t1 ref almost fixed ca)
  (let* ce := next_err P s t1 ref almost fixed ca in
   let* ck := next_skip P s t1 ref almost fixed ce in
   let old := t0 - t1 in
   chk P (old >=? tick P 0)
   (let* cn := (if old =? tick P 0 then Some (next_initial P t0 ck)
                else if old >? tick P 0 then next_normal P s over t1 ref almost fixed old ck
                else Some ck) in
    let* cs := next_smooth P s t1 t0 ref almost fixed old cn in
    (* trap time step too small, lines 500-512 *)
    let* c8 := (if new_dt cs <? tick P (dtmin P) then
                  let c' := mk_cand (ref + tick P (dtmin P)) (tick P (dtmin P))
                                    (cause cs + scSMALL) in
                  chk P (consistent P s t1 ref almost fixed c') (Some c')
                else Some cs) in
    (* trap exact duplicate time, lines 514-531 *)
    let* c9 := (if newtime c8 =? t0 then
                  let c' := mk_cand (t0 + tick P (dtmin P)) (tick P (dtmin P))
                                    (cause c8 + scZERO) in
                  chk P (accepted s || converged s)
                    (chk P (consistent P s t1 ref almost fixed c') (Some c'))
                else Some c8) in
    chk P (negb (accepted s) || (newtime c9 >? t0))
    (chk P (accepted s || (newtime c9 <? t0))
     (let* k := (if newtime c9 <? t0 then
                   chk P (ref =? t1) (Some (cause c9 + scREJECT))
                 else
                   chk P (accepted s) (chk P (newtime c9 >? t0)
                     (chk P (ref =? t0) (Some (cause c9))))) in
      chk P (consistent P s t1 ref almost fixed c9)
      (Some (mk_tst (untick P (newtime c9)) (untick P ref) (t_user s) (t_err s) (t_amb s)
                    (eq_ s) k (converged s) (accepted s),
             newtime c9 <=? tick P (tstop P + dtmin P))))))).

(* TRANSIENT::review  apps/s_tr_swp.cc:560-603, given what the devices reported *)
Definition review (P : tpar) (tp : tpair) (s : tst) : tst * bool :=
  let d := dtmin P in
  let mintime := (time1 s + 2 * d)%Q in
  let amb1 := if qlt (tp_ev tp) mintime then mintime else tp_ev tp in
  let amb := if qle (time0 s - 2 * d) amb1 && qle amb1 (time0 s + 2 * d)
             then (time0 s + 2 * d)%Q else amb1 in
  let err1 := if qlt (tp_err tp) mintime then mintime else tp_err tp in
  let err := if qle (time0 s - (11#10) * d) err1 && qle err1 (time0 s + (11#10) * d)
             then (time0 s + (11#10) * d)%Q else err1 in
  (mk_tst (time0 s) (time1 s) (t_user s) err amb (eq_ s) (control s) (converged s)
          (accepted s),
   qlt (time0 s) err && qlt (time0 s) amb).

(* TRANSIENT::accept  apps/s_tr_swp.cc:605-632: the disposal of used events
   (lines 613-617), then tr_accept of the devices, which may request events: [reqs] are the
   delays given to LOGIC_NODE::set_event (lib/e_logicnode.cc:309-327, line 319 is the only
   caller of new_event in the code).
   Voltage limits and statistics are not modelled. *)
Fixpoint pop_used (P : tpar) (t0 : Z) (l : list Q) : option (list Q) :=
  match l with
  | e :: r => if tick P e <=? t0 then chk P (tick P e =? t0) (pop_used P t0 r) else Some l
  | [] => Some []
  end.
Definition request (P : tpar) (s : tst) (l : list Q) (delay : Q) : list Q :=
  eq_push (event_time (dtmin P) (time0 s) (time0 s + delay)) l.
Definition accept (P : tpar) (reqs : list Q) (s : tst) : option tst :=
  let* l := pop_used P (tick P (time0 s)) (eq_ s) in
  Some (mk_tst (time0 s) (time1 s) (t_user s) (t_err s) (t_amb s)
               (fold_left (request P s) reqs l) (control s) (converged s) (accepted s)).

(* TRANSIENT::first  apps/s_tr_swp.cc:232-254, and the start of sweep, lines 131-133:
   review (its answer ignored), _accepted = true, accept.  [t]: _time0 from setup,
   [q]: the event queue as the devices left it, [conv]: whether the bias solution converged. *)
Definition start (P : tpar) (t : Q) (q : list Q) (conv : bool) (tp : tpair) (reqs : list Q)
    : option tst :=
  chk P (qle t (tstart P))
  (let s := mk_tst t t (if qlt t (tstart P) then tstart P else t + tstrobe P)%Q 0 0
                   (fold_left (fun l x => eq_push x l) q [])
                   (if qlt t (tstart P) then scINITIAL else scUSER) conv false in
   let (r, _) := review P tp s in
   accept P reqs (mk_tst (time0 r) (time1 r) (t_user r) (t_err r) (t_amb r) (eq_ r)
                         (control r) (converged r) true)).

(* what the rest of the simulator does in one pass of the loop of sweep: does solve()
   converge, is the iteration limit TRLOW exceeded when next is entered, what do the devices
   report to review, what events do they request on acceptance *)
Record input := mk_input { i_over : bool; i_conv : bool; i_tp : tpair; i_reqs : list Q }.

(* how a pass ends: still running, loop finished (next returned false), exception thrown *)
Inductive pass := Going (s : tst) | Finished (s : tst) | Thrown (s : tst).

(* one pass of the loop of TRANSIENT::sweep  apps/s_tr_swp.cc:146-190.
   None: a failed assert (only when dbg) or undefined behaviour. *)
Definition sweep_pass (P : tpar) (i : input) (s : tst) : option pass :=
  let* (n, go) := next P (i_over i) s in
  if negb go then Some (Finished n) else
  let n := mk_tst (time0 n) (time1 n) (t_user n) (t_err n) (t_amb n) (eq_ n) (control n)
                  (i_conv i) (accepted n) in
  let (r, ok) := if i_conv i then review P (i_tp i) n else (n, false) in
  let r := mk_tst (time0 r) (time1 r) (t_user r) (t_err r) (t_amb r) (eq_ r) (control r)
                  (i_conv i) ok in
  let* f :=
    (if ok then
       chk P (qle (time0 r) (t_user r + dtmin P))
       (let* a := accept P (i_reqs i) r in
        let* b :=
          (if control a =? scUSER then
             chk P (qle (time0 a - dtmin P) (t_user a) && qle (t_user a) (time0 a + dtmin P))
             (Some (mk_tst (time0 a) (time1 a) (t_user a + tstrobe P) (t_err a) (t_amb a)
                           (eq_ a) (control a) (converged a) (accepted a)))
           else Some a) in
        chk P (qlt (time0 b) (t_user b)) (Some b))
     else chk P (qlt (time1 r) (t_user r)) (Some r)) in
  if negb (i_conv i) && quitfail P then Some (Thrown f) else Some (Going f).

(* the attempted time points (in ticks) with whether each was accepted *)
Fixpoint trace (P : tpar) (l : list input) (s : tst) : option (list (Z * bool)) :=
  match l with
  | [] => Some []
  | i :: r =>
    let* p := sweep_pass P i s in
    match p with
    | Going s' => let* t := trace P r s' in Some ((tick P (time0 s'), accepted s') :: t)
    | Finished _ => Some []
    | Thrown s' => Some [(tick P (time0 s'), accepted s')]
    end
  end.
