(* The behavioural functions tanh, posy, exp, sin and sffm (apps/bm_tanh.cc, bm_posy.cc, bm_exp.cc, bm_sin.cc,
   bm_sffm.cc) and the adjustments common to all functions (lib/bm.cc), with the way a source and a voltage controlled
   element use the result.

   Simplified: numbers are real numbers, so no rounding and no overflow; exp, sin, cosh, tanh, pow and floor are those of
   the standard library of the prover; parameters are values.  Not modelled: reading and printing of the parameters, the
   step limit (error estimate) announced by exp and sin, the events of sffm, the messages. *)
Require Import Reals ZArith Bool List.
Require Import Verif.Loops.
Import ListNotations.
Local Open Scope R_scope.

(* include/m_cpoly.h:44-66 FPOLY1 *)
Record fp := Fp { fx : R; f0 : R; f1 : R }.
(* include/bm.h:50-60, the parameters of every function; bandwidth None is NOT_INPUT *)
Record action := Action {
  temp_c : R; tnom_c : R; bandwidth : option R; a_delay : R; a_phase : R; ooffset : R; ioffset_ : R; scale : R;
  tc1 : R; tc2 : R; ic : R }.
(* include/u_sim_data.h, the members used: _time0, _freq, _dtmin, uic_now() *)
Record sim := Sim { time0 : R; freq : R; dtmin : R; uic_now : bool }.

(* include/constant.h:94-103; MAXDBL is the largest double *)
Definition MAXDBL : R := (2 - / 2 ^ 52) * 2 ^ 1023.
Definition BIGBIG : R := MAXDBL * 0.9247958.
Definition NEVER : R := MAXDBL * 0.9447958.
Definition LOGBIGBIG : R := ln BIGBIG.
(* include/constant.h:35, 54 *)
Definition M_TWO_PI : R := PI * 2.
Definition DTOR : R := PI / 180.

(* include/bm.h:69-70 *)
Definition uic (a : action) (s : sim) (x : R) : R := if uic_now s then ic a else x.
Definition ioffset (a : action) (s : sim) (x : R) : R := uic a s x + ioffset_ a.
(* lib/bm.cc:69-73 *)
Definition temp_adjust (a : action) : R :=
  let tempdiff := temp_c a - tnom_c a in scale a * (1 + tc1 a * tempdiff + tc2 a * tempdiff * tempdiff).
(* lib/bm.cc:75-84; operator*= of FPOLY1 multiplies f0 and f1 (include/m_cpoly.h:57) *)
Definition tr_final_adjust (a : action) (f_is_value : bool) (y : fp) : fp :=
  let y := if f_is_value then Fp (fx y) 0 (f0 y) else y in
  let k := temp_adjust a in
  Fp (fx y) (f0 y * k + ooffset a) (f1 y * k).
(* lib/bm.cc:86-90; FPOLY1 of CPOLY1(x, c0, c1) is (x, c0 + x * c1, c1) (include/m_cpoly.h:82-89) *)
Definition tr_finish_tdv (a : action) (s : sim) (x val : R) : fp :=
  tr_final_adjust a false (Fp (ioffset a s x) (0 + ioffset a s x * val) val).
(* include/l_denoise.h:41-46; tol is OPT::roundofftol *)
Definition fixzero (tol z r : R) : R := if Rlt_dec (Rabs z) (Rabs (r * tol)) then 0 else z.

(* apps/bm_tanh.cc:101-119; division by a limit of zero gives no number *)
Definition tanh_eval (a : action) (s : sim) (gain lim : R) (isval : bool) (x0 : R) : option fp :=
  if Req_EM_T lim 0 then None else
  let x := ioffset a s x0 in
  let aa := x * gain / lim in
  let '(v0, v1) :=
    if Rlt_dec LOGBIGBIG aa then (lim, 0)
    else if Rlt_dec aa (- LOGBIGBIG) then (- lim, 0)
    else let cosine := cosh aa in (lim * tanh aa, gain / (cosine * cosine)) in
  Some (tr_final_adjust a isval (Fp x v0 v1)).

(* apps/bm_posy.cc:41-46, parameters; the table holds exponent and coefficient *)
Record posy := Posy { p_min : R; p_max : R; p_abs : bool; p_odd : bool; p_even : bool; p_table : list (R * R) }.
(* apps/bm_posy.cc:149-156, x > 0 *)
Definition posy_terms (t : list (R * R)) (x : R) : R * R :=
  fold_left (fun acc p => let coeff := snd p * Rpower x (fst p - 1) in
    (fst acc + coeff * x, snd acc + coeff * fst p)) t (0, 0).
(* apps/bm_posy.cc:157-166, x = 0 *)
Definition posy_zero (t : list (R * R)) : R :=
  fold_left (fun acc p => if Req_EM_T (fst p) 0 then acc + 1 else acc) t 0.
(* apps/bm_posy.cc:138-181, before the clipping *)
Definition posy_raw (p : posy) (x_raw : R) : R * R :=
  let x := if Rlt_dec x_raw 0 then (if p_odd p || p_even p then - x_raw else 0) else x_raw in
  let '(v0, v1) := if Rlt_dec 0 x then posy_terms (p_table p) x else (posy_zero (p_table p), 0) in
  let neg := if Rlt_dec x_raw 0 then true else false in
  let v0 := if p_odd p && neg then - v0 else v0 in
  let v1 := if p_even p && neg then - v1 else v1 in
  if p_abs p && (if Rlt_dec v0 0 then true else false) then (- v0, - v1) else (v0, v1).
(* apps/bm_posy.cc:183-191 *)
Definition posy_clip (p : posy) (v : R * R) : R * R :=
  if Rlt_dec (p_max p) (fst v) then (p_max p, 0)
  else if Rlt_dec (fst v) (p_min p) then (p_min p, 0) else v.
(* apps/bm_posy.cc:137-197 *)
Definition posy_eval (a : action) (s : sim) (p : posy) (isval : bool) (x0 : R) : fp :=
  let x := ioffset a s x0 in
  let v := posy_clip p (posy_raw p x) in
  tr_final_adjust a isval (Fp x (fst v) (snd v)).

(* apps/bm_exp.cc:36-42 *)
Record expf := Expf { e_iv : R; e_pv : R; e_td1 : R; e_tau1 : R; e_td2 : R; e_tau2 : R; e_period : R }.
(* exp(-t/tau) for t > 0 as the processor gives it: the quotient by a zero tau is minus infinity, its exponential zero *)
Definition decay (t tau : R) : R := if Req_EM_T tau 0 then 0 else exp (- t / tau).
(* apps/bm_exp.cc:140-148, the body of the loop *)
Definition exp_body (e : expf) (time ev : R) : R :=
  let ev := if Rlt_dec (e_td1 e) time then ev + (e_pv e - e_iv e) * (1 - decay (time - e_td1 e) (e_tau1 e)) else ev in
  if Rlt_dec (e_td2 e) time then ev + (e_iv e - e_pv e) * (1 - decay (time - e_td2 e) (e_tau2 e)) else ev.
(* apps/bm_exp.cc:139-149: the loop; None is that it has not come to an end within the fuel *)
Fixpoint exp_loop (fuel : nat) (e : expf) (time ev : R) : option R :=
  if Rle_dec 0 time then
    match fuel with O => None | Datatypes.S n => exp_loop n e (time - e_period e) (exp_body e time ev) end
  else Some ev.
Definition exp_value (fuel : nat) (e : expf) (t : R) : option R := exp_loop fuel e t (e_iv e).
(* apps/bm_exp.cc:136-150 *)
Definition exp_eval (fuel : nat) (a : action) (s : sim) (e : expf) (x0 : R) : option fp :=
  let* v := exp_value fuel e (time0 s) in Some (tr_finish_tdv a s x0 v).

(* fmod for a positive divisor and x >= 0 *)
Definition fmod (x p : R) : R := x - p * IZR (Int_part (x / p)).
(* floor *)
Definition floor (x : R) : R := IZR (Int_part x).
(* include/u_time_pair.h:54-60 min_event; the asserts on the event at the end of tr_review; ev0 is the event already
   announced *)
Definition announce (s : sim) (ev0 ev : R) : option R :=
  let e := Rmin ev0 ev in if Rlt_dec (time0 s + dtmin s) e then Some e else None.
(* apps/bm_exp.cc:152-176, 181-183, the event *)
Definition exp_review (s : sim) (e : expf) (ev0 : R) : option R :=
  let raw := time0 s + dtmin s * 2 in
  let time := if Rlt_dec 0 (e_period e) then (if Rlt_dec (e_period e) BIGBIG then fmod raw (e_period e) else raw) else raw in
  let off := raw - time in
  announce s ev0 (if Rlt_dec (e_td2 e) time then e_period e + off
                  else if Rlt_dec (e_td1 e) time then e_td2 e + off
                  else e_td1 e + off).

(* apps/bm_sin.cc:44-53; the frequency is None if it was not given *)
Record sinf := Sinf { s_offset : R; s_amplitude : R; s_frequency : option R; s_delay : R; s_damping : R;
  s_zero : bool; s_peak : bool }.
(* apps/bm_sin.cc:151-155 *)
Definition actual_frequency (s : sim) (f : sinf) : R := match s_frequency f with None => freq s | Some x => x end.
(* apps/bm_sin.cc:157-170 *)
Definition sin_value (tol : R) (a : action) (s : sim) (f : sinf) : R :=
  let reltime := ioffset a s (time0 s) in
  if Rlt_dec (s_delay f) reltime then
    let x := s_amplitude f * fixzero tol (sin (M_TWO_PI * actual_frequency s f * (reltime - s_delay f))) 1 in
    s_offset f + (if Req_EM_T (s_damping f) 0 then x else x * exp (- (reltime - s_delay f) * s_damping f))
  else s_offset f.
(* apps/bm_sin.cc:149-172 *)
Definition sin_eval (tol : R) (a : action) (s : sim) (f : sinf) (x0 : R) : fp :=
  tr_finish_tdv a s x0 (sin_value tol a s f).
(* apps/bm_sin.cc:174-190, 194-196, the event; without zero and peak there is none *)
Definition sin_review (a : action) (s : sim) (f : sinf) (ev0 : R) : option R :=
  let fr := actual_frequency s f in
  if Req_EM_T fr 0 then None else
  let reltime := ioffset a s (time0 s) + 1e-6 / fr in
  announce s ev0
    (if Rlt_dec (s_delay f) reltime then
       if s_peak f && s_zero f then floor (reltime * 4 * fr + 1) / (4 * fr)
       else if s_peak f then (floor (reltime * 2 * fr + 0.5) + 0.5) / (2 * fr)
       else if s_zero f then floor (reltime * 2 * fr + 1) / (2 * fr)
       else ev0
     else s_delay f).

(* apps/bm_sffm.cc:36-45, 147-153 *)
Record sffm := Sffm { m_offset : R; m_amplitude : R; m_carrier : R; m_modindex : R; m_signal : R }.
Definition sffm_value (m : sffm) (time : R) : R :=
  let md := m_modindex m * sin (M_TWO_PI * m_signal m * time) in
  m_offset m + m_amplitude m * sin (M_TWO_PI * m_carrier m * time + md).
Definition sffm_eval (a : action) (s : sim) (m : sffm) (x0 : R) : fp :=
  tr_finish_tdv a s x0 (sffm_value m (time0 s)).

(* apps/d_cs.cc:113-121, apps/d_vs.cc (do_tr): a source stores the time in _y[0].x, evaluates its function with
   f_is_value true (d_cs.cc:45, d_vs.cc:45) and takes _y[0].f1 as its value (a voltage source multiplies by -loss) *)
Definition source_value (y : fp) : R := f1 y.
(* apps/d_admit.cc:147-156 (also of DEV_VCCS): a controlled element stores its voltage in _y[0].x, evaluates its function and
   loads the line CPOLY1(_y[0]); c0 is f0 - x * f1 (include/m_cpoly.h:63-65, 95-98): the current of the line at voltage v *)
Definition line_at (y : fp) (v : R) : R := (f0 y - fx y * f1 y) + f1 y * v.

(* complex numbers: real and imaginary part *)
Definition cmul (z w : R * R) : R * R := (fst z * fst w - snd z * snd w, fst z * snd w + snd z * fst w).
(* std::polar *)
Definition polar (r t : R) : R * R := (r * cos t, r * sin t).
(* lib/bm.cc:94-100: the bandwidth; the assert on the imaginary part *)
Definition ac_bandwidth (a : action) (s : sim) (y : R * R) : option (R * R) :=
  match bandwidth a with
  | None => Some y
  | Some b =>
      if Req_EM_T b 0 then Some y
      else if Req_EM_T (snd y) 0 then
        let ratio := freq s / b in
        let coeff := fst y / (1 + ratio * ratio) in
        Some (coeff, - coeff * ratio)
      else None
  end.
(* lib/bm.cc:92-117 *)
Definition ac_final_adjust (a : action) (s : sim) (y : R * R) : option (R * R) :=
  let* y := ac_bandwidth a s y in
  let y := if Req_EM_T (a_phase a) 0 then y else cmul y (polar 1 (a_phase a * DTOR)) in
  Some (if Req_EM_T (a_delay a) 0 then y else
    let ratio := freq s * a_delay a in
    let ratio := if Rlt_dec 100000 ratio then 0 else ratio in
    cmul y (polar 1 (- 360 * DTOR * ratio))).
