(* The pulse source: apps/bm_pulse.cc.  double is modelled by exact rationals. *)
Require Import ZArith QArith Qround List Bool.
Require Import Verif.Qnum.
Local Open Scope Q_scope.

(* the parameters, after precalc_last (apps/bm_pulse.cc:125-147), and BIGBIG
   (include/constant.h:96), the value that stands for no period *)
Record pulse := mkPulse { iv : Q; pv : Q; delay : Q; rise : Q; fall : Q; width : Q; period : Q; bigbig : Q }.

(* fmod for a nonnegative argument and a positive divisor *)
Definition fmod (x p : Q) : Q := x - inject_Z (Qfloor (x / p)) * p.

(* reltime  apps/bm_pulse.cc:158-163, 189-194 *)
Definition reltime (p : pulse) (raw : Q) : Q :=
  if qltb 0 (period p) && qltb (period p) (bigbig p) then fmod (raw - delay p) (period p)
  else raw - delay p.

(* the effective value computed by EVAL_BM_PULSE::tr_eval  149-180 *)
Definition pulse_eval (p : pulse) (raw : Q) : Q :=
  if qleb raw (delay p) then iv p
  else
    let r := reltime p raw in
    if qltb r (rise p) then iv p + r / rise p * (pv p - iv p)
    else if qleb r (rise p + width p) then pv p
    else if qltb r (rise p + width p + fall p) then pv p + (r - (rise p + width p)) / fall p * (iv p - pv p)
    else iv p.

(* the event given to min_event by EVAL_BM_PULSE::tr_review  182-215; the asserts at the end
   are proved, not modelled *)
Definition pulse_review (p : pulse) (now dtmin : Q) : Q :=
  let raw := now + dtmin * 2 in
  if qleb raw (delay p) then delay p
  else
    let r := reltime p raw in
    let off := raw - r in
    if qltb r (rise p) then rise p + off
    else if qltb r (rise p + width p) then rise p + width p + off
    else if qltb r (rise p + width p + fall p) then rise p + width p + fall p + off
    else period p + off.
