(* The measure functions: apps/measure_{max,min,cross,integral,average,rms,slewrate,at}.cc, and the
   number of points of a Fourier analysis (apps/s_fo.cc: to_pow_of_2).

   double is modelled by exact rationals, the stored waveform (include/m_wave.h:32) by the list
   of its points.  The parsing of the arguments and the conversion of the result to text are
   not modelled. *)
Require Import ZArith QArith List Bool.
Require Import Verif.Qnum Verif.Interp_Model.
Import ListNotations.
Local Open Scope Q_scope.

(* DBL_MAX, the largest double (2^53-1)*2^971, and BIGBIG  include/constant.h:95-97 (the product
   is taken exactly here) *)
Definition DBL_MAX : Q := inject_Z ((2 ^ 53 - 1) * 2 ^ 971).
Definition BIGBIG : Q := DBL_MAX * (9247958 # 10000000).

(* std::lower_bound (libstdc++ bits/stl_algobase.h, __lower_bound) for DPAIR(x, -BIGBIG): an
   element is below it if its key is below x.  Values are taken to be at least -BIGBIG, so that
   the second member of the pair never decides. *)
Fixpoint lower_bound (fuel : nat) (t : list (Q * Q)) (x : Q) (first len : nat) : res nat :=
  match len with
  | O => Val first
  | _ =>
      match fuel with
      | O => UB
      | S f =>
          let half := Nat.div2 len in
          let middle := (first + half)%nat in
          match nth_error t middle with
          | None => UB
          | Some e =>
              if qltb (fst e) x then lower_bound f t x (S middle) (len - half - 1)
              else lower_bound f t x first half
          end
      end
  end.

(* begin and end  measure_max.cc:73-74 (the same two lines in every measure function) *)
Definition window (t : list (Q * Q)) (after before : Q) : res (nat * nat) :=
  match lower_bound (length t) t after 0 (length t), upper_bound (length t) t before 0 (length t) with
  | Val b, Val e => Val (b, e)
  | _, _ => UB
  end.
(* the points visited by for (i = begin; i < end; ++i) *)
Definition visited (t : list (Q * Q)) (be : nat * nat) : list (Q * Q) :=
  firstn (snd be - fst be) (skipn (fst be) t).

(* apps/measure_max.cc:71-82: (time, m) *)
Definition max_step (last : bool) (s : Q * Q) (i : Q * Q) : Q * Q :=
  let val := snd i in
  if qltb (snd s) val || (last && qeqb val (snd s)) then (fst i, val) else s.
Definition measure_max (last : bool) (t : list (Q * Q)) (after before : Q) : res (Q * Q) :=
  match window t after before with
  | Val be => Val (fold_left (max_step last) (visited t be) ((if last then - BIGBIG else BIGBIG), - BIGBIG))
  | _ => UB
  end.
(* apps/measure_min.cc:71-82 *)
Definition min_step (last : bool) (s : Q * Q) (i : Q * Q) : Q * Q :=
  let val := snd i in
  if qltb val (snd s) || (last && qeqb val (snd s)) then (fst i, val) else s.
Definition measure_min (last : bool) (t : list (Q * Q)) (after before : Q) : res (Q * Q) :=
  match window t after before with
  | Val be => Val (fold_left (min_step last) (visited t be) ((if last then - BIGBIG else BIGBIG), BIGBIG))
  | _ => UB
  end.

(* apps/measure_cross.cc:76 *)
Inductive cstat := WAITING | READY | DONE.
(* apps/measure_cross.cc:81-104: state (stat, x_time, lower).  The loop stops at DONE; here the
   remaining points are passed over. *)
Definition cross_step (last : bool) (slope cross1 : Q) (s : cstat * Q * (Q * Q)) (i : Q * Q) : cstat * Q * (Q * Q) :=
  let '(stat, x_time, lower) := s in
  let val := snd i * slope in
  match stat with
  | WAITING => if qltb val cross1 then (READY, x_time, i) else s
  | READY =>
      if qltb cross1 val then
        let position := (cross1 * slope - snd lower) / (snd i - snd lower) in
        ((if last then WAITING else DONE), fst lower + position * (fst i - fst lower), lower)
      else (READY, x_time, i)
  | DONE => s
  end.
(* apps/measure_cross.cc:75-105; [rise]: slope 1, otherwise -1 (58-59) *)
Definition measure_cross (last rise : bool) (cross : Q) (t : list (Q * Q)) (after before : Q) : res Q :=
  let slope := if rise then 1 else -1 in
  match window t after before with
  | Val be =>
      Val (snd (fst (fold_left (cross_step last slope (cross * slope)) (visited t be)
                       (WAITING, (if last then - BIGBIG else BIGBIG), (0, 0)))))
  | _ => UB
  end.

(* for (i = begin; ++i < end; ) { area += f(lower, i); lower = i; }  measure_integral.cc:70-74,
   measure_average.cc:70-75, measure_rms.cc:70-76.  [lower] is the first point and [l] the
   visited points after it; returns area and the last lower. *)
Fixpoint areas (f : Q * Q -> Q * Q -> Q) (lower : Q * Q) (l : list (Q * Q)) (area : Q) : Q * (Q * Q) :=
  match l with
  | [] => (area, lower)
  | i :: r => areas f i r (area + f lower i)
  end.
(* the first point is read (or ++i applied) at begin: undefined if that is the end of the wave *)
Definition areas_at (f : Q * Q -> Q * Q -> Q) (t : list (Q * Q)) (after before : Q) : res (Q * Q * Q) :=
  match window t after before with
  | Val be =>
      match nth_error t (fst be) with
      | None => UB
      | Some p => let '(a, lw) := areas f p (tl (visited t be)) 0 in Val (a, fst p, fst lw)
      end
  | _ => UB
  end.
(* the area of one segment  measure_integral.cc:72 *)
Definition seg (lo i : Q * Q) : Q := (1 # 2) * (snd lo + snd i) * (fst i - fst lo).
(* measure_rms.cc:73-74 *)
Definition seg_sq (lo i : Q * Q) : Q := (1 # 2) * (snd lo * snd lo + snd i * snd i) * (fst i - fst lo).
(* measure_integral.cc:66-75 *)
Definition measure_integral (t : list (Q * Q)) (after before : Q) : res Q :=
  match areas_at seg t after before with Val (a, _, _) => Val a | _ => UB end.
(* a/b; None is the NaN or infinity of a division by zero *)
Definition quot (a b : Q) : option Q := if qeqb b 0 then None else Some (a / b).
(* measure_average.cc:66-76 *)
Definition measure_average (t : list (Q * Q)) (after before : Q) : res (option Q) :=
  match areas_at seg t after before with Val (a, b, e) => Val (quot a (e - b)) | _ => UB end.
(* measure_rms.cc:66-77; simplification: the argument of sqrt, that is the square of the result *)
Definition measure_rms_squared (t : list (Q * Q)) (after before : Q) : res (option Q) :=
  match areas_at seg_sq t after before with Val (a, b, e) => Val (quot a (e - b)) | _ => UB end.

(* measure_slewrate.cc:80 *)
Inductive sstat := sWAITING | sREADY | sIN_RANGE | sDONE.
(* stat, try_start_time, start_time, stop_time, lower *)
Record sw := mk_sw { s_stat : sstat; s_try : Q; s_start : Q; s_stop : Q; s_low : Q * Q }.
(* the time at which the line from [lo] to [i] has the value [v]  103-104, 108-111, 125-126 *)
Definition line_time (v : Q) (lo i : Q * Q) : Q :=
  fst lo + (v - snd lo) / (snd i - snd lo) * (fst i - fst lo).
(* measure_slewrate.cc:87-135 (after DONE the remaining points are passed over) *)
Definition slew_step (last : bool) (start_val stop_val : Q) (s : sw) (i : Q * Q) : sw :=
  let val := snd i in
  match s_stat s with
  | sWAITING =>
      mk_sw (if in_order val start_val stop_val then sREADY else sWAITING) (s_try s) (s_start s) (s_stop s) i
  | sREADY =>
      if in_order val start_val stop_val then mk_sw sREADY (s_try s) (s_start s) (s_stop s) i
      else if in_order start_val val stop_val then
        mk_sw sIN_RANGE (line_time start_val (s_low s) i) (s_start s) (s_stop s) i
      else if in_order start_val stop_val val then
        mk_sw sDONE (s_try s) (line_time start_val (s_low s) i) (line_time stop_val (s_low s) i) i
      else mk_sw sREADY (s_try s) (s_start s) (s_stop s) i
  | sIN_RANGE =>
      if in_order val start_val stop_val then mk_sw sREADY (s_try s) (s_start s) (s_stop s) i
      else if in_order start_val val stop_val then mk_sw sIN_RANGE (s_try s) (s_start s) (s_stop s) i
      else if in_order start_val stop_val val then
        mk_sw (if last then sWAITING else sDONE) (s_try s) (s_try s) (line_time stop_val (s_low s) i) i
      else mk_sw sIN_RANGE (s_try s) (s_start s) (s_stop s) i
  | sDONE => s
  end.
(* measure_slewrate.cc:80-146, without the expression form: None is the failed assert 137 *)
Definition measure_slewrate (last : bool) (start_val stop_val : Q) (t : list (Q * Q)) (after before : Q) : res (option Q) :=
  match window t after before with
  | Val be =>
      let s := fold_left (slew_step last start_val stop_val) (visited t be)
                 (mk_sw sWAITING BIGBIG BIGBIG BIGBIG (0, 0)) in
      if qltb (s_stop s) BIGBIG then
        if qltb (s_start s) (s_stop s) then Val (Some ((stop_val - start_val) / (s_stop s - s_start s)))
        else Val None
      else Val (Some BIGBIG)
  | _ => UB
  end.

(* measure_at.cc:62-63 *)
Definition measure_at (derivative : bool) (a : wave) (x : Q) : res Q :=
  match v_out a x with
  | Val p => Val (if derivative then Interp_Model.f1 p else Interp_Model.f0 p)
  | Throw => Throw
  | UB => UB
  end.

(* to_pow_of_2  apps/s_fo.cc:349-357; [x] is floor(Z).  for (y = 1; x > 0; x >>= 1) y <<= 1 ,
   with int arithmetic: None on overflow of the shift.  [fuel]: one per bit. *)
Fixpoint pow2_loop (fuel : nat) (x y : Z) : option Z :=
  if Z.ltb 0 x then
    match fuel with
    | O => None
    | S f => if Z.ltb (2 * y) (2 ^ 31) then pow2_loop f (Z.div2 x) (2 * y) else None
    end
  else Some y.
Definition to_pow_of_2 (x : Z) : option Z := pow2_loop 64 x 1.
