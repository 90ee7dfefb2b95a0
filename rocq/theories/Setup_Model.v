(* Setting up a transient analysis: TRANSIENT::setup and options (apps/s_tr_set.cc:36-224) and
   FOURIER::setup, stepnum and the loop bounds of foprint (apps/s_fo.cc:166-204, 229-319), with the class
   PARAMETER<double> as far as it is used there (include/u_parameter.h:96-184, 550-653).

   double is modelled by exact rationals; a division by zero, which gives an infinite double, ends the
   setup here with the outcome Infinite.  The text of the command is not modelled: a command is the list of
   its positional arguments and of its options.  Of options() the ones for output, temperature, uic and trace
   are left out (apps/s_tr_set.cc:188, 192, 197-212). *)
Require Import ZArith QArith Qround List Bool.
Require Import Verif.Loops Verif.Qnum Verif.Measure_Model.
Import ListNotations.
Local Open Scope Q_scope.

(* NOT_INPUT  include/constant.h:99 (the product is taken exactly here) *)
Definition NOT_INPUT : Q := - (DBL_MAX * (9547658 # 10000000)).

Section Setup.
(* expressions, and the value that they have in the scope of the command: None if the expression is a name
   that is not known there, which gives the default (include/u_parameter.h:504-539) *)
Variable E : Type.
Variable ev : E -> option Q.

(* PARA_BASE::_s: empty, "#", or an expression  include/u_parameter.h:46-60, 97-99 *)
Inductive spec := Blank | Fixed | Expr (e : E).
(* PARAMETER<double>: _v and _s  include/u_parameter.h:97-99 *)
Record par := mkpar { pv : Q; ps : spec }.
(* PARA_BASE::has_hard_value: _s is not empty  include/u_parameter.h:57 *)
Definition hard (p : par) : bool := match ps p with Blank => false | _ => true end.
(* PARAMETER::e_val  include/u_parameter.h:551-598 *)
Definition e_val (d : Q) (p : par) : par :=
  match ps p with
  | Blank => mkpar d Blank
  | Fixed => p
  | Expr e => mkpar (match ev e with Some q => q | None => d end) (Expr e)
  end.
(* what is written for a parameter: a number, an expression, or NA  include/u_parameter.h:629-653 *)
Inductive given := Num (q : Q) | Ex (e : E) | NA.
(* PARAMETER::obsolete_parse  include/u_parameter.h:629-653 *)
Definition give (g : given) (p : par) : par :=
  match g with Num q => mkpar q Fixed | Ex e => mkpar (pv p) (Expr e) | NA => mkpar (pv p) Blank end.
(* the constructor PARAMETER()  include/u_parameter.h:101 *)
Definition fresh : par := mkpar NOT_INPUT Blank.
(* operator=(const T&)  include/u_parameter.h:142 *)
Definition fixed (q : Q) : par := mkpar q Fixed.
(* operator=(const std::string&) with "NA"  include/u_parameter.h:148-149 *)
Definition unset (p : par) : par := mkpar (pv p) Blank.
(* set_default  include/u_parameter.h:131 *)
Definition set_default (q : Q) (p : par) : par := mkpar q Blank.

(* TRANSIENT  include/s_tr.h:95-105, SIM_DATA::_last_time, _time0, _dtmin, _freq  include/u_sim_data.h:60-66;
   _skip_in is a PARAMETER<int>: its value is taken as a rational *)
Record st := mkst { tstart : par; tstop : par; tstrobe : par; dtratio_in : par; dtmin_in : par; dtmax_in : par; skip_in : par;
  last_time : Q; time0 : Q; time1 : Q; dtmax : Q; dtmin : Q; freq : Q; cold : bool; cont : bool }.
(* OPT::dtmin, OPT::dtratio  lib/u_opt1.cc:85-86; OPT::harmonics *)
Record opts := mkopts { o_dtmin : Q; o_dtratio : Q; o_harmonics : Q }.
(* an option of the command  apps/s_tr_set.cc:187-196 *)
Inductive word := Cold (b : bool) | Dtmax (g : given) | Dtmin (g : given) | Dtratio (g : given) | Skip (g : given)
  | Start (g : given) | Stop (g : given) | Strobe (g : given).
(* what one option does  apps/s_tr_set.cc:187-196 *)
Definition set_word (w : word) (s : st) : st :=
  let (a, b, c, r, n, x, k, l, t0, t1, dx, dn, f, co, ct) := s in
  match w with
  | Cold y => mkst a b c r n x k l t0 t1 dx dn f y ct
  | Dtmax g => mkst a b c r n (give g x) k l t0 t1 dx dn f co ct
  | Dtmin g => mkst a b c r (give g n) x k l t0 t1 dx dn f co ct
  | Dtratio g => mkst a b c (give g r) n x k l t0 t1 dx dn f co ct
  | Skip g => mkst a b c r n x (give g k) l t0 t1 dx dn f co ct
  | Start g => mkst (give g a) b c r n x k l t0 t1 dx dn f co ct
  | Stop g => mkst a (give g b) c r n x k l t0 t1 dx dn f co ct
  | Strobe g => mkst a b (give g c) r n x k l t0 t1 dx dn f co ct
  end.
(* assignments to _tstart, _tstop, _tstrobe, apps/s_tr_set.cc:65-124, and to _sim->_last_time, 43 *)
Definition set_times (a b c : par) (s : st) : st :=
  mkst a b c (dtratio_in s) (dtmin_in s) (dtmax_in s) (skip_in s) (last_time s) (time0 s) (time1 s) (dtmax s) (dtmin s) (freq s) (cold s) (cont s).
Definition set_last (l : Q) (s : st) : st :=
  mkst (tstart s) (tstop s) (tstrobe s) (dtratio_in s) (dtmin_in s) (dtmax_in s) (skip_in s) l (time0 s) (time1 s) (dtmax s) (dtmin s) (freq s) (cold s) (cont s).
(* the end of TRANSIENT::options  apps/s_tr_set.cc:216-223 *)
Definition set_limits (O : opts) (s : st) : st :=
  mkst (tstart s) (tstop s) (tstrobe s) (e_val (o_dtratio O) (dtratio_in s)) (e_val (o_dtmin O) (dtmin_in s)) (e_val BIGBIG (dtmax_in s)) (e_val 1 (skip_in s))
    (last_time s) (time0 s) (time1 s) (dtmax s) (dtmin s) (freq s) (cold s) (cont s).
(* TRANSIENT::options  apps/s_tr_set.cc:176-224 *)
Definition options (O : opts) (ws : list word) (s : st) : st :=
  set_limits O (fold_left (fun s w => set_word w s) ws (set_word (Cold false) s)).

(* the outcome of a setup: the exception of 136 (or of apps/s_fo.cc:287), a division by zero, or done *)
Inductive outcome := Done (s : st) | Thrown (s : st) | Infinite.

(* the positional arguments, apps/s_tr_set.cc:47-125; None: an assertion fails *)
Definition positions (l : list given) (s : st) : option st :=
  let a := map (fun g => give g fresh) l in
  let range := pv (tstop s) - pv (tstart s) in
  let args3 a1 a2 a3 :=
    if negb (hard a2 && hard a1) then None
    else
      let a1 := e_val 0 a1 in let a3 := e_val 0 a3 in
      if qeqb (pv a3) 0 then Some (set_times a3 a2 a1 s)
      else if qeqb (pv a1) 0 then Some (set_times a1 a2 a3 s)
      else if qltb (pv a3) (pv a1) then Some (set_times a1 a2 a3 s)
      else Some (set_times a3 a2 a1 s) in
  let args2 a1 a2 :=
    if negb (hard a1) then None
    else
      let a1 := e_val 0 a1 in let a2 := e_val 0 a2 in
      if qeqb (pv a1) 0 then Some (set_times a1 a2 (tstrobe s) s)
      else if qleb (pv a2) (pv a1) then Some (set_times (fixed (last_time s)) a1 a2 s)
      else Some (set_times (unset (tstart s)) a2 a1 s) in
  let args1 a1 :=
    if negb (hard a1) then None
    else
      let a1 := e_val 0 a1 in
      if qltb (last_time s) (pv a1) then Some (set_times (fixed (last_time s)) a1 (tstrobe s) s)
      else if qeqb (pv a1) 0 then Some (set_times (fixed 0) (fixed range) (tstrobe s) s)
      else if negb (qleb (pv a1) (last_time s) && qltb 0 (pv a1)) then None
      else Some (set_times (fixed (last_time s)) (fixed (last_time s + range)) a1 s) in
  match a with
  | [] => Some (set_times (fixed (last_time s)) (fixed (last_time s + range)) (tstrobe s) s)
  | [a1] => args1 a1
  | [a1; a2] => if hard a2 then args2 a1 a2 else args1 a1
  | a1 :: a2 :: a3 :: _ => if hard a3 then args3 a1 a2 a3 else if hard a2 then args2 a1 a2 else args1 a1
  end.
(* apps/s_tr_set.cc:164-171, apps/s_fo.cc:310-318: the value of _dtmin for this _dtmax; None: division by zero *)
Definition dtmin_for (dx : Q) (s : st) : option Q :=
  if hard (dtmin_in s) then Some (pv (dtmin_in s))
  else if qeqb (pv (dtratio_in s)) 0 then None
  else let r := dx / pv (dtratio_in s) in
       if hard (dtratio_in s) then Some r
       else Some (if qltb (pv (dtmin_in s)) r then r else pv (dtmin_in s)).
(* assignments to _time1, _sim->_time0, _dtmax, _sim->_dtmin, _sim->_freq, _cont  apps/s_tr_set.cc:147-171, apps/s_fo.cc:292-318 *)
Definition set_run (t dx dn f : Q) (ct : bool) (s : st) : st :=
  mkst (tstart s) (tstop s) (tstrobe s) (dtratio_in s) (dtmin_in s) (dtmax_in s) (skip_in s) (last_time s) t t dx dn f (cold s) ct.
(* apps/s_tr_set.cc:133-171 *)
Definition limits (s : st) : outcome :=
  let s := set_times (e_val 0 (tstart s)) (e_val NOT_INPUT (tstop s)) (tstrobe s) s in
  let a := pv (tstart s) in let b := pv (tstop s) in
  if qltb a 0 || qleb b a then Thrown s
  else
    let c := e_val NOT_INPUT (tstrobe s) in
    let c := if qleb (pv c) 0 then set_default NOT_INPUT c else c in
    let c := e_val (b - a) c in
    let s := set_times (tstart s) (tstop s) c s in
    let again := negb (cold s || qltb a (last_time s) || qleb (last_time s) 0) in
    let t := if again then last_time s else 0 in
    let dx :=
      if hard (dtmax_in s) then Some (pv (dtmax_in s))
      else if hard (skip_in s) then (if qeqb (pv (skip_in s)) 0 then None else Some (pv c / pv (skip_in s)))
      else Some (if qltb (pv c) (pv (dtmax_in s)) then pv c else pv (dtmax_in s)) in
    match dx with
    | None => Infinite
    | Some dx =>
        match dtmin_for dx s with
        | None => Infinite
        | Some dn => Done (set_run t dx dn (if qltb a b then 1 / (b - a) else 0) again s)
        end
    end.
(* a command: the positional arguments, up to three, a fourth that is dtmax, and the options  apps/s_tr_set.cc:47-131 *)
Record cmd := mkcmd { c_args : list given; c_dtmax : option given; c_words : list word }.
(* TRANSIENT::setup  apps/s_tr_set.cc:36-172; [first]: the circuit was not expanded yet *)
Definition setup (O : opts) (first : bool) (c : cmd) (s : st) : option outcome :=
  let s := set_times (e_val NOT_INPUT (tstart s)) (e_val NOT_INPUT (tstop s)) (e_val NOT_INPUT (tstrobe s)) s in
  let s := if first then set_last 0 s else s in
  match positions (c_args c) s with
  | None => None
  | Some s =>
      let s := match c_dtmax c with Some g => set_word (Dtmax g) s | None => s end in
      Some (limits (options O (c_words c) s))
  end.
(* the static object  apps/s_tr.cc, include/s_tr.h:50-63, lib/u_sim_data.cc:40: nothing is set *)
Definition start_st : st := mkst fresh fresh fresh fresh fresh fresh (mkpar 1 Blank) 0 0 0 0 0 0 false false.

(* ---- fourier ---- *)
(* FOURIER  apps/s_fo.cc: _fstart, _fstop, _fstep, _timesteps, and the base class TRANSIENT *)
Record fst_ := mkf { fstart : par; fstop : par; fstep : par; timesteps : Z; run : st }.
(* the positional arguments, apps/s_fo.cc:231-278 *)
Definition f_positions (l : list given) (f : fst_) : option fst_ :=
  let a := map (fun g => give g fresh) l in
  let put x y z := mkf x y z (timesteps f) (run f) in
  let args2 a1 a2 :=
    if negb (hard a1) then None
    else
      let a1 := e_val 0 a1 in let a2 := e_val 0 a2 in
      if qleb (pv a2) (pv a1) then Some (put (unset (fstart f)) a1 a2) else Some (put (unset (fstart f)) a2 a1) in
  let args1 a1 :=
    if negb (hard a1) then None
    else
      let a1 := e_val 0 a1 in
      if qeqb (pv a1) 0 then Some (put (fixed 0) (fstop f) (fstep f)) else Some (put (unset (fstart f)) (unset (fstop f)) a1) in
  match a with
  | [] => Some f
  | [a1] => args1 a1
  | [a1; a2] => if hard a2 then args2 a1 a2 else args1 a1
  | a1 :: a2 :: a3 :: _ =>
      if hard a3 then (if hard a2 && hard a1 then Some (put a1 a2 a3) else None) else if hard a2 then args2 a1 a2 else args1 a1
  end.
(* how FOURIER::setup ends  apps/s_fo.cc:229-319 *)
Inductive f_outcome := FDone (f : fst_) | FThrown | FInfinite | FUndef.
(* apps/s_fo.cc:280-318.  FUndef: static_cast<int> or the shift of to_pow_of_2 overflows *)
Definition f_limits (O : opts) (f : fst_) : f_outcome :=
  let fa := e_val 0 (fstart f) in
  let fs := e_val 0 (fstep f) in
  let fb := e_val (o_harmonics O * pv fs) (fstop f) in
  if qeqb (pv fs) 0 then FThrown
  else
    let fb := if qeqb (pv fb) 0 then fixed (o_harmonics O * pv fs) else fb in
    let z := Qfloor (pv fb * 2 / pv fs) in
    if negb ((- 2 ^ 31 <=? z)%Z && (z <? 2 ^ 31)%Z) then FUndef
    else
      match to_pow_of_2 z with
      | None => FUndef
      | Some y =>
          let n := (y + 1)%Z in
          let s := run f in
          let again := negb (cold s || qleb (last_time s) 0) in
          let t := if again then last_time s else 0 in
          let c := 1 / pv fs / inject_Z (n - 1) in
          let s := set_times (fixed t) (fixed (t + 1 / pv fs)) (fixed c) s in
          if qeqb (pv (skip_in s)) 0 then FInfinite
          else
            let k := c / pv (skip_in s) in
            let dx := if qltb k (pv (dtmax_in s)) then k else pv (dtmax_in s) in
            match dtmin_for dx s with
            | None => FInfinite
            | Some dn => FDone (mkf fa fb fs n (set_run t dx dn (pv fs) again s))
            end
      end.
(* FOURIER::setup  apps/s_fo.cc:229-319 *)
Definition f_setup (O : opts) (l : list given) (ws : list word) (f : fst_) : option f_outcome :=
  match f_positions l f with
  | None => None
  | Some f => Some (f_limits O (mkf (fstart f) (fstop f) (fstep f) (timesteps f) (options O ws (run f))))
  end.
(* stepnum  apps/s_fo.cc:201-204; the conversion to int truncates *)
Definition stepnum (start step here : Q) : Z := let x := (here - start) / step + (1#2) in if qleb 0 x then Qfloor x else Qceiling x.
(* the indices that foprint reads, apps/s_fo.cc:171-185 *)
Definition printed (f : fst_) : Z * Z := (stepnum 0 (pv (fstep f)) (pv (fstart f)), stepnum 0 (pv (fstep f)) (pv (fstop f))).
End Setup.
