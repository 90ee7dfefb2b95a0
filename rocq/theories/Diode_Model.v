(* apps/d_diode.model: the current of a diode junction (eval Yj) and its capacitance (eval Cj), with the iteration of
   the admittance it is in (apps/d_admit.cc).

   Simplified: numbers are real numbers, so no rounding and no overflow; exp, log, pow and sqrt are the functions of
   the standard library of the prover; the parameters are values, the has_good_value of one is an option.  Not modelled:
   the series resistance (a resistor, Elements_Model), the probes, the damping strategy (_fulldamp), the messages. *)
Require Import Reals ZArith Bool.
Require Import Verif.Loops.
Local Open Scope R_scope.

(* log and pow where they have a value: None is a domain error (NaN or infinity).  pow of a base that is not positive
   is left out altogether *)
Definition flog (x : R) : option R := if Rlt_dec 0 x then Some (ln x) else None.
Definition fpow (x y : R) : option R := if Rlt_dec 0 x then Some (Rpower x y) else None.

(* include/constant.h:58, 61, 68, 73 *)
Definition P_Q : R := 1.6021918e-19.
Definition P_K : R := 1.3806226e-23.
Definition P_CELSIUS0 : R := 273.15.
Definition P_K_Q : R := P_K / P_Q.

(* apps/d_diode.model:31 *)
Inductive region := INITOFF | REVERSE | UNKNOWN | FORWARD.
(* include/m_interp.h FPOLY1 *)
Record fp := Fp { fx : R; f0 : R; f1 : R }.
(* apps/d_diode.model:366-425, the parameters that are used here *)
Record model := Model {
  n_factor : R; tt : R; pb : R; mj : R; eg : R; xti : R; fc : R; bv : option R; pbsw : R; mjsw : R; tnom_c : R; m_flags : Z; mos_level : Z }.
(* apps/d_diode.model:108-136, calculated *)
Record common := Common { is_adjusted : R; cj_adjusted : R; cjsw_adjusted : R; gparallel : R; off : bool }.
(* the simulator: temperature, options, and whether this is the first iteration of an initial step *)
Record sim := Sim { temp_c : R; gmin : R; diodeflags : Z; initial_step : bool }.

Section D.
Variable not_input : R.   (* include/constant.h:99 *)

(* apps/d_diode.model:195: bit 0x8000 means that the option decides *)
Definition flags (m : model) (e : sim) : Z := if Z.testbit (m_flags m) 15 then diodeflags e else m_flags m.
(* apps/d_diode.model:196-197 *)
Definition tempratio (m : model) (e : sim) : R := (temp_c e + P_CELSIUS0) / (tnom_c m + P_CELSIUS0).
Definition vt_of (m : model) (e : sim) : R := P_K_Q * (temp_c e + P_CELSIUS0) * n_factor m.
(* apps/d_diode.model:199-200 *)
Definition isat_of (m : model) (c : common) (e : sim) : option R :=
  let* p := fpow (tempratio m e) (xti m) in
  Some (is_adjusted c * p * exp ((eg m / vt_of m e) * (tempratio m e - 1))).

(* apps/d_diode.model:203-220: the limit on the voltage; vold is _y1.f0 *)
Definition limit (vt isat vold volts : R) : option R :=
  let* l := flog (vt / (sqrt 2 * isat)) in
  let vcrit := vt * l in
  if Rlt_dec vcrit volts then
    if Rlt_dec (vt + vt) (Rabs (volts - vold)) then
      if Rlt_dec 0 vold then
        let arg := 1 + (volts - vold) / vt in
        if Rlt_dec 0 arg then let* k := flog arg in Some (vold + vt * k) else Some vcrit
      else let* k := flog (volts / vt) in Some (vt * k)
    else Some volts
  else Some volts.

(* apps/d_diode.model:222-260: the junctions of a mos transistor; the values f0 and f1.  The default (unreachable) is gmin *)
Definition mos_junction (level : Z) (g vt isat volts : R) : region * (R * R) :=
  if (Z.leb 1 level && Z.leb level 6)%bool then
    if Rle_dec volts 0 then
      let g1 := isat / vt + g in (REVERSE, (g1 * volts, g1))
    else
      let ev := exp (volts / vt) in (FORWARD, (isat * (ev - 1) + g * volts, isat * ev / vt + g))
  else if (Z.leb 7 level && Z.leb level 8)%bool then
    if Rlt_dec volts (1/2) then
      let ev := exp (volts / vt) in (REVERSE, (isat * (ev - 1) + g * volts, isat * ev / vt + g))
    else
      let ev := exp (1/2 / vt) in
      let t0 := isat * ev / vt in
      (FORWARD, (isat * (ev - 1) + t0 * (volts - 1/2) + g * volts, t0 + g))
  else (UNKNOWN, (volts * g, g)).
(* apps/d_diode.model:261-278: the region is left as it was *)
Definition spice_junction (b : option R) (g vt isat volts : R) : R * R :=
  let (i, c) :=
    if Rle_dec (-3 * vt) volts then
      let evd := exp (volts / vt) in (isat * (evd - 1), isat * evd / vt)
    else if match b with Some _ => true | None => if Rle_dec not_input volts then true else false end then
      let a := 3 * vt / (volts * exp 1) in
      let a := a * a * a in
      (- isat * (1 + a), isat * 3 * a / volts)
    else
      let evrev := exp (- (match b with Some x => x | None => not_input end + volts) / vt) in
      (- isat * evrev, isat * evrev / vt) in
  (i + g * volts, c + g).
(* apps/d_diode.model:279-334: amps is what the last linearisation says for this voltage *)
Definition own_junction (fl : Z) (init : bool) (g vt isat volts amps : R) : option (region * (R * R)) :=
  if init then
    Some (INITOFF, (0, if Z.testbit fl 4 then g else 0))
  else if Rle_dec volts 0 then
    let expterm := isat * exp (volts / vt) in
    let (i, c) := if Z.testbit fl 3 then (0, 0) else (expterm - isat, expterm / vt) in
    let (i, c) := if Z.testbit fl 1 then (i + g * volts, c + g) else (i, c) in
    let (i, c) := if Z.testbit fl 2 then (i + isat / vt * volts, c + isat / vt) else (i, c) in
    Some (REVERSE, (i, c))
  else if Rle_dec 0 amps then
    let c := (isat + amps) / vt in
    let* l := flog (amps / isat + 1) in
    Some (FORWARD, (amps - l * (isat + amps) + volts * c, c))
  else
    let c := isat / vt in
    Some (UNKNOWN, (if Z.testbit fl 0 then volts * c else 0, c)).
(* apps/d_diode.model:336-359 *)
Definition extras (fl : Z) (g gp volts : R) (ic : R * R) : R * R :=
  let (i, c) := ic in
  let c := c + gp in
  let i := i + gp * volts in
  let c := if Z.testbit fl 6 then if Rlt_dec c g then g else c else c in
  let (i, c) := if Z.testbit fl 7 then (i + g * volts, c + g) else (i, c) in
  let i := if Z.testbit fl 8 then c * volts else i in
  (i, c).
(* apps/d_diode.model:189-363 eval Yj: y is _y[0] before, vold is _y1.f0; the new region and _y[0]; _gd is its f1 *)
Definition eval_Yj (m : model) (c : common) (e : sim) (old : region) (vold : R) (y : fp) : option (region * fp) :=
  let fl := flags m e in
  let vt := vt_of m e in
  let* isat := isat_of m c e in
  let style := (Z.ltb 0 (mos_level m) || Z.testbit fl 5)%bool in
  let* volts := if style then limit vt isat vold (fx y) else Some (fx y) in
  if Z.ltb 0 (mos_level m) then
    let (r, ic) := mos_junction (mos_level m) (gmin e) vt isat volts in Some (r, Fp (fx y) (fst ic) (snd ic))
  else if Z.testbit fl 5 then
    let ic := spice_junction (bv m) (gmin e) vt isat volts in Some (old, Fp (fx y) (fst ic) (snd ic))
  else
    let* (r, ic) := own_junction fl (off c && initial_step e) (gmin e) vt isat volts (f0 y) in
    let ic := extras fl (gmin e) (gparallel c) volts ic in
    Some (r, Fp (fx y) (fst ic) (snd ic)).

(* the junction between two iterations: _y[0] = _y1, and _m0 = CPOLY1(_y[0]) *)
Record junction := Junction { j_region : region; j_y : fp }.
(* apps/d_admit.cc:149-155 do_tr at the voltage x: the current of the last linearisation at x is put into f0 first
   (include/m_cpoly.h: c0 = f0 - x * f1) *)
Definition do_tr (m : model) (c : common) (e : sim) (x : R) (j : junction) : option junction :=
  let y := j_y j in
  let amps := f1 y * x + (f0 y - fx y * f1 y) in
  let* (r, y') := eval_Yj m c e (j_region j) (f0 y) (Fp x amps (f1 y)) in
  Some (Junction r y').

(* apps/d_diode.model:142-152, 155-165 *)
Definition depletion (cap volts fcv pbv mjv : R) : option R :=
  if Req_EM_T cap 0 then Some 0
  else if Rlt_dec volts (fcv * pbv) then
    let* p := fpow (1 - volts / pbv) mjv in Some (cap / p)
  else
    let* p := fpow (1 - fcv) (1 + mjv) in
    Some ((cap / p) * (1 - fcv * (1 + mjv) + (volts / pbv) * mjv)).
(* assert(x >= 0): apps/d_diode.model:153, 166, 174 *)
Definition nonneg (x : R) : option R := if Rle_dec 0 x then Some x else None.
(* apps/d_diode.model:138-188 eval Cj: prev is _y[1], given when the analysis is transient and not the first step *)
Definition eval_Cj (m : model) (c : common) (gd : R) (prev : option fp) (volts : R) : option fp :=
  let* cb := depletion (cj_adjusted c) volts (fc m) (pb m) (mj m) in
  let* cb := nonneg cb in
  let* csw := depletion (cjsw_adjusted c) volts (fc m) (pbsw m) (mjsw m) in
  let* csw := nonneg csw in
  let* ctt := nonneg (if Req_EM_T (tt m) 0 then 0 else gd * tt m) in
  let cap := cb + csw + ctt in
  match prev with
  | Some p => Some (Fp volts ((volts - fx p) * ((cap + f1 p) / 2) + f0 p) cap)
  | None => Some (Fp volts (volts * cap) cap)
  end.
End D.
