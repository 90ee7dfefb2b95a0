(* What an ac probe shows: lib/e_base.cc:97-144, lib/u_xprobe.cc, include/u_xprobe.h,
   include/m_phase.h, lib/e_node.cc:115-119, 154-164, lib/e_elemnt.cc:447-478.
   Numbers are exact reals; signed zeros, infinities and rounding of doubles are not modelled. *)
Require Import String.
Require Import Reals List Ascii Bool.
Require Import Verif.Loops Verif.Wmatch_Model Verif.CS_Model Verif.Params_Model.
Import ListNotations.
Local Open Scope string_scope.
Local Open Scope R_scope.
Local Open Scope list_scope.

(* include/u_xprobe.h:30 *)
Inductive mod_t := mtNONE | mtMAG | mtPHASE | mtREAL | mtIMAG.
(* a complex number: real and imaginary part *)
Definition cplx : Type := R * R.
(* include/u_xprobe.h:32-36 *)
Record xprobe := XP { x_value : cplx; x_mod : mod_t; x_dbscale : R }.
(* include/u_xprobe.h:47-50, 51-54, 55-58, 59-62: the four constructors used; lib/e_base.cc:37 *)
Definition xp_c (v : cplx) : xprobe := XP v mtMAG 20.
Definition xp_m (v : cplx) (m : mod_t) : xprobe := XP v m 20.
Definition xp_d (v : cplx) (m : mod_t) (d : R) : xprobe := XP v m d.
Definition xp_r (v : R) : xprobe := XP (v, 0) mtREAL 20.
Definition xp_none : xprobe := xp_m (0, 0) mtNONE.
(* include/u_xprobe.h:72 *)
Definition xp_exists (x : xprobe) : bool := match x_mod x with mtNONE => false | _ => true end.

(* what is printed: a number, or NOT_VALID (include/constant.h:100), which stands for "??" *)
Inductive shown := Value (r : R) | Not_valid.

(* std::abs of a complex number *)
Definition cabs (c : cplx) : R := sqrt (fst c * fst c + snd c * snd c).
(* std::arg of a complex number, which is atan2(imag, real); arg(0) is 0 *)
Definition carg (c : cplx) : R :=
  if Rlt_dec 0 (fst c) then atan (snd c / fst c)
  else if Rlt_dec (fst c) 0 then
    (if Rle_dec 0 (snd c) then atan (snd c / fst c) + PI else atan (snd c / fst c) - PI)
  else if Rlt_dec 0 (snd c) then PI / 2
  else if Rlt_dec (snd c) 0 then - (PI / 2) else 0.
(* include/constant.h:55 *)
Definition RTOD : R := 180 / PI.
(* include/u_opt.h phase_t *)
Inductive phase_t := pDEGREES | pP_DEGREES | pN_DEGREES | pRADIANS.
(* include/m_phase.h:31-58 *)
Definition phase (opt : phase_t) (x : cplx) : R :=
  match opt with
  | pDEGREES => carg x * RTOD
  | pP_DEGREES => let rv := carg x * RTOD in if Rlt_dec rv 0 then rv + 360 else rv
  | pN_DEGREES => let rv := carg x * RTOD in if Rlt_dec 0 rv then rv - 360 else rv
  | pRADIANS => carg x
  end.

(* include/constant.h:105: 1.0e-50 *)
Definition VOLTMIN : R := / (10 ^ 50).
(* the C library's log10 *)
Definition log10 (x : R) : R := ln x / ln 10.

(* XPROBE::operator()  lib/u_xprobe.cc:28-58 *)
Definition xp_show (opt : phase_t) (x : xprobe) (m : mod_t) (db : bool) : shown :=
  if xp_exists x then
    let m := match m with mtNONE => x_mod x | _ => m end in
    match match m with
          | mtNONE => None
          | mtMAG => Some (cabs (x_value x))
          | mtPHASE => Some (phase opt (x_value x))
          | mtREAL => Some (fst (x_value x))
          | mtIMAG => Some (snd (x_value x))
          end with
    | Some rv => Value (if db then x_dbscale x * log10 (Rmax rv VOLTMIN) else rv)
    | None => Not_valid
    end
  else Not_valid.

(* include/md.h:71 *)
Definition BUFLEN : nat := 256.
(* lib/e_base.cc:120-128: the modifier meant by the last letter *)
Definition modifier_of (ci : bool) (c : ascii) : mod_t :=
  let c := fix_case ci c in
  if Ascii.eqb c "m" then mtMAG else if Ascii.eqb c "p" then mtPHASE
  else if Ascii.eqb c "r" then mtREAL else if Ascii.eqb c "i" then mtIMAG else mtNONE.
(* CKT_BASE::ac_probe_num  lib/e_base.cc:108-144. ac_probe_ext is virtual and is passed in. The text
   has no NUL in it. None: the text does not fit into the buffer, which is undefined behaviour, or an
   Umatch went wrong. *)
Definition ac_probe_num (ci : bool) (opt : phase_t) (ac_probe_ext : list ascii -> option xprobe) (what : list ascii) : option shown :=
  let len := length what in
  if (BUFLEN <? len)%nat then None else
  let* is_db := if (2 <? len)%nat then Umatch ci (skipn (len - 2) what) (str "db ") else Some false in
  let len := if is_db then (len - 2)%nat else len in
  let modifier := if (1 <? len)%nat then modifier_of ci (nth (len - 1) what NUL) else mtNONE in
  let len := match modifier with mtNONE => len | _ => (len - 1)%nat end in
  let parameter := firstn len what in
  let* xp := ac_probe_ext parameter in
  let* xp := if xp_exists xp then Some xp else ac_probe_ext what in
  Some (xp_show opt xp modifier is_db).

(* the complex quantities of an element in ac analysis: ac_outvolts(), ac_involts(), ac_amps(),
   value(), _ev, the admittance of line 449, and the two port impedances. How they come about is in
   AC_Model.v and Port_Model.v. *)
Record quantities := Qu { q_vout : cplx; q_vin : cplx; q_amps : cplx; q_nv : R; q_ev : cplx; q_adm : cplx; q_z : cplx; q_zraw : cplx }.
Definition cmul (a b : cplx) : cplx := (fst a * fst b - snd a * snd b, fst a * snd b + snd a * fst b).
Definition cconj (a : cplx) : cplx := (fst a, - snd a).
(* 1. / admittance *)
Definition cinv (a : cplx) : cplx := let d := fst a * fst a + snd a * snd a in (fst a / d, - snd a / d).
(* DBL_MAX  include/constant.h:94 *)
Definition MAXDBL : R := IZR (2 ^ 1024 - 2 ^ 971).

Section Ext.
Context (ci : bool).
(* ELEMENT::ac_probe_ext  lib/e_elemnt.cc:447-478 *)
Definition element_ext (e : quantities) (x : list ascii) : option xprobe :=
  let* m := Umatch ci x (str "v{out} ") in if m then Some (xp_c (q_vout e)) else
  let* m := Umatch ci x (str "vin ") in if m then Some (xp_c (q_vin e)) else
  let* m := Umatch ci x (str "i ") in if m then Some (xp_c (q_amps e)) else
  let* m := Umatch ci x (str "p ") in if m then Some (xp_d (cmul (q_vout e) (cconj (q_amps e))) mtREAL 10) else
  let* m := Umatch ci x (str "nv ") in if m then Some (xp_r (q_nv e)) else
  let* m := Umatch ci x (str "ev ") in if m then Some (xp_c (q_ev e)) else
  let* m := Umatch ci x (str "y ") in if m then Some (xp_m (q_adm e) mtREAL) else
  let* m := Umatch ci x (str "r ") in if m then
    Some (if Req_EM_T (fst (q_adm e)) 0 then if Req_EM_T (snd (q_adm e)) 0 then xp_r MAXDBL else xp_c (cinv (q_adm e)) else xp_c (cinv (q_adm e)))
  else
  let* m := Umatch ci x (str "z ") in if m then Some (xp_c (q_z e)) else
  let* m := Umatch ci x (str "zraw ") in if m then Some (xp_c (q_zraw e)) else
  Some xp_none.
(* NODE::ac_probe_ext  lib/e_node.cc:154-164; the voltage and the impedance to ground *)
Definition node_ext (v z : cplx) (x : list ascii) : option xprobe :=
  let* m := Umatch ci x (str "v ") in if m then Some (xp_c v) else
  let* m := Umatch ci x (str "z ") in if m then Some (xp_c z) else
  Some xp_none.
End Ext.

(* floor(x/q + .5) * q *)
Definition to_grid (q x : R) : R := IZR (Int_part (x / q + / 2)) * q.
(* CKT_BASE::probe_num  lib/e_base.cc:97-106, what is done to the number; floor is OPT::floor *)
Definition probe_num (floor x : R) : R := if Rle_dec 1 (Rabs x) then x else to_grid floor x.
(* NODE::tr_probe_num "v "  lib/e_node.cc:117-119, seen through probe_num; vfloor is OPT::vfloor *)
Definition node_v (floor vfloor v : R) : R := probe_num floor (to_grid vfloor v).
(* probe_num on what ac_probe_num gives; NOT_VALID is far beyond 1 and stays *)
Definition ac_shown (floor : R) (s : shown) : shown := match s with Value r => Value (probe_num floor r) | Not_valid => Not_valid end.
