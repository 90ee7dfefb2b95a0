(* The basic elements: what apps/d_res.cc, d_admit.cc, d_vs.cc, d_cs.cc, d_vcvs.cc, d_cccs.cc,
   d_ccvs.cc, d_vcg.cc, d_vcr.cc, d_cap.cc, d_coil.cc and d_poly_g.cc compute in an iteration of a
   dc or transient analysis and put into the matrix, and the current they report.  Definitions only.

   Numbers are those of an arbitrary field; <= is an arbitrary boolean function of two of them.
   The behaviour of an element that has one (has_tr_eval) is an arbitrary function giving the value
   and the slope at a point; the point at which it was evaluated (tr_involts_limited,
   tr_input_limited) is arbitrary too.  fixzero in tr_amps and dn_diff (rounding to zero of
   differences below the noise) are left out: they are the identity in exact arithmetic. *)
Require Import ZArith List Bool.
Require Import Verif.Loops Verif.FieldSums Verif.Solver_Model Verif.Storage_Model.
Import ListNotations.

Section S.
Variable K : fld.
Notation T := (F K).
Notation "0" := (f0 K). Notation "1" := (f1 K).
Notation "a +' b" := (fadd K a b) (at level 50, left associativity).
Notation "a -' b" := (fsub K a b) (at level 50, left associativity).
Notation "a *' b" := (fmul K a b) (at level 40, left associativity).
Notation "a /' b" := (fdiv K a b) (at level 40, left associativity).
Notation "-' a" := (fopp K a) (at level 35, right associativity).

Variable short : T.              (* OPT::shortckt, lib/u_opt1.cc *)
Variable leb : T -> T -> bool.   (* <= on double *)
Definition ltb (a b : T) : bool := negb (leb b a).
(* std::abs *)
Definition abs (v : T) : T := if leb 0 v then v else -' v.

(* struct FPOLY1  include/m_cpoly.h:40-66: argument, value and slope *)
Record fpoly := mkfp { px : T; pf0 : T; pf1 : T }.
(* struct CPOLY1  include/m_cpoly.h:68-84: argument, intercept and slope *)
Record cpoly := mkcp { cx : T; cc0 : T; cc1 : T }.
(* FPOLY1::c0  include/m_cpoly.h:64-65 *)
Definition fc0 (p : fpoly) : T := pf0 p -' px p *' pf1 p.
(* CPOLY1::CPOLY1(const FPOLY1&)  include/m_cpoly.h:95-105 *)
Definition cpoly_of (p : fpoly) : cpoly := mkcp (px p) (fc0 p) (pf1 p).
(* CPOLY1::operator*=  include/m_cpoly.h:81 *)
Definition cscale (s : T) (p : cpoly) : cpoly := mkcp (cx p) (cc0 p *' s) (cc1 p *' s).

(* using_tr_eval: no behaviour, only a value (_y[0].f0 == LINEAR), or a function.
   include/e_elemnt.h:469-480 tr_eval: without has_tr_eval, f1 = value and f0 = x * value *)
Inductive beh := Lin (value : T) | Fun (f : T -> T * T).
Definition y_of (b : beh) (a : T) : fpoly :=
  match b with Lin k => mkfp a (a *' k) k | Fun f => mkfp a (fst (f a)) (snd (f a)) end.

(* what differentiate reads: the phase of the analysis, _time[0..2], _method_a, and q[1], q[2],
   i[0], i[1]  lib/e_storag.cc:127-173 *)
Record hist := mkh { h_ph : phase; h_t0 : T; h_t1 : T; h_t2 : T; h_m : METHOD }.
Record past := mkpast { p_q1 : fpoly; p_q2 : fpoly; p_i0 : fpoly; p_i1 : fpoly }.
Definition two : T := 1 +' 1.
Definition k32 : T := (two +' 1) /' two.
Definition k12 : T := 1 /' two.
(* differentiate  lib/e_storag.cc:127-173; None: a failed assert *)
Definition differentiate (h : hist) (p : past) (q0 : fpoly) : option fpoly :=
  match h_ph h with
  | Static => if fz K (h_t0 h) then Some (mkfp (px q0) 0 0) else None
  | Restore => if ltb 0 (h_t0 h) then Some (p_i0 p) else None
  | Dynamic =>
      let method := if fz K (h_t1 h -' h_t2 h) then mEULER else h_m h in
      let dt := h_t0 h -' h_t1 h in
      if ltb 0 dt then
        Some (match method with
        | mTRAPGEAR | mGEAR =>
            mkfp (px q0) (k32 *' (pf0 q0 -' pf0 (p_q1 p)) /' dt -' k12 *' (pf0 (p_q1 p) -' pf0 (p_q2 p)) /' (h_t1 h -' h_t2 h))
                 (pf1 q0 *' k32 /' dt)
        | mTRAPEULER | mEULER => mkfp (px q0) ((pf0 q0 -' pf0 (p_q1 p)) /' dt) (pf1 q0 /' dt)
        | mTRAP => mkfp (px q0) (two *' (pf0 q0 -' pf0 (p_q1 p)) /' dt -' pf0 (p_i1 p)) (pf1 q0 *' two /' dt)
        end)
      else None
  end.

(* an element in the state it is loaded with.  Nodes are matrix rows, 0 for ground.  a is the point
   at which the behaviour was last evaluated, w the voltage across the output at that time. *)
Inductive element :=
| ER (o1 o2 : Z) (b : beh) (a : T)                   (* DEV_RESISTANCE *)
| EY (o1 o2 : Z) (b : beh) (a : T)                   (* DEV_ADMITTANCE *)
| EG (o1 o2 i1 i2 : Z) (b : beh) (a : T)             (* DEV_VCCS *)
| EV (o1 o2 : Z) (v : T)                             (* DEV_VS; v the value now *)
| EI (o1 o2 : Z) (v : T)                             (* DEV_CS *)
| EE (o1 o2 i1 i2 : Z) (b : beh) (a : T)             (* DEV_VCVS *)
| EF (o1 o2 : Z) (inp : element) (b : beh) (a : T)   (* DEV_CCCS *)
| EH (o1 o2 : Z) (inp : element) (b : beh) (a : T)   (* DEV_CCVS *)
| EVCG (o1 o2 i1 i2 : Z) (f : T -> T * T) (a w : T)  (* DEV_VCG *)
| EVCR (o1 o2 i1 i2 : Z) (f : T -> T * T) (a w : T)  (* DEV_VCR *)
| EC (o1 o2 : Z) (b : beh) (a : T) (h : hist) (p : past)            (* DEV_CAPACITANCE *)
| ETC (o1 o2 i1 i2 : Z) (b : beh) (a : T) (h : hist) (p : past)     (* DEV_TRANSCAP *)
| EVCC (o1 o2 i1 i2 : Z) (f : T -> T * T) (a w : T) (h : hist) (p : past)  (* DEV_VCCAP *)
| EL (o1 o2 : Z) (b : beh) (a : T) (h : hist) (p : past)            (* DEV_INDUCTANCE, not _c_model *)
| ELc (o1 o2 i1 : Z) (b : beh) (a : T) (h : hist) (p : past)        (* DEV_INDUCTANCE, _c_model *)
| EK (n1 n2 : Z) (lm a1 a2 : T) (h : hist) (p pf pr : past)         (* DEV_MUTUAL_L *)
| EP (o1 o2 : Z) (v0 v1 : T) (ports : list (Z * Z * T)).            (* DEV_CPOLY_G *)

(* has_iv_probe and has_inode  d_res.cc:45 d_admit.cc:51 d_vs.cc:46 d_cs.cc:46 d_cap.cc:51
   d_coil.cc:53-54, false otherwise  include/e_compon.h:255-256 (d_coil.cc:118 for K) *)
Definition has_inode (e : element) : bool := match e with ELc _ _ _ _ _ _ _ => true | _ => false end.
Definition has_iv_probe (e : element) : bool :=
  match e with
  | ER _ _ _ _ | EY _ _ _ _ | EV _ _ _ | EI _ _ _ | EC _ _ _ _ _ _ | EL _ _ _ _ _ _ | ELc _ _ _ _ _ _ _ => true
  | _ => false
  end.

(* the output nodes, and the nodes tr_involts looks at.  lib/e_ccsrc.cc:42-50 for F and H: the
   current node of an inductor that has one, the output nodes of the sensed element otherwise *)
Definition outs (e : element) : Z * Z :=
  match e with
  | ER o1 o2 _ _ | EY o1 o2 _ _ | EG o1 o2 _ _ _ _ | EV o1 o2 _ | EI o1 o2 _ | EE o1 o2 _ _ _ _ | EF o1 o2 _ _ _
  | EH o1 o2 _ _ _ | EVCG o1 o2 _ _ _ _ _ | EVCR o1 o2 _ _ _ _ _ | EC o1 o2 _ _ _ _ | ETC o1 o2 _ _ _ _ _ _
  | EVCC o1 o2 _ _ _ _ _ _ _ | EL o1 o2 _ _ _ _ | ELc o1 o2 _ _ _ _ _ | EP o1 o2 _ _ _ => (o1, o2)
  | EK n1 n2 _ _ _ _ _ _ _ => (n1, n2)
  end.
Definition ins (e : element) : Z * Z :=
  match e with
  | EG _ _ i1 i2 _ _ | EE _ _ i1 i2 _ _ | EVCG _ _ i1 i2 _ _ _ | EVCR _ _ i1 i2 _ _ _ | ETC _ _ i1 i2 _ _ _ _
  | EVCC _ _ i1 i2 _ _ _ _ _ => (i1, i2)
  | EF _ _ inp _ _ | EH _ _ inp _ _ => match inp with ELc _ _ i1 _ _ _ _ => (i1, 0%Z) | _ => outs inp end
  | ELc _ _ i1 _ _ _ _ => (i1, 0%Z)
  | _ => outs e
  end.

(* _loss0 and _m0 *)
Record est := mkest { e_loss : T; e_m : cpoly }.

(* DEV_RESISTANCE::tr_begin, dc_advance: the value used for a linear resistor
   apps/d_res.cc:88-93, 108-114 *)
Definition res_value (v : T) : T := if ltb (abs v) short then short else v.
(* DEV_RESISTANCE::do_tr: what becomes of _y[0].f0, _y[0].f1  apps/d_res.cc:158-176 *)
Definition res_clamp (y : fpoly) : fpoly :=
  if leb short (pf1 y) then y
  else if leb (pf1 y) (-' short) then y
  else if leb 0 (pf1 y) then
    mkfp (px y) (if leb 0 (pf0 y) && leb (pf0 y) (px y *' short) then px y *' short else pf0 y) short
  else
    mkfp (px y) (if leb (pf0 y) 0 && leb (px y *' (-' short)) (pf0 y) then px y *' (-' short) else pf0 y) (-' short).
(* apps/d_res.cc:117-118 (linear), 179-180 *)
Definition res_m0 (b : beh) (a : T) : cpoly :=
  match b with
  | Lin v => mkcp 0 0 (1 /' res_value v)
  | Fun _ => let y := res_clamp (y_of b a) in mkcp a (px y -' pf0 y /' pf1 y) (1 /' pf1 y)
  end.
(* apps/d_admit.cc:127-128, 140-141 (linear), 156 *)
Definition adm_m0 (b : beh) (a : T) : cpoly :=
  match b with Lin v => mkcp 0 0 v | Fun _ => cpoly_of (y_of b a) end.
(* apps/d_vcvs.cc:87-88, 101-102 (linear), 116-117 *)
Definition vcvs_m0 (b : beh) (a : T) : cpoly :=
  let loss := 1 /' short in
  match b with Lin v => mkcp 0 0 (-' loss *' v) | Fun _ => cscale (-' loss) (cpoly_of (y_of b a)) end.
(* DEV_CCCS::do_tr_last  apps/d_cccs.cc:105-130.  With a linear gain and a sensed inductor that has
   a current node, _m0.c1 is left at what tr_begin put there (98), the gain: see lin_do_tr below *)
Definition cccs_m0 (b : beh) (a : T) (inode : bool) (si : est) : cpoly :=
  let y := y_of b a in
  let m := match b with Lin v => mkcp a 0 v | Fun _ => cpoly_of y end in
  if inode then m else mkcp (cx m) (cc0 m +' pf1 y *' cc0 (e_m si)) (pf1 y *' (e_loss si +' cc1 (e_m si))).
(* DEV_CCVS::do_tr_last  apps/d_ccvs.cc:87-113.  The case of a linear gain and a sensed inductor
   that has a current node is not covered here: see lin_do_tr below *)
Definition ccvs_m0 (b : beh) (a : T) (inode : bool) (si : est) : cpoly := cscale (-' (1 /' short)) (cccs_m0 b a inode si).
(* DEV_VCG::do_tr  apps/d_vcg.cc:86-100 *)
Definition vcg_st (f : T -> T * T) (a w : T) : est :=
  let c1 := snd (f a) *' w in mkest (fst (f a)) (mkcp w (-' a *' c1) c1).
(* DEV_VCR::do_tr  apps/d_vcr.cc:90-111 *)
Definition vcr_value (r : T) : T := if fz K r then short else r.
Definition vcr_st (f : T -> T * T) (a w : T) : est :=
  let loss := 1 /' vcr_value (fst (f a)) in
  let c1 := -' snd (f a) *' loss *' loss *' w in mkest loss (mkcp w (-' a *' c1) c1).
(* DEV_INDUCTANCE::do_tr: _y[0]  apps/d_coil.cc:351-365 *)
Definition ind_y (c_model : bool) (b : beh) (a : T) : fpoly :=
  match b with
  | Lin _ => y_of b a
  | Fun _ => let y := y_of b a in
      if negb c_model && fz K (pf1 y) then mkfp (px y) (pf0 y) short else y
  end.
(* DEV_INDUCTANCE::do_tr, not _c_model  apps/d_coil.cc:373-376 *)
Definition ind_m0 (i0 : fpoly) : cpoly :=
  let c1 := 1 /' (if fz K (pf1 i0) then short else pf1 i0) in mkcp 0 (-' fc0 i0 *' c1) c1.
(* DEV_VCCAP::do_tr: _y[0] before differentiate  apps/d_cap.cc:197-199 *)
Definition vccap_y (f : T -> T * T) (a w : T) : fpoly := mkfp w (w *' fst (f a)) (fst (f a)).

(* do_tr of every element; None: a failed assert, an element that cannot be sensed
   (lib/e_ccsrc.cc:48-50), or the case of H left to lin_do_tr.  d_cap.cc:153-155, d_coil.cc:371-382 (_loss0 is 1 with a current node, 310),
   d_coil.cc:393-402 for K, d_poly_g.cc:162 *)
Fixpoint eval (e : element) : option est :=
  match e with
  | ER _ _ b a => Some (mkest 0 (res_m0 b a))
  | EY _ _ b a | EG _ _ _ _ b a => Some (mkest 0 (adm_m0 b a))
  | EV _ _ v => Some (mkest (1 /' short) (mkcp 0 (-' (1 /' short) *' v) 0))
  | EI _ _ v => Some (mkest 0 (mkcp 0 v 0))
  | EE _ _ _ _ b a => Some (mkest (1 /' short) (vcvs_m0 b a))
  | EF _ _ inp b a =>
      if has_iv_probe inp then let* si := eval inp in Some (mkest 0 (cccs_m0 b a (has_inode inp) si)) else None
  | EH _ _ inp b a =>
      if has_iv_probe inp && negb (has_inode inp && match b with Lin _ => true | Fun _ => false end) then let* si := eval inp in Some (mkest (1 /' short) (ccvs_m0 b a (has_inode inp) si)) else None
  | EVCG _ _ _ _ f a w => Some (vcg_st f a w)
  | EVCR _ _ _ _ f a w => Some (vcr_st f a w)
  | EC _ _ b a h p | ETC _ _ _ _ b a h p => let* i0 := differentiate h p (y_of b a) in Some (mkest 0 (cpoly_of i0))
  | EVCC _ _ _ _ f a w h p => let* i0 := differentiate h p (vccap_y f a w) in Some (mkest 0 (cpoly_of i0))
  | EL _ _ b a h p => let* i0 := differentiate h p (ind_y false b a) in Some (mkest 0 (ind_m0 i0))
  | ELc _ _ _ b a h p =>
      let* i0 := differentiate h p (ind_y true b a) in Some (mkest 1 (mkcp 0 (1 *' 1 *' fc0 i0) (-' (1 *' 1) *' pf1 i0)))
  | EK _ _ lm a1 a2 h p _ _ =>
      let* i0 := differentiate h p (mkfp (a1 -' a2) ((a1 -' a2) *' (-' lm)) (-' lm)) in
      Some (mkest 1 (mkcp 0 (-' (1 *' 1) *' fc0 i0) (-' (1 *' 1) *' pf1 i0)))
  | EP _ _ v0 v1 _ => Some (mkest 0 (mkcp 0 v0 v1))
  end.
(* DEV_MUTUAL_L::do_tr_last: _mf0_c0 and _mr0_c0  apps/d_coil.cc:405-423; n the winding current *)
Definition mut_c0 (lm a : T) (h : hist) (p : past) : option T :=
  let* i0 := differentiate h p (mkfp a (a *' (-' lm)) (-' lm)) in Some (-' (1 *' 1) *' fc0 i0).

(* the values handed to the matrix: tr_load of each element.
   passive: d_res.cc:54 d_admit.cc:59 d_cap.cc:56 d_coil.cc:431-432;  active: d_admit.cc:93 d_cap.cc:92,
   d_cccs.cc:49;  shunt and source: d_vs.cc:54;  source: d_cs.cc:54;
   shunt and active: d_vcvs.cc:51 d_ccvs.cc:48 d_vcg.cc:56 d_vcr.cc:52;  d_coil.cc:434-436, 442-445;
   d_poly_g.cc:191-199 *)
Definition slots (e : element) : option (list (place * T)) :=
  let* s := eval e in
  let c0 := cc0 (e_m s) in let c1 := cc1 (e_m s) in let loss := e_loss s in
  let '(o1, o2) := outs e in let '(i1, i2) := ins e in
  let passive := [(PShunt o1 o2, c1); (PSource o1 o2, c0)] in
  let active := [(PActive o1 o2 i1 i2, c1); (PSource o1 o2, c0)] in
  match e with
  | ER _ _ _ _ | EY _ _ _ _ | EC _ _ _ _ _ _ | EVCC _ _ _ _ _ _ _ _ _ | EL _ _ _ _ _ _ => Some passive
  | EG _ _ _ _ _ _ | EF _ _ _ _ _ | ETC _ _ _ _ _ _ _ _ => Some active
  | EV _ _ _ => Some [(PShunt o1 o2, loss); (PSource o1 o2, c0)]
  | EI _ _ _ => Some [(PSource o1 o2, c0)]
  | EE _ _ _ _ _ _ | EH _ _ _ _ _ | EVCG _ _ _ _ _ _ _ | EVCR _ _ _ _ _ _ _ => Some ((PShunt o1 o2, loss) :: active)
  | ELc _ _ _ _ _ _ _ => Some [(PInode o1 o2 i1, loss); (PDiagonal i1, c1); (PSourcePoint i1, c0)]
  | EK _ _ lm a1 a2 h _ pf pr =>
      let* mf := mut_c0 lm a1 h pf in let* mr := mut_c0 lm a2 h pr in
      Some [(PCouple o1 o2, c1); (PSource o1 o2, c0); (PSourcePoint o2, mr); (PSourcePoint o1, mf)]
  | EP _ _ _ _ ports => Some (passive ++ map (fun q => (PActive o1 o2 (fst (fst q)) (snd (fst q)), snd q)) ports)
  end.

(* the voltage across a pair of nodes *)
Definition dv (x : Z -> T) (n : Z * Z) : T := x (fst n) -' x (snd n).
(* tr_amps, the probe: lib/e_elemnt.cc:369-374 with the tr_involts of each element (0 for V and I:
   d_vs.cc:56 d_cs.cc:56); d_coil.cc:478-485; d_coil.cc:135; d_poly_g.cc:209-216 *)
Definition tr_amps (e : element) (x : Z -> T) : option T :=
  let* s := eval e in
  let m := e_m s in
  match e with
  | EV _ _ _ | EI _ _ _ => Some (e_loss s *' dv x (outs e) +' cc1 m *' 0 +' cc0 m)
  | ELc _ _ i1 _ _ _ _ => Some (e_loss s *' x i1)
  | EK _ _ _ _ _ _ _ _ _ => Some (e_loss s *' dv x (outs e))
  | EP _ _ _ v1 ports =>
      Some (fold_left (fun acc q => acc +' dv x (fst q) *' snd q) ((outs e, v1) :: ports) (cc0 m))
  | _ => Some (e_loss s *' dv x (outs e) +' cc1 m *' dv x (ins e) +' cc0 m)
  end.

(* what dc sweeps do to a linear element: the part of its state that matters.  y, y1: _y[0].f1 and
   _y1.f1 *)
Record lst := mkl { l_y : T; l_y1 : T; l_c0 : T; l_c1 : T; l_loss : T }.
Inductive lkind := KR | KY | KV | KI | KE | KF (inode : bool) (si : est) | KH (inode : bool) (si : est).
(* tr_begin of each: d_res.cc:105-118, d_admit.cc:136-142, d_vs.cc:98-108, d_cs.cc:99-108,
   d_vcvs.cc:96-103, d_cccs.cc:94-100, d_ccvs.cc:77-84 *)
Definition lin_begin (k : lkind) (v : T) : lst :=
  match k with
  | KR => mkl (res_value v) (res_value v) 0 (1 /' res_value v) 0
  | KY | KF _ _ => mkl v v 0 v 0
  | KV => mkl v v (-' (1 /' short) *' v) 0 (1 /' short)
  | KI => mkl v v v 0 0
  | KE | KH _ _ => mkl v v 0 (-' (1 /' short) *' v) (1 /' short)
  end.
(* dc_advance of each (ELEMENT::dc_advance, lib/e_elemnt.cc:235-244, changes none of this):
   d_res.cc:81-103, d_admit.cc:117-134, d_vs.cc:81-96, d_cs.cc:81-97, d_vcvs.cc:77-94, d_cccs.cc:70-85;
   DEV_CCVS has none *)
Definition lin_advance (k : lkind) (v : T) (s : lst) : lst :=
  let y := match k with KR => res_value v | KH _ _ => l_y s | _ => v end in
  if fz K (y -' l_y1 s) then mkl y (l_y1 s) (l_c0 s) (l_c1 s) (l_loss s) else
  match k with
  | KR => mkl y y (l_c0 s) (1 /' y) (l_loss s)
  | KY => mkl y y 0 y (l_loss s)
  | KV => mkl y y (-' l_loss s *' y) (l_c1 s) (l_loss s)
  | KI => mkl y y y (l_c1 s) (l_loss s)
  | KE => mkl y y 0 (-' l_loss s *' y) (l_loss s)
  | KF _ _ => mkl y y y (l_c1 s) (l_loss s)
  | KH _ _ => s
  end.
(* do_tr of the first five does nothing (d_res.cc:182-189, d_admit.cc:157-164, d_vs.cc:138-148,
   d_cs.cc:123-132, d_vcvs.cc:118-126); do_tr_last: d_cccs.cc:114-130, d_ccvs.cc:96-112.  None: the
   assertion that _y[0].f1 is value() *)
Definition lin_do_tr (k : lkind) (v : T) (s : lst) : option lst :=
  match k with
  | KF inode si =>
      if fz K (l_y s -' v) then
        Some (if inode then mkl (l_y s) (l_y s) 0 (l_c1 s) (l_loss s)
              else mkl (l_y s) (l_y s) (0 +' l_y s *' cc0 (e_m si)) (l_y s *' (e_loss si +' cc1 (e_m si))) (l_loss s))
      else None
  | KH inode si =>
      if fz K (l_y s -' v) then
        Some (let '(c0, c1) := if inode then (0, l_c1 s)
                               else (0 +' l_y s *' cc0 (e_m si), l_y s *' (e_loss si +' cc1 (e_m si))) in
              mkl (l_y s) (l_y s) (c0 *' (-' l_loss s)) (c1 *' (-' l_loss s)) (l_loss s))
      else None
  | _ => if fz K (l_y s -' (match k with KR => res_value v | _ => v end)) then Some s else None
  end.
(* one step of a dc sweep: a new value, dc_advance, then some iterations *)
Fixpoint iterate (n : nat) (k : lkind) (v : T) (s : lst) : option lst :=
  match n with O => Some s | S n' => let* s' := lin_do_tr k v s in iterate n' k v s' end.
Definition lin_step (k : lkind) (vn : T * nat) (s : lst) : option lst :=
  iterate (snd vn) k (fst vn) (lin_advance k (fst vn) s).

(* the records of DEV_MUTUAL_L over time: _y, _yf, _yr (index 0..2) and _i, _if, _ir; what
   do_tr_last and the advances do to them.  apps/d_coil.cc:313-347, 387-424, lib/e_storag.cc:88-104,
   lib/e_elemnt.cc:246-258 *)
Record chain := mkch { c_q0 : fpoly; c_q1 : fpoly; c_q2 : fpoly; c_i0 : fpoly; c_i1 : fpoly }.
Definition past_of (c : chain) : past := mkpast (c_q1 c) (c_q2 c) (c_i0 c) (c_i1 c).
Record mut := mkmut { m_y : chain; m_f : chain; m_r : chain }.
Inductive mop := MEval (lm a1 a2 : T) (h : hist) | MAdvance | MDcAdvance.
Definition chain_eval (h : hist) (x fl f1' : T) (c : chain) : option chain :=
  let q := mkfp x fl f1' in
  let* i0 := differentiate h (past_of c) q in Some (mkch q (c_q1 c) (c_q2 c) i0 (c_i1 c)).
Definition chain_adv (c : chain) : chain := mkch (c_q0 c) (c_q0 c) (c_q1 c) (c_i0 c) (c_i0 c).
Definition chain_dc (c : chain) : chain := mkch (c_q0 c) (c_q1 c) (c_q2 c) (c_i0 c) (c_i0 c).
Definition mut_op (o : mop) (m : mut) : option mut :=
  match o with
  | MEval lm a1 a2 h =>
      let* y := chain_eval h (a1 -' a2) ((a1 -' a2) *' (-' lm)) (-' lm) (m_y m) in
      let* f := chain_eval h a1 (a1 *' (-' lm)) (-' lm) (m_f m) in
      let* r := chain_eval h a2 (a2 *' (-' lm)) (-' lm) (m_r m) in Some (mkmut y f r)
  | MAdvance => Some (mkmut (chain_adv (m_y m)) (chain_adv (m_f m)) (chain_adv (m_r m)))
  | MDcAdvance => Some (mkmut (chain_dc (m_y m)) (chain_dc (m_f m)) (chain_dc (m_r m)))
  end.
End S.
