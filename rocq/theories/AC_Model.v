(* The ac analysis: what AC::solve does at one frequency (apps/s_ac.cc:234-252), and ac_begin, do_ac,
   ac_load and ac_amps of the elements of Elements_Model.  Definitions only.

   Numbers are those of an arbitrary field, which is to be read as the complex numbers; the values
   an element has from its operating point are elements of the same field. *)
Require Import ZArith List Bool.
Require Import Verif.Loops Verif.FieldSums Verif.Matrix_Model Verif.Matrix_Exact Verif.Solver_Model Verif.Storage_Model Verif.Elements_Model.
Import ListNotations.

Section Elem.
Variable K : fld.
Notation T := (F K).
Notation "0" := (f0 K). Notation "1" := (f1 K).
Notation "a +' b" := (fadd K a b) (at level 50, left associativity).
Notation "a -' b" := (fsub K a b) (at level 50, left associativity).
Notation "a *' b" := (fmul K a b) (at level 40, left associativity).
Notation "a /' b" := (fdiv K a b) (at level 40, left associativity).
Notation "-' a" := (fopp K a) (at level 35, right associativity).

Variable short : T.              (* OPT::shortckt *)
Variable leb : T -> T -> bool.   (* <= on double, for the operating point *)
Variable small : T -> bool.      (* std::abs(x) <= OPT::shortckt on complex numbers, apps/d_res.cc:204 *)
Variable jw : T.                 (* _sim->_jomega, apps/s_ac.cc:261 *)
Variable op : bool.              (* _sim->has_op() != s_NONE: an operating point was computed before *)
Definition eqb (a b : T) : bool := fz K (a -' b).

(* what an element has for ac: has_ac_eval with the function that gives _ev from _y[0].x
   (EVAL_BM_ACTION_BASE::ac_eval lib/bm.cc:174-179 is the adjusted slope; other behaviours give a
   constant), and has_probes.  The _y[0].x of a source, which is the time, is taken as 0: the function of
   a source is not applied anywhere else *)
Record aset := mkset { a_eval : option (T -> T); a_probes : bool }.
(* using_ac_eval  include/e_elemnt.h:464-467 *)
Definition using_ac (s : aset) : bool := a_probes s || match a_eval s with Some _ => true | None => false end.
(* ELEMENT::ac_eval: _ev  include/e_elemnt.h:482-490 *)
Definition ac_ev (s : aset) (y : fpoly K) : T := match a_eval s with Some g => g (px K y) | None => pf1 K y end.

(* value(): of an element with a behaviour it is not given and 0  lib/e_elemnt.cc:171-175 *)
Definition lin_value (b : beh K) : T := match b with Lin _ v => v | Fun _ _ => 0 end.
Definition value_of (e : element K) : T :=
  match e with
  | ER _ _ _ b _ | EY _ _ _ b _ | EG _ _ _ _ _ b _ | EE _ _ _ _ _ b _ | EF _ _ _ _ b _ | EH _ _ _ _ b _
  | EC _ _ _ b _ _ _ | ETC _ _ _ _ _ b _ _ _ | EL _ _ _ b _ _ _ | ELc _ _ _ _ b _ _ _ => lin_value b
  | EV _ _ _ v | EI _ _ _ v => v
  | _ => 0
  end.
(* has_tr_eval *)
Definition has_tr (e : element K) : bool :=
  match e with
  | ER _ _ _ b _ | EY _ _ _ b _ | EG _ _ _ _ _ b _ | EE _ _ _ _ _ b _ | EF _ _ _ _ b _ | EH _ _ _ _ b _
  | EC _ _ _ b _ _ _ | ETC _ _ _ _ _ b _ _ _ | EL _ _ _ b _ _ _ | ELc _ _ _ _ b _ _ _ =>
      match b with Lin _ _ => false | Fun _ _ => true end
  | EV _ _ _ _ | EI _ _ _ _ => false
  | _ => true
  end.

(* _y[0] as the last iteration before the ac analysis left it: apps/d_res.cc:88-93, 158-176;
   include/e_elemnt.h:469-480; d_vs.cc:102, 126; d_cs.cc:99, 121; d_vcr.cc:96-99; d_cap.cc:197-199;
   d_coil.cc:351-365, 318 *)
Definition y_tr (e : element K) : fpoly K :=
  match e with
  | ER _ _ _ b a => match b with Lin _ v => mkfp K 0 0 (res_value K short leb v) | Fun _ _ => res_clamp K short leb (y_of K b a) end
  | EY _ _ _ b a | EG _ _ _ _ _ b a | EE _ _ _ _ _ b a | EF _ _ _ _ b a | EH _ _ _ _ b a
  | EC _ _ _ b a _ _ | ETC _ _ _ _ _ b a _ _ => y_of K b a
  | EV _ _ _ v | EI _ _ _ v => mkfp K 0 0 v
  | EVCG _ _ _ _ _ f a _ => y_of K (Fun K f) a
  | EVCR _ _ _ _ _ f a _ => mkfp K a (vcr_value K short (fst (f a))) (snd (f a))
  | EVCC _ _ _ _ _ f a w _ _ => vccap_y K f a w
  | EL _ _ _ b a _ _ => ind_y K short false b a
  | ELc _ _ _ _ b a _ _ => ind_y K short true b a
  | EK _ _ _ lm a1 a2 _ _ _ _ => mkfp K (a1 -' a2) ((a1 -' a2) *' (-' lm)) (-' lm)
  | EP _ _ _ _ _ _ => mkfp K 0 0 0
  end.
(* _y[0] when nothing ran before: that of the constructor, or for inductors that of precalc_last
   (apps/d_coil.cc:218-228, 270-289).  The f0 of a linear one, LINEAR, is not looked at *)
Definition y_new (e : element K) : fpoly K :=
  match e with
  | EL _ _ _ b _ _ _ | ELc _ _ _ _ b _ _ _ => mkfp K 0 0 (lin_value b)
  | EK _ _ _ lm _ _ _ _ _ _ => mkfp K 0 0 (-' lm)
  | _ => mkfp K 0 0 0
  end.
(* ELEMENT::ac_begin  lib/e_elemnt.cc:191-199 *)
Definition elem_begin (e : element K) : fpoly K := if op then y_tr e else mkfp K 0 0 (value_of e).

(* _y[0], _ev, _acg, _loss0, _m0 *)
Record abeg := mkab { b_y : fpoly K; b_ev : T; b_acg : T; b_loss : T; b_m : cpoly K }.
(* ac_begin of each element: apps/d_res.cc:193-198; d_admit.cc:64; d_vs.cc:59; d_cs.cc:59;
   d_vcvs.cc:130-136; d_cccs.cc:51; d_ccvs.cc:50; d_vcg.cc:61; d_vcr.cc:113-120; d_cap.cc:62;
   d_coil.cc:503-509.  Where it leaves _acg alone, do_ac sets it, and 0 is written here.
   None: the operating point failed *)
Definition ac_begin (e : element K) : option abeg :=
  let* s := if op then eval K short leb e else Some (mkest K 0 (mkcp K 0 0 0)) in
  let own := if op then y_tr e else y_new e in
  let y := elem_begin e in
  let m := e_m K s in
  Some (match e with
  | ER _ _ _ _ _ => mkab y (pf1 K y) (1 /' pf1 K y) (e_loss K s) m
  | EY _ _ _ _ _ | EG _ _ _ _ _ _ _ => mkab y (pf1 K y) (pf1 K y) (e_loss K s) m
  | EV _ _ _ _ => mkab own 0 0 (1 /' short) m
  | EI _ _ _ _ => mkab own 0 0 (e_loss K s) m
  | EE _ _ _ _ _ _ _ => mkab y (pf1 K y) (-' (1 /' short) *' pf1 K y) (1 /' short) m
  | EF _ _ _ _ _ _ => mkab y (pf1 K y) 0 (e_loss K s) m
  | EH _ _ _ _ _ _ => mkab own (pf1 K own) 0 (1 /' short) m
  | EVCG _ _ _ _ _ _ _ _ | EVCR _ _ _ _ _ _ _ _ => mkab own (pf0 K own) (cc1 K m) (e_loss K s) m
  | EC _ _ _ _ _ _ _ | ETC _ _ _ _ _ _ _ _ _ | EVCC _ _ _ _ _ _ _ _ _ _ => mkab y (pf1 K y) 0 (e_loss K s) m
  | EL _ _ _ _ _ _ _ => mkab own (pf1 K own) 0 0 m
  | ELc _ _ _ _ _ _ _ _ | EK _ _ _ _ _ _ _ _ _ _ => mkab own (pf1 K own) 0 1 m
  | EP _ _ _ _ _ _ => mkab y 0 0 (e_loss K s) m
  end).

(* _ev, _acg, _loss0 *)
Record acv := mkacv { v_ev : T; v_acg : T; v_loss : T }.
(* the assertions of the branch without ac_eval: _ev == _y[0].f1, has_tr_eval() || _ev == value() *)
Definition checked (e : element K) (b : abeg) : bool := eqb (b_ev b) (pf1 K (b_y b)) && (has_tr e || eqb (b_ev b) (value_of e)).
Definition reactance (e : element K) (ev : T) : T :=
  match e with
  (* apps/d_coil.cc:519-527 *)
  | EL _ _ _ _ _ _ _ => if fz K (ev *' jw) then 1 /' short else 1 /' (ev *' jw)
  | _ => -' (1 *' 1) *' ev *' jw
  end.
(* do_ac of an element that can be sensed, and of the others that sense nothing: apps/d_res.cc:200-214;
   d_admit.cc:168-178; d_vs.cc:152-160; d_cs.cc:136-144; d_vcvs.cc:138-147; d_vcg.cc:102-112;
   d_vcr.cc:122-138; d_cap.cc:159-168; d_coil.cc:511-528.  The _ev of VCG and VCR is not used again
   and not computed here.  None: a failed assert *)
Definition do_ac1 (e : element K) (s : aset) (b : abeg) : option acv :=
  let u := using_ac s in
  let ev := ac_ev s (b_y b) in
  match e with
  | ER _ _ _ _ _ =>
      if u then let ev := if small ev then short else ev in Some (mkacv ev (1 /' ev) (b_loss b))
      else if eqb (b_ev b) (pf1 K (b_y b)) && (has_tr e || eqb (b_ev b) (value_of e) || eqb (b_ev b) short)
      then Some (mkacv (b_ev b) (b_acg b) (b_loss b)) else None
  | EY _ _ _ _ _ | EG _ _ _ _ _ _ _ =>
      if u then Some (mkacv ev ev (b_loss b)) else if checked e b then Some (mkacv (b_ev b) (b_acg b) (b_loss b)) else None
  | EV _ _ _ _ => if u then Some (mkacv ev (-' b_loss b *' ev) (b_loss b)) else Some (mkacv (b_ev b) (b_acg b) (b_loss b))
  | EI _ _ _ _ => if u then Some (mkacv ev ev (b_loss b)) else Some (mkacv (b_ev b) (b_acg b) (b_loss b))
  | EE _ _ _ _ _ _ _ =>
      if u then Some (mkacv ev (-' b_loss b *' ev) (b_loss b)) else if checked e b then Some (mkacv (b_ev b) (b_acg b) (b_loss b)) else None
  | EVCG _ _ _ _ _ _ _ _ =>
      Some (mkacv ev (if u then ev *' cx K (b_m b) else b_acg b) (b_loss b))
  | EVCR _ _ _ _ _ _ _ _ =>
      Some (mkacv ev (if u then -' ev *' b_loss b *' b_loss b *' cx K (b_m b) else b_acg b) (b_loss b))
  | EC _ _ _ _ _ _ _ | ETC _ _ _ _ _ _ _ _ _ | EVCC _ _ _ _ _ _ _ _ _ _ =>
      if u then Some (mkacv ev (ev *' jw) (b_loss b)) else if checked e b then Some (mkacv (b_ev b) (b_ev b *' jw) (b_loss b)) else None
  | EL _ _ _ _ _ _ _ | ELc _ _ _ _ _ _ _ _ =>
      if u then Some (mkacv ev (reactance e ev) (b_loss b))
      else if checked e b then Some (mkacv (b_ev b) (reactance e (b_ev b)) (b_loss b)) else None
  | EK _ _ _ _ _ _ _ _ _ _ =>
      let ev := if u then ev else b_ev b in Some (mkacv ev (reactance e ev) (b_loss b))
  | EP _ _ _ _ v1 _ => Some (mkacv 0 v1 (b_loss b))
  | EF _ _ _ _ _ _ | EH _ _ _ _ _ _ => None
  end.
(* is_source  apps/d_vs.cc:44 d_cs.cc:44 *)
Definition is_source (e : element K) : bool := match e with EV _ _ _ _ | EI _ _ _ _ => true | _ => false end.
(* an element with what it has for ac, and the same of the element it senses *)
Record ael := mkael { ae : element K; a_set : aset; a_in : aset }.
(* DEV_CCCS::do_ac and DEV_CCVS::do_ac: _acg and the source loaded at once
   apps/d_cccs.cc:132-156, d_ccvs.cc:115-140 (k: 1, or -_loss0) *)
Definition sense (k ev : T) (inp : element K) (vi : acv) : T * option T :=
  if is_source inp then (k *' ev *' v_loss vi, Some (k *' ev *' v_acg vi))
  else if has_inode K inp then (k *' ev, None)
  else (k *' ev *' v_acg vi, None).
(* ac_begin and do_ac of every element: what it has, and the source it loaded in do_ac *)
Definition ac_state (x : ael) : option (acv * option T) :=
  let* b := ac_begin (ae x) in
  let sensed inp k :=
    if has_iv_probe K inp then
      let* bi := ac_begin inp in let* vi := do_ac1 inp (a_in x) bi in
      let u := using_ac (a_set x) in
      if u || checked (ae x) b then
        let ev := if u then ac_ev (a_set x) (b_y b) else b_ev b in
        let '(acg, src) := sense k ev inp vi in Some (mkacv ev acg (b_loss b), src)
      else None
    else None in
  match ae x with
  | EF _ _ _ inp _ _ => sensed inp 1
  | EH _ _ _ inp _ _ => sensed inp (-' b_loss b)
  | _ => let* v := do_ac1 (ae x) (a_set x) b in Some (v, None)
  end.

(* what is loaded in do_ac: apps/d_cccs.cc:148, d_ccvs.cc:123, 132 *)
Definition do_slots (x : ael) : option (list (place * T)) :=
  let* p := ac_state x in
  let '(o1, o2) := outs K (ae x) in
  let src := match snd p with Some c => [(PSource o1 o2, c)] | None => [] end in
  Some (match ae x with EF _ _ _ _ _ _ => src | EH _ _ _ _ _ _ => (PShunt o1 o2, v_loss (fst p)) :: src | _ => [] end).
(* ac_load: apps/d_res.cc:63 d_admit.cc:66, 98 d_vs.cc:61 d_cs.cc:61 d_vcvs.cc:58 d_cccs.cc:53 d_ccvs.cc:52
   d_vcg.cc:63 d_vcr.cc:60 d_cap.cc:64, 96 d_coil.cc:530-543 d_poly_g.cc:218-225 *)
Definition load_slots_ac (x : ael) : option (list (place * T)) :=
  let* p := ac_state x in
  let acg := v_acg (fst p) in let loss := v_loss (fst p) in
  let '(o1, o2) := outs K (ae x) in let '(i1, i2) := ins K (ae x) in
  Some (match ae x with
  | ER _ _ _ _ _ | EY _ _ _ _ _ | EC _ _ _ _ _ _ _ | EVCC _ _ _ _ _ _ _ _ _ _ | EL _ _ _ _ _ _ _ => [(PShunt o1 o2, acg)]
  | EG _ _ _ _ _ _ _ | ETC _ _ _ _ _ _ _ _ _ | EF _ _ _ _ _ _ | EH _ _ _ _ _ _ => [(PActive o1 o2 i1 i2, acg)]
  | EV _ _ _ _ => [(PShunt o1 o2, loss); (PSource o1 o2, acg)]
  | EI _ _ _ _ => [(PSource o1 o2, acg)]
  | EE _ _ _ _ _ _ _ | EVCG _ _ _ _ _ _ _ _ | EVCR _ _ _ _ _ _ _ _ => [(PShunt o1 o2, loss); (PActive o1 o2 i1 i2, acg)]
  | ELc _ _ _ _ _ _ _ _ => [(PInode o1 o2 i1, loss); (PDiagonal i1, acg)]
  | EK _ _ _ _ _ _ _ _ _ _ => [(PCouple o1 o2, acg)]
  | EP _ _ _ _ _ ports => (PShunt o1 o2, acg) :: map (fun q => (PActive o1 o2 (fst (fst q)) (snd (fst q)), snd q)) ports
  end).

(* the pairs of nodes that ac_iwant_matrix (and, in the same way, tr_iwant_matrix) declares:
   lib/e_elemnt.cc:285-374; apps/d_res.cc:60 d_admit.cc:63, 97 d_vs.cc:58 d_cs.cc:58 d_vcvs.cc:55
   d_cccs.cc:50 d_ccvs.cc:49 d_vcg.cc:60 d_vcr.cc:57 d_cap.cc:61, 95, 127 d_coil.cc:487-501, 138
   d_poly_g.cc:66 *)
Fixpoint all_pairs (l : list Z) : list (Z * Z) :=
  match l with [] => [] | a :: r => map (fun b => (b, a)) r ++ all_pairs r end.
Definition iwant (e : element K) : list (Z * Z) :=
  let '(o1, o2) := outs K e in let '(i1, i2) := ins K e in
  match e with
  | ER _ _ _ _ _ | EY _ _ _ _ _ | EV _ _ _ _ | EC _ _ _ _ _ _ _ | EL _ _ _ _ _ _ _ | EK _ _ _ _ _ _ _ _ _ _ => [(o1, o2)]
  | EG _ _ _ _ _ _ _ | EF _ _ _ _ _ _ | ETC _ _ _ _ _ _ _ _ _ => [(o1, i1); (o1, i2); (o2, i1); (o2, i2)]
  | EI _ _ _ _ => []
  | EE _ _ _ _ _ _ _ | EH _ _ _ _ _ _ | EVCG _ _ _ _ _ _ _ _ | EVCR _ _ _ _ _ _ _ _ | EVCC _ _ _ _ _ _ _ _ _ _ => all_pairs [o1; o2; i1; i2]
  | ELc _ _ _ _ _ _ _ _ => [(o1, i1); (o2, i1)]
  | EP _ _ _ _ _ ports => all_pairs (o1 :: o2 :: flat_map (fun q => [fst (fst q); snd (fst q)]) ports)
  end.

(* ac_amps, the probe: lib/e_elemnt.cc:441-445 with the ac_involts of each element; d_vs.cc:63
   d_cs.cc:63 d_coil.cc:545-552, 140.  None: NOT_VALID (d_poly_g.cc:69) *)
Definition ac_amps (x : ael) (v : Z -> T) : option T :=
  let* p := ac_state x in
  let acg := v_acg (fst p) in let loss := v_loss (fst p) in
  match ae x with
  | EV _ _ _ _ => Some (acg +' dv K v (outs K (ae x)) *' loss)
  | EI _ _ _ _ => Some acg
  | EL _ _ _ _ _ _ _ => Some (dv K v (outs K (ae x)) *' acg)
  | ELc _ _ _ i1 _ _ _ _ => Some (loss *' v i1)
  | EK _ _ _ _ _ _ _ _ _ _ => Some (loss *' dv K v (outs K (ae x)))
  | EP _ _ _ _ _ _ => None
  (* ac_involts is that of DEV_CAPACITANCE, d_cap.cc:65 *)
  | EC _ _ _ _ _ _ _ | ETC _ _ _ _ _ _ _ _ _ | EVCC _ _ _ _ _ _ _ _ _ _ =>
      Some (dv K v (outs K (ae x)) *' acg +' dv K v (outs K (ae x)) *' loss)
  | _ => Some (dv K v (ins K (ae x)) *' acg +' dv K v (outs K (ae x)) *' loss)
  end.
End Elem.

Section Run.
Variable A : arith.
Notation T := (num A).
(* the body of each ac_load_*  include/e_elemnt.h:231-235, 254-257, 288-298, 317-320, 339-342, 362-366,
   380-385, 420-423 *)
Definition ac_place (p : place) (d : T) (M : mat A) (r : Z -> T) : option (mat A * (Z -> T)) :=
  match p with
  | PInode o1 o2 i1 =>
      let* M1 := do_load A (@LCouple A o1 i1 (nsub A (n0 A) d)) M in
      let* M2 := do_load A (@LCouple A o2 i1 d) M1 in Some (M2, r)
  | PShunt o1 o2 => let* M1 := do_load A (@LSym A o1 o2 d) M in Some (M1, r)
  | PSource o1 o2 => let* r1 := add_i A M o2 d r in let* r2 := sub_i A M o1 d r1 in Some (M, r2)
  | PCouple o1 o2 => let* M1 := do_load A (@LCouple A o1 o2 d) M in Some (M1, r)
  | PActive o1 o2 i1 i2 => let* M1 := do_load A (@LAsym A o1 o2 i1 i2 d) M in Some (M1, r)
  | PSourcePoint n => let* r1 := add_i A M n d r in Some (M, r1)
  | PDiagonal n => let* M1 := do_load A (@LDiag A n d) M in Some (M1, r)
  | PPoint n1 n2 => let* M1 := do_load A (@LPoint A n1 n2 d) M in Some (M1, r)
  end.
Definition ac_put (x : place * T) (s : mat A * (Z -> T)) : option (mat A * (Z -> T)) := ac_place (fst x) (snd x) (fst s) (snd s).
(* AC::solve  apps/s_ac.cc:234-252.  l1 is what is loaded by CARD_LIST::do_ac, l2 by ac_load
   (multiplied by mfactor()).  _acx is a BSMATRIX: mat, whose lu is not used.  Gives what is left in
   _acx and _ac *)
Definition ac_solve (l1 l2 : list (place * T)) (M : mat A) : option (data A * (Z -> T)) :=
  let M0 := mkmat (zero A (aa M)) (lu M) (changed M) (min_pivot M) in
  let* s1 := foldM ac_put l1 (M0, fun _ => n0 A) in
  let* s2 := foldM ac_put l2 s1 in
  let* D := ip_lu_decomp A (min_pivot (fst s2)) (aa (fst s2)) in
  let* x := fbsub1 A D (snd s2) in
  Some (D, x).
End Run.

Section Sweep.
Variable K : fld.
Variable short : F K.
Variable leb : F K -> F K -> bool.
Variable small : F K -> bool.
Variable op : bool.
(* CARD_LIST::do_ac, ac_load: every element with its mfactor()  lib/e_cardlist.cc:437-462.  A sensed
   element that stands later in the list is evaluated earlier (apps/d_cccs.cc:135-138); what is added
   to _acx and _ac is the same *)
Fixpoint all_slots (f : ael K -> option (list (place * F K))) (xs : list (F K * ael K)) : option (list (place * F K)) :=
  match xs with
  | [] => Some []
  | (m, x) :: xs =>
      let* l := f x in let* r := all_slots f xs in Some (map (fun pv => (fst pv, fmul K m (snd pv))) l ++ r)
  end.
(* one frequency: _jomega = COMPLEX(0, _freq * 2 pi), solve  apps/s_ac.cc:261-262.  Returns the
   matrix, whose factors stay in it until it is zeroed for the next frequency, and _ac *)
Definition ac_freq (jw : F K) (xs : list (F K * ael K)) (M : mat (exA K)) : option (mat (exA K) * (Z -> F K)) :=
  let* l1 := all_slots (do_slots K short leb small jw op) xs in
  let* l2 := all_slots (load_slots_ac K short leb small jw op) xs in
  let* r := ac_solve (exA K) l1 l2 M in
  Some (mkmat (fst r) (lu M) (changed M) (min_pivot M), snd r).
(* AC::sweep: the frequencies in turn; what is in _acx and _ac after each  apps/s_ac.cc:254-269 *)
Fixpoint ac_sweep (jws : list (F K)) (xs : list (F K * ael K)) (M : mat (exA K)) : option (list (mat (exA K) * (Z -> F K))) :=
  match jws with
  | [] => Some []
  | jw :: r => let* p := ac_freq jw xs M in let* l := ac_sweep r xs (fst p) in Some (p :: l)
  end.
End Sweep.
