(* apps/d_mos1.model with apps/d_mos.model: the drain current of a level 1 transistor, its slopes, the limits on the
   voltages from iteration to iteration, and the gate capacitances.

   Simplified: numbers are real numbers, so no rounding and no overflow; sqrt and log are the functions of the standard
   library of the prover, None where they (or a division) have no value (a NaN or an infinity in the code); the voltages
   are those of the internal nodes.  Not modelled: the resistors Rs and Rd (Elements_Model), the junctions Ddb and Dsb
   (Diode_Model), the charges of the other levels, the bypass (tr_needs_eval), the damping strategy (_fulldamp), the
   messages. *)
Require Import Reals ZArith Bool.
Require Import Verif.Loops.
Local Open Scope R_scope.

(* log, sqrt and division where they have a value *)
Definition flog (x : R) : option R := if Rlt_dec 0 x then Some (ln x) else None.
Definition fsqrt (x : R) : option R := if Rle_dec 0 x then Some (sqrt x) else None.
Definition fdiv (x y : R) : option R := if Req_EM_T y 0 then None else Some (x / y).

(* include/constant.h:58, 61, 65, 68, 71-73, 81, 83, 84; apps/d_mos123.model:27 *)
Definition P_Q : R := 1.6021918e-19.
Definition P_K : R := 1.3806226e-23.
Definition P_EPS0 : R := 8.854214871e-12.
Definition P_CELSIUS0 : R := 273.15.
Definition P_EPS_SI : R := 11.7 * P_EPS0.
Definition P_EPS_OX : R := 3.9 * P_EPS0.
Definition P_K_Q : R := P_K / P_Q.
Definition CM2M2 : R := 1e-4.
Definition ICM2M2 : R := 1e4.
Definition ICM2M3 : R := 1e6.
Definition NI : R := 1.45e16.

(* apps/d_diode.model:32 polarity_t: pP is -1, pN is 1 *)
Inductive polarity_t := pN | pP.
Definition sgn (p : polarity_t) : R := match p with pN => 1 | pP => -1 end.

(* the parameters of the .model card as they are given; None is NA (apps/d_mos123.model:43-69, d_mos1.model:41-54) *)
Record card := Card {
  c_polarity : polarity_t; c_vto : option R; c_gamma : option R; c_phi : option R; c_lambda : option R; c_tox : option R; c_nsub_cm : option R;
  c_nss_cm : R; c_uo_cm : R; c_tpg : Z; c_kp : option R; c_tnom : R; c_cmodel : Z;
  c_lmlt : R; c_wmlt : R; c_xl : R; c_xw : R; c_ld : R; c_del : R; c_wd : R; c_cgso : R; c_cgdo : R; c_cgbo : R }.

(* the same when they have been worked out *)
Record model := Model {
  polarity : polarity_t; vto : R; gamma : R; phi : R; kp : R; lambda : option R; cox : R; tnom_k : R; egap : R; cmodel : Z;
  lmlt : R; wmlt : R; xl : R; xw : R; ld : R; del : R; wd : R; cgso_m : R; cgdo_m : R; cgbo_m : R }.

(* apps/d_mos_base.model:110 and apps/d_mos1.model:107 *)
Definition egap_at (t : R) : option R := let* q := fdiv (7.02e-4 * t * t) (t + 1108) in Some (1.16 - q).

(* final_default *)
Definition dflt (d : R) (x : option R) : R := match x with Some v => v | None => d end.

(* apps/d_mos123.model:84-91, 98-99, 70-77: the parameters in metres, vto for the polarity.  tox <= 0 and nsub < NI count as not given *)
Definition tpg_of (t : Z) : Z := if Z.ltb t 0 then (-1)%Z else if Z.ltb 0 t then 1%Z else 0%Z.
Definition tox_of (c : card) : option R := match c_tox c with Some t => if Rle_dec t 0 then None else Some t | None => None end.
Definition nsub_of (c : card) : option R :=
  match c_nsub_cm c with Some n => if Rlt_dec (n * ICM2M3) NI then None else Some (n * ICM2M3) | None => None end.
Definition vto_raw_of (c : card) : option R := match c_vto c with Some v => Some (v * sgn (c_polarity c)) | None => None end.

(* apps/d_mos1.model:65-73 *)
Definition phi_calc (tnomk nsub : R) : option R :=
  let* l := flog (nsub / NI) in
  let p := (2 * P_K_Q) * tnomk * l in
  Some (if Rlt_dec p 0.1 then 0.1 else p).
(* apps/d_mos1.model:76-79 *)
Definition gamma_calc (cox nsub : R) : option R := let* s := fsqrt (2 * P_EPS_SI * P_Q * nsub) in fdiv s cox.
(* apps/d_mos1.model:80-87 *)
Definition vto_calc (c : card) (egap phi gamma cox : R) : option R :=
  let pol := sgn (c_polarity c) in
  let phi_ms := if Z.eqb (tpg_of (c_tpg c)) 0 then pol * (- 0.05 - (egap + pol * phi) / 2) else - (IZR (tpg_of (c_tpg c)) * egap + phi) / 2 in
  let* q := fdiv (pol * P_Q * (c_nss_cm c * ICM2M2)) cox in
  let vfb := phi_ms - q in
  let* s := fsqrt phi in
  Some (vfb + phi + gamma * s).
Definition given (x : option R) (calc : option R) : option R := match x with Some v => Some v | None => calc end.

(* apps/d_mos1.model:41-92, d_mos_base.model:105-111, d_mos123.model:40-41: MODEL_BUILT_IN_MOS1::precalc_first *)
Definition precalc (c : card) : option model :=
  let tnomk := c_tnom c + P_CELSIUS0 in
  let* eg := egap_at tnomk in
  let cm := if Z.eqb (c_cmodel c) 0 then 3%Z else c_cmodel c in
  let done vt g p k cx :=
    Some (Model (c_polarity c) (dflt 0 vt) (dflt 0 g) (dflt 0.6 p) (dflt 2e-5 k) (c_lambda c) (dflt 0 cx) tnomk eg cm
            (c_lmlt c) (c_wmlt c) (c_xl c) (c_xw c) (c_ld c) (c_del c) (c_wd c) (c_cgso c) (c_cgdo c) (c_cgbo c)) in
  match tox_of c with
  | None => done (vto_raw_of c) (c_gamma c) (c_phi c) (c_kp c) None
  | Some tox =>
      let cx := P_EPS_OX / tox in
      let k := match c_kp c with Some v => Some v | None => Some (c_uo_cm c * CM2M2 * cx) end in
      match nsub_of c with
      | None => done (vto_raw_of c) (c_gamma c) (c_phi c) k (Some cx)
      | Some nsub =>
          let* p := given (c_phi c) (phi_calc tnomk nsub) in
          let* g := given (c_gamma c) (gamma_calc cx nsub) in
          let* v := given (vto_raw_of c) (vto_calc c eg p g cx) in
          done (Some v) (Some g) (Some p) k (Some cx)
      end
  end.

(* apps/d_mos_base.model:149-158, 171-173 and d_mos123.model:105-110: what depends on the size; None: L or W was not given *)
Record size := Size { l_in : option R; w_in : option R; defl : R; defw : R }.
Definition l_eff (m : model) (z : size) : R := match l_in z with Some l => l * lmlt m + xl m - 2 * (ld m + del m) | None => defl z end.
Definition w_eff (m : model) (z : size) : R := match w_in z with Some w => w * wmlt m + xw m - 2 * wd m | None => defw z end.
Definition cgate (m : model) (z : size) : R := cox m * w_eff m z * l_eff m z.

(* apps/d_mos1.model:94-110: what depends on the temperature *)
Record tdep := Tdep { t_phi : R; t_beta : R; t_egap : R }.
Definition temperature (m : model) (z : size) (temp_c : R) : option tdep :=
  let temp := temp_c + P_CELSIUS0 in
  let* ratio := fdiv temp (tnom_k m) in
  let* sr := fsqrt ratio in
  let ratio4 := ratio * sr in
  let kt := temp * P_K in
  let vt := temp * P_K_Q in
  let* eg := egap_at temp in
  let* arg := fdiv (egap m * ratio - eg) (2 * kt) in
  let* l := flog ratio in
  let ph := phi m * ratio + (-2 * vt * (1.5 * l + P_Q * arg)) in
  let* b := fdiv (kp m) ratio4 in
  let* beta := fdiv (b * w_eff m z) (l_eff m z) in
  Some (Tdep ph beta eg).

(* apps/d_mos.model:183-284, the part of the device that level 1 uses *)
Record dev := Dev {
  reversed : bool; vds : R; vgs : R; vbs : R; von : R; vgst : R; vdsat : R; cutoff : bool; saturated : bool; sbfwd : bool;
  ids : R; idsxxx : R; gds : R; gmf : R; gmr : R; gmbf : R; gmbr : R }.
(* the device as it is made: apps/d_mos.model:184-283, the defaults *)
Definition dev0 : dev := Dev false 0 0 0 0 0 0 false false false 0 0 0 0 0 0 0.

(* std::min *)
Definition fmin (a b : R) : R := if Rlt_dec b a then b else a.

(* apps/d_mos.model:434-454; flag40 is OPT::mosflags & 0040 *)
Definition reverse_if_needed (flag40 : bool) (rv : bool) (ds gs bs : R) : bool * (R * R * R) :=
  if Rlt_dec ds 0 then
    let gs := gs - ds in
    let bs := bs - ds in
    let ds := - ds in
    (negb rv, (ds, gs, if flag40 then bs else fmin bs 0))
  else (rv, (ds, gs, bs)).

(* apps/d_mos1.model:119-133: sarg, its slope, sbfwd; m->phi is used through t *)
Definition bulk_sqrt (t : tdep) (bs : R) : option (R * R * bool) :=
  if Rle_dec bs 0 then
    let* sarg := fsqrt (t_phi t - bs) in
    let* ds := fdiv (- 0.5) sarg in
    Some (sarg, ds, false)
  else
    let* sphi := fsqrt (t_phi t) in
    let* h := fdiv (0.5 * bs) (t_phi t) in
    let* sarg := fdiv sphi (1 + h) in
    let* d := fdiv (- 0.5 * sarg * sarg) (t_phi t) in
    Some (sarg, d * sphi, true).

(* apps/d_mos1.model:135-136 *)
Definition von_of (m : model) (t : tdep) (sarg : R) : option R :=
  let* s := fsqrt (phi m) in
  Some (vto m + gamma m * (sarg - s) + 0.5 * (egap m - t_egap t) + 0.5 * (t_phi t - phi m)).

(* apps/d_mos1.model:144-162: the current and the slopes gm, gds, gmb in the three regions *)
Definition channel (m : model) (t : tdep) (cut sat : bool) (ds gst dsarg : R) : R * R * R * R :=
  let L := dflt 0 (lambda m) in
  if cut then (0, 0, 0, 0)
  else if sat then
    let gm := t_beta t * gst * (1 + L * ds) in
    (gm * (0.5 * gst), gm, 0.5 * t_beta t * L * gst * gst, - gm * gamma m * dsarg)
  else
    let gm := t_beta t * ds * (1 + L * ds) in
    (gm * (gst - 0.5 * ds), gm, t_beta t * ((gst - ds) + L * ds * (2 * gst - 1.5 * ds)), - gm * gamma m * dsarg).

(* apps/d_mos1.model:112-171; idsxxx is as it was *)
Definition tr_eval (m : model) (t : tdep) (flag40 : bool) (rv : bool) (ds gs bs : R) (x : R) : option dev :=
  let (rv, v) := reverse_if_needed flag40 rv ds gs bs in
  let '(ds, gs, bs) := v in
  let* b := bulk_sqrt t bs in
  let '(sarg, dsarg, fwd) := b in
  let* on := von_of m t sarg in
  let gst := gs - on in
  let dsat := if Rlt_dec gst 0 then 0 else gst in
  let cut := if Rlt_dec gst 0 then true else false in
  let sat := if Rlt_dec dsat ds then true else false in
  let '(i, gm, gd, gmb) := channel m t cut sat ds gst dsarg in
  Some (if rv then Dev rv ds gs bs on gst dsat cut sat fwd (i * -1) x gd 0 gm 0 gmb
        else Dev rv ds gs bs on gst dsat cut sat fwd i x gd gm 0 gmb 0).

(* include/u_limit.h:50-69 *)
Definition fet_limit_vds (vnew vold : R) : R :=
  if Rle_dec 3.5 vold then
    if Rlt_dec (3 * vold + 2) vnew then 3 * vold + 2 else if Rlt_dec vnew 2 then 2 else vnew
  else
    if Rlt_dec 4 vnew then 4 else if Rlt_dec vnew (- 0.5) then - 0.5 else vnew.
(* include/u_limit.h:71-114; the last branch is for a NaN *)
Definition fet_limit_vgs (vnew vold vto : R) : R :=
  let old := vold - vto in
  let new := vnew - vto in
  let l :=
    if Rle_dec 3.5 old then
      if Rlt_dec new 2 then 2 else if Rlt_dec (3 * old + 2) new then 3 * old + 2 else new
    else if Rle_dec 0 old then
      if Rlt_dec new (- 0.5) then - 0.5 else if Rlt_dec 4 new then 4 else new
    else
      if Rlt_dec new (3 * old - 2) then 3 * old - 2 else if Rlt_dec 0.5 new then 0.5 else new in
  l + vto.

(* the voltages of the internal nodes: drain, gate, source, bulk *)
Record nodes := Nodes { nd : R; ng : R; ns : R; nb : R }.
(* the simulator: vmin and vmax of all nodes, the first iteration of an initial step, mosflags & 0040, and whether drain and
   gate are the same node *)
Record env := Env { vmin : R; vmax : R; initial_step : bool; flag40 : bool; tied : bool }.

(* lib/e_compon.cc:994-1027: a voltage between two nodes, each within vmin to vmax *)
Definition clip (e : env) (v : R) : R := if Rlt_dec v (vmin e) then vmin e else if Rlt_dec (vmax e) v then vmax e else v.
Definition volts_limited (e : env) (a b : R) : R := clip e a - clip e b.

(* apps/d_mos.model:497-529: the voltages at which the device is evaluated *)
Definition new_volts (m : model) (e : env) (n : nodes) (s : dev) : bool * (R * R * R) :=
  if initial_step e then (false, (0, 0, 0))
  else
    let p := sgn (polarity m) in
    let '(Vds, Vgs, Vbs) :=
      if reversed s then (p * volts_limited e (ns n) (nd n), p * volts_limited e (ng n) (nd n), p * volts_limited e (nb n) (nd n))
      else (p * volts_limited e (nd n) (ns n), p * volts_limited e (ng n) (ns n), p * volts_limited e (nb n) (ns n)) in
    let gs := fet_limit_vgs Vgs (vgs s) (von s) in
    let ds := if tied e then Vds + (gs - Vgs) else fet_limit_vds Vds (vds s) in
    (reversed s, (ds, gs, fmin Vbs 0)).

(* apps/d_mos.model:483-579: one iteration of the device *)
Definition do_tr (m : model) (t : tdep) (e : env) (n : nodes) (s : dev) : option dev :=
  let (rv, v) := new_volts m e n s in
  let '(ds, gs, bs) := v in
  let* d := tr_eval m t (flag40 e) rv ds gs bs (idsxxx s) in
  let x := if reversed d then ids d + vds d * gds d + vgs d * gmr d + vbs d * gmbr d
           else ids d - vds d * gds d - vgs d * gmf d - vbs d * gmbf d in
  let p := sgn (polarity m) in
  Some (Dev (reversed d) (vds d) (vgs d) (vbs d) (von d) (vgst d) (vdsat d) (cutoff d) (saturated d) (sbfwd d)
          (ids d * p) (x * p) (gds d) (gmf d) (gmr d) (gmbf d) (gmbr d)).

(* the element Ids: the values from idsxxx on (apps/d_mos.model:187-192) at the ports of apps/d_mos.model:109-110, and
   apps/d_poly_g.cc:209-216: the current from drain to source at the voltages n *)
Definition values (s : dev) : R * list R := (idsxxx s, cons (gds s) (cons (gmf s) (cons (gmr s) (cons (gmbf s) (cons (gmbr s) nil))))).
Definition ports (n : nodes) : list (R * R) :=
  cons (nd n, ns n) (cons (ng n, ns n) (cons (nd n, ng n) (cons (nb n, ns n) (cons (nd n, nb n) nil)))).
Fixpoint port_sum (a : R) (ps : list (R * R)) (vs : list R) : R :=
  match ps, vs with
  | cons (x, y) ps, cons v vs => port_sum (a + (x - y) * v) ps vs
  | _, _ => a
  end.
Definition tr_amps (s : dev) (n : nodes) : R := port_sum (fst (values s)) (ports n) (snd (values s)).
(* apps/d_poly_g.cc:218-225: what a small signal carries *)
Definition ac_amps (s : dev) (n : nodes) : R := port_sum 0 (ports n) (snd (values s)).

(* iterations at the same node voltages *)
Fixpoint iterate (m : model) (t : tdep) (e : env) (n : nodes) (k : nat) (s : dev) : option dev :=
  match k with O => Some s | Datatypes.S k => let* s := iterate m t e n k s in do_tr m t e n s end.

(* the probes of apps/d_mos.model:118-182: ids, vth, gm, gmb *)
Definition probe_ids (m : model) (s : dev) : R := sgn (polarity m) * (if reversed s then - ids s else ids s).
Definition probe_vth (m : model) (s : dev) : R := von s * sgn (polarity m).
Definition probe_gm (s : dev) : R := if reversed s then gmr s else gmf s.
Definition probe_gmb (s : dev) : R := if reversed s then gmbr s else gmbf s.

(* apps/d_mos.model:311-334, 336-383, 385-432: the capacitances (f1) of Cgb, Cgd and Cgs; s->phi is m->phi (d_mos123.model:108).
   The charge is left out.  None: a failed assert or a division by zero *)
Definition cap_gb (m : model) (z : size) (s : dev) : option R :=
  let cap := cgbo_m m * l_eff m z in
  if Z.eqb (cmodel m) 0 then Some cap
  else if Rlt_dec (vgst s) (- phi m) then Some (cap + cgate m z)
  else if Rlt_dec (vgst s) 0 then let* q := fdiv (cgate m z * - vgst s) (phi m) in Some (cap + q)
  else Some cap.
(* apps/d_mos.model:344-357, 393-406: the side that acts as the drain *)
Definition cap_drain (m : model) (z : size) (s : dev) : option R :=
  let bs := if Z.eqb (cmodel m) 3 then 0 else vbs s in
  let vdbsat := vdsat s - bs in
  let vdb := vds s - bs in
  let ddif := 2 * vdbsat - vdb in
  if Rle_dec 0 (vgst s) then
    if Rlt_dec (vds s) (vdsat s) then
      let* q := fdiv (vdbsat * vdbsat) (ddif * ddif) in
      let cap := 2 / 3 * cgate m z * (1 - q) in
      Some (if Rle_dec (vgst s) 0.1 then cap * (10 * vgst s) else cap)
    else Some 0
  else Some 0.
(* apps/d_mos.model:358-370, 407-419: the side that acts as the source *)
Definition cap_source (m : model) (z : size) (s : dev) : option R :=
  let bs := if Z.eqb (cmodel m) 3 then 0 else vbs s in
  let vdbsat := vdsat s - bs in
  let vdb := vds s - bs in
  let ddif := 2 * vdbsat - vdb in
  if Rle_dec (- phi m / 2) (vgst s) then
    let cap := 2 / 3 * cgate m z in
    let* cap := if Rlt_dec (vds s) (vdsat s) then
                  let ndif := vdsat s - vds s in
                  let* q := fdiv (ndif * ndif) (ddif * ddif) in Some (cap * (1 - q))
                else Some cap in
    if Rle_dec (vgst s) 0 then
      let* q := fdiv (vgst s) (phi m) in Some (cap * (1 + q) * (1 + q))
    else Some cap
  else Some 0.
(* apps/d_mos.model:336-372: assert(vdsat >= 0), assert(vds >= 0) *)
Definition cap_gd (m : model) (z : size) (s : dev) : option R :=
  let over := cgdo_m m * w_eff m z in
  if Z.eqb (cmodel m) 0 then Some (0 + over)
  else if Rle_dec 0 (vdsat s) then if Rle_dec 0 (vds s) then
    let* c := if reversed s then cap_source m z s else cap_drain m z s in Some (c + over)
  else None else None.
(* apps/d_mos.model:385-421 *)
Definition cap_gs (m : model) (z : size) (s : dev) : option R :=
  let over := cgso_m m * w_eff m z in
  if Z.eqb (cmodel m) 0 then Some (0 + over)
  else if Rle_dec 0 (vdsat s) then if Rle_dec 0 (vds s) then
    let* c := if reversed s then cap_drain m z s else cap_source m z s in Some (c + over)
  else None else None.
