(* apps/d_trln.cc: the ideal transmission line, in transient and in ac analysis.

   Simplified: transient numbers are rationals (rounding left out), ac numbers are pairs of real numbers; the port
   voltages are given (the denoising of the difference of two node voltages, include/e_elemnt.h:143 and
   apps/d_trln.cc:126-129, is left out).  The initial conditions (IC=) are not read by the code and are left out. *)
Require Import ZArith QArith Qabs List Bool Reals.
Require Import Verif.Qnum Verif.Interp_Model.
Import ListNotations.
Local Open Scope Q_scope.

(* ---------------------------------------------------------------- matrix *)
(* what is added to the matrix: row, column, value.  Node 0 is ground *)
Definition entries (T : Type) := list (nat * nat * T).
(* BSMATRIX::load_symmetric  include/m_matrix.h:752-771 *)
Definition load_symmetric {T} (opp : T -> T) (i j : nat) (y : T) : entries T :=
  if Nat.ltb 0 j then
    (j, j, y) :: (if Nat.ltb 0 i then [(i, i, y); (i, j, opp y); (j, i, opp y)] else [])
  else if Nat.ltb 0 i then [(i, i, y)] else [].
(* BSMATRIX::load_asymmetric  include/m_matrix.h:778-807 *)
Definition load_asymmetric {T} (opp : T -> T) (r1 r2 c1 c2 : nat) (y : T) : entries T :=
  (if Nat.ltb 0 r1 then (if Nat.ltb 0 c1 then [(r1, c1, y)] else []) ++ (if Nat.ltb 0 c2 then [(r1, c2, opp y)] else []) else []) ++
  (if Nat.ltb 0 r2 then (if Nat.ltb 0 c1 then [(r2, c1, opp y)] else []) ++ (if Nat.ltb 0 c2 then [(r2, c2, y)] else []) else []).
(* the nodes of the two ports, t1 b1 t2 b2  apps/d_trln.cc:110-115 with the numbers of include/e_node.h:30-36 *)
Record ports := Ports { out1 : nat; out2 : nat; in1 : nat; in2 : nat }.

(* ---------------------------------------------------------------- transient *)
(* the delay, the impedance and the multiplier; the tolerances (OPT::roundofftol, abstol, reltol) *)
Record params := Params { td : Q; z0 : Q; mfactor : Q }.
Record tols := Tols { roundofftol : Q; abstol : Q; reltol : Q }.
(* apps/d_trln.cc:69-74.  s_f and s_r: what the loads have put into the right hand side for one device (without mfactor) *)
Record line := Line { forward : wave; reflect : wave; if0 : Q; ir0 : Q; if1 : Q; ir1 : Q; s_f : Q; s_r : Q }.

(* conchk  include/e_compon.h:44-48 *)
Definition conchk (o n a r : Q) : bool := qleb (Qabs (n - o)) (r * Qabs n + a).

(* DEV_TRANSLINE::tr_begin  apps/d_trln.cc:394-401.  The sources start at zero in the constructor (367-373) *)
Definition empty_line (p : params) : wave := wave_push (wave_push (wave_init (td p)) (0 - td p) 0) 0 0.
Definition tr_begin (p : params) : line := Line (empty_line p) (empty_line p) 0 0 0 0 0 0.

(* DEV_TRANSLINE::dc_advance, tr_advance, tr_regress  apps/d_trln.cc:409-432, all three the same *)
Definition advance (p : params) (t : Q) (l : line) : res line :=
  match v_out (forward l) t with
  | Val f =>
      match v_out (reflect l) t with
      | Val r => Val (Line (forward l) (reflect l) (f0 f / z0 p) (f0 r / z0 p) (if1 l) (ir1 l) (s_f l) (s_r l))
      | Throw => Throw
      | UB => UB
      end
  | Throw => Throw
  | UB => UB
  end.

(* how an iteration loads: everything from scratch; everything, by difference; what was queued, by difference
   (SIM::load_matrix  apps/s__solve.cc:254-275) *)
Inductive mode := Full | Difference | Queued.
(* DEV_TRANSLINE::tr_load  apps/d_trln.cc:451-491, the right hand side *)
Definition tr_load (o : tols) (inc : bool) (l : line) : line :=
  let (f, r) := if inc then (s_f l + dn_diff (roundofftol o) (if0 l) (if1 l), s_r l + dn_diff (roundofftol o) (ir0 l) (ir1 l))
                else (if0 l, ir0 l) in
  Line (forward l) (reflect l) (if0 l) (ir0 l) (if0 l) (ir0 l) f r.
(* DEV_TRANSLINE::do_tr  apps/d_trln.cc:438-449: queued or not.  When tr_needs_eval (120-124) is false both
   differences are zero, and it would not be queued either *)
Definition queued (o : tols) (l : line) : bool :=
  negb (conchk (if0 l) (if1 l) (abstol o) (reltol o * (1#100))) || negb (conchk (ir0 l) (ir1 l) (abstol o) (reltol o * (1#100))).
(* an iteration of the solver, as the line sees it *)
Definition iteration (o : tols) (l : line) (m : mode) : line :=
  match m with
  | Full => tr_load o false l
  | Difference => tr_load o true l
  | Queued => if queued o l then tr_load o true l else l
  end.
(* what is in the matrix: apps/d_trln.cc:459-460 *)
Definition tr_matrix (p : params) (n : ports) : entries Q :=
  load_symmetric Qopp (out1 n) (out2 n) (mfactor p / z0 p) ++ load_symmetric Qopp (in1 n) (in2 n) (mfactor p / z0 p).
(* and in the right hand side, at row r: apps/d_trln.cc:467-488 *)
Definition tr_rhs (p : params) (n : ports) (l : line) (r : nat) : Q :=
  if Nat.eqb r 0 then 0
  else (if Nat.eqb r (out1 n) then mfactor p * s_f l else 0) - (if Nat.eqb r (out2 n) then mfactor p * s_f l else 0)
       + (if Nat.eqb r (in1 n) then mfactor p * s_r l else 0) - (if Nat.eqb r (in2 n) then mfactor p * s_r l else 0).

(* DEV_TRANSLINE::tr_review  apps/d_trln.cc:495-501: the latest time of the next step *)
Definition tr_review (p : params) (t : Q) : Q := t + td p.
(* DEV_TRANSLINE::tr_accept  apps/d_trln.cc:505-510 *)
Definition tr_accept (p : params) (o : tols) (t v_in v_outp : Q) (l : line) : res line :=
  match v_reflect (roundofftol o) (forward l) t v_outp with
  | Val x =>
      let rf := wave_push (reflect l) t x in
      match v_reflect (roundofftol o) rf t v_in with
      | Val y => Val (Line (wave_push (forward l) t y) rf (if0 l) (ir0 l) (if1 l) (ir1 l) (s_f l) (s_r l))
      | Throw => Throw
      | UB => UB
      end
  | Throw => Throw
  | UB => UB
  end.

(* an attempt at a time step: the time and the iterations *)
Record attempt := Attempt { at_t : Q; at_modes : list mode }.
(* a step: the attempts that were rejected, the one that was accepted, and the port voltages the circuit settled at *)
Record step := Step { st_tried : list attempt; st_at : attempt; st_in : Q; st_out : Q }.
(* TRANSIENT::sweep  apps/s_tr_swp.cc:140-150, the part before the decision to accept *)
Definition try (p : params) (o : tols) (l : line) (a : attempt) : res line :=
  match advance p (at_t a) l with
  | Val l1 => Val (fold_left (iteration o) (at_modes a) l1)
  | Throw => Throw
  | UB => UB
  end.
Fixpoint try_all (p : params) (o : tols) (l : line) (aa : list attempt) : res line :=
  match aa with
  | [] => Val l
  | a :: r => match try p o l a with Val l1 => try_all p o l1 r | Throw => Throw | UB => UB end
  end.
(* TRANSIENT::sweep  apps/s_tr_swp.cc:118-170: the line with the loaded sources, at each step, and the line at the end *)
Fixpoint run (p : params) (o : tols) (l : line) (ss : list step) : res (list line * line) :=
  match ss with
  | [] => Val ([], l)
  | s :: r =>
      match try_all p o l (st_tried s ++ [st_at s]) with
      | Val l2 =>
          match tr_accept p o (at_t (st_at s)) (st_in s) (st_out s) l2 with
          | Val l3 => match run p o l3 r with Val (ls, e) => Val (l2 :: ls, e) | Throw => Throw | UB => UB end
          | Throw => Throw
          | UB => UB
          end
      | Throw => Throw
      | UB => UB
      end
  end.

(* ---------------------------------------------------------------- ac *)
Local Open Scope R_scope.
(* std::complex<double> *)
Definition cplx := (R * R)%type.
Definition cadd (a b : cplx) : cplx := (fst a + fst b, snd a + snd b).
Definition copp (a : cplx) : cplx := (- fst a, - snd a).
Definition cmul (a b : cplx) : cplx := (fst a * fst b - snd a * snd b, fst a * snd b + snd a * fst b).
Definition creal (x : R) : cplx := (x, 0).

(* floor: the largest integer that is not above *)
Definition rfloor (x : R) : Z := (up x - 1)%Z.
(* LINLENTOL  apps/d_trln.cc:152 *)
Definition linlentol : R := 1e-6.
(* DEV_TRANSLINE::do_ac  apps/d_trln.cc:520-528: the length in quarter waves, moved off a resonance *)
Definition quarter_waves (freq rtd : R) : R :=
  let lenth := freq * rtd * 4 in
  let near := IZR (rfloor (lenth + 0.5)) in
  let dif := lenth - near in
  if Rlt_dec (Rabs dif) linlentol then (if Rlt_dec dif 0 then near - linlentol else near + linlentol) else lenth.
(* apps/d_trln.cc:528-531; None: division by zero *)
Definition do_ac (freq rtd rz0 : R) : option (cplx * cplx) :=
  let lenth := quarter_waves freq rtd * (PI / 2) in
  if Req_EM_T (rz0 * sin lenth) 0 then None
  else if Req_EM_T (cos lenth) 0 then None
  else if Req_EM_T (rz0 * tan lenth) 0 then None
  else Some ((0, -1 / (rz0 * tan lenth)), (0, -1 / (rz0 * sin lenth))).
(* DEV_TRANSLINE::ac_load  apps/d_trln.cc:534-543: the control nodes of the second pair are reversed *)
Definition ac_load (mf : R) (n : ports) (y11 y12 : cplx) : entries cplx :=
  load_symmetric copp (out1 n) (out2 n) (cmul (creal mf) y11) ++
  load_symmetric copp (in1 n) (in2 n) (cmul (creal mf) y11) ++
  load_asymmetric copp (out1 n) (out2 n) (in2 n) (in1 n) (cmul (creal mf) y12) ++
  load_asymmetric copp (in1 n) (in2 n) (out2 n) (out1 n) (cmul (creal mf) y12).

(* ---------------------------------------------------------------- parameters *)
(* apps/d_trln.cc:35-43: the parameters; None is one that was not given.  R and G (36, 38) are read and never used *)
Record card := Card { c_len : R; c_L : option R; c_C : option R; c_z0 : option R; c_td : option R; c_f : option R; c_nl : R }.
(* COMMON_TRANSLINE::precalc_last  apps/d_trln.cc:327-345: the delay; None when it cannot be determined (it stays NOT_INPUT) *)
Definition real_td (c : card) : option R :=
  match c_td c, c_f c, c_L c, c_C c with
  | Some t, _, _, _ => Some (c_len c * t)
  | None, Some f, _, _ => Some (c_len c * c_nl c / f)
  | None, None, Some l, Some k => Some (c_len c * sqrt (l * k))
  | _, _, _, _ => None
  end.
(* apps/d_trln.cc:347-363 *)
Definition real_z0 (c : card) : R :=
  match c_z0 c, c_L c, c_C c with
  | Some z, _, _ => z
  | None, Some l, Some k => sqrt (l / k)
  | None, _, _ => 50
  end.
