(* Time history of an element, integration formulas and step control from truncation error:
   lib/e_elemnt.cc, lib/e_storag.cc, include/e_storag.h, apps/s__solve.cc (advance_time).
   double is modelled by exact rationals.  A failed assert is None. *)
Require Import ZArith QArith Qabs Qminmax List Bool.
Require Import Verif.Qnum Verif.Loops Verif.Poly_Model.
Import ListNotations.
Local Open Scope Q_scope.

(* OPT::_keep_time_steps  include/u_opt.h:83 *)
Definition keep : nat := 5.

(* enum METHOD  include/e_storag.h:29 *)
Inductive METHOD := mTRAPGEAR | mEULER | mTRAP | mGEAR | mTRAPEULER.
(* enum method_t  include/u_opt.h:34-43 *)
Inductive method_t := meUNKNOWN | meEULER | meEULERONLY | meTRAP | meTRAPONLY | meGEAR2 | meGEAR2ONLY | meTRAPGEAR | meTRAPEULER.

(* columns of STORAGE::method_select, in the order of the rows below *)
Definition me_index (m : method_t) : nat :=
  match m with
  | meUNKNOWN => 0 | meEULER => 1 | meEULERONLY => 2 | meTRAP => 3 | meTRAPONLY => 4
  | meGEAR2 => 5 | meGEAR2ONLY => 6 | meTRAPGEAR => 7 | meTRAPEULER => 8
  end.
(* STORAGE::method_select  lib/e_storag.cc:32-53: rows by the option, columns by the local
   choice *)
Definition method_select_table : list (list METHOD) :=
  [ [mTRAPGEAR; mEULER; mEULER; mTRAP; mTRAP; mGEAR; mGEAR; mTRAPGEAR; mTRAPEULER]
  ; [mEULER; mEULER; mEULER; mTRAP; mTRAP; mGEAR; mGEAR; mTRAPGEAR; mTRAPEULER]
  ; [mEULER; mEULER; mEULER; mEULER; mTRAP; mEULER; mGEAR; mEULER; mEULER]
  ; [mTRAP; mEULER; mEULER; mTRAP; mTRAP; mGEAR; mGEAR; mTRAPGEAR; mTRAPEULER]
  ; [mTRAP; mTRAP; mEULER; mTRAP; mTRAP; mTRAP; mGEAR; mTRAP; mTRAP]
  ; [mGEAR; mEULER; mEULER; mTRAP; mTRAP; mGEAR; mGEAR; mTRAPGEAR; mTRAPEULER]
  ; [mGEAR; mGEAR; mEULER; mGEAR; mTRAP; mGEAR; mGEAR; mGEAR; mGEAR]
  ; [mTRAPGEAR; mEULER; mEULER; mTRAP; mTRAP; mGEAR; mGEAR; mTRAPGEAR; mTRAPEULER]
  ; [mTRAPEULER; mEULER; mEULER; mTRAP; mTRAP; mGEAR; mGEAR; mTRAPGEAR; mTRAPEULER] ].
(* method_select[OPT::method][_method_u]  (used in STORAGE::tr_begin and in d_cap, d_coil) *)
Definition method_select (opt loc : method_t) : METHOD :=
  nth (me_index loc) (nth (me_index opt) method_select_table []) mTRAPGEAR.

(* order  include/e_storag.h:58-63 *)
Definition order (m : METHOD) : nat := match m with mTRAP => 2 | _ => 1 end.
(* error_factor  include/e_storag.h:64-67 *)
Definition error_factor (m : METHOD) : Q :=
  match m with mTRAPGEAR => 1#2 | mEULER => 1#2 | mTRAP => 1#12 | mGEAR => 1#6 | mTRAPEULER => 1#2 end.

(* what an element keeps: _time[], _y[], _i[] (functions of the index 0..keep-1) and _dt
   (None: NOT_VALID) *)
Record elem := mkE { e_time : nat -> Q; e_y : nat -> FPOLY1; e_i : nat -> FPOLY1; e_dt : option Q }.

(* for (i=keep-1; i>0; --i) a[i] = a[i-1] : [n] iterations left, i = n *)
Fixpoint shift {A : Type} (n : nat) (a : nat -> A) : nat -> A :=
  match n with
  | O => a
  | S n' => shift n' (fun j => if Nat.eqb j n then a n' else a j)
  end.
(* the assert inside the loops of tr_advance and tr_regress: _time[i] <= _time[i-1], i from [n]
   down to 1 (in tr_advance the entries tested are not changed before the test) *)
Fixpoint times_ordered (n : nat) (t : nat -> Q) : bool :=
  match n with O => true | S n' => qleb (t n) (t n') && times_ordered n' t end.

(* STORAGE::tr_advance  lib/e_storag.cc:97-104, which calls ELEMENT::tr_advance
   lib/e_elemnt.cc:246-258.  [now] is _sim->_time0. *)
Definition tr_advance (now : Q) (e : elem) : option elem :=
  if qltb (e_time e 0) now && times_ordered (keep - 1) (e_time e) then
    let t := shift (keep - 1) (e_time e) in
    let t' := fun j => if Nat.eqb j 0 then now else t j in
    Some (mkE t' (shift (keep - 1) (e_y e)) (shift (keep - 1) (e_i e)) (Some (t' 0%nat - t' 1%nat)))
  else None.
(* ELEMENT::tr_regress  lib/e_elemnt.cc:260-271 (STORAGE does not override it) *)
Definition tr_regress (now : Q) (e : elem) : option elem :=
  if qleb now (e_time e 0) && qleb (e_time e 1) now && times_ordered (keep - 1) (e_time e) then
    let t' := fun j => if Nat.eqb j 0 then now else e_time e j in
    Some (mkE t' (e_y e) (e_i e) (Some (t' 0%nat - t' 1%nat)))
  else None.
(* STORAGE::dc_advance and ELEMENT::dc_advance  lib/e_storag.cc:85-95 lib/e_elemnt.cc:235-244:
   all times must be 0; the old currents become the newest one *)
Definition dc_advance (now : Q) (e : elem) : option elem :=
  if qeqb now 0 && forallb (fun i => qeqb (e_time e i) 0) (seq 0 keep) then
    Some (mkE (e_time e) (e_y e)
            (fun j => if Nat.ltb 0 j && Nat.ltb j keep then e_i e 0%nat else e_i e j) None)
  else None.

(* a simulation with one element; V is the type of the vector of node voltages.
   last_iter_time, _v0, _vt1 *)
Record sim (V : Type) := mkS { s_last : Q; s_v0 : V; s_vt1 : V; s_el : elem }.
Arguments mkS {V}. Arguments s_last {V}. Arguments s_v0 {V}. Arguments s_vt1 {V}. Arguments s_el {V}.

(* SIM::advance_time  apps/s__solve.cc:151-174 *)
Definition advance_time {V} (now : Q) (s : sim V) : option (sim V) :=
  if qltb 0 now then
    if qltb (s_last s) now then
      let* e := tr_advance now (s_el s) in Some (mkS now (s_v0 s) (s_v0 s) e)
    else
      let* e := tr_regress now (s_el s) in Some (mkS now (s_vt1 s) (s_vt1 s) e)
  else
    let* e := dc_advance now (s_el s) in Some (mkS now (s_v0 s) (s_vt1 s) e).

(* solving a time point replaces _v0, _y[0] and _i[0] by whatever the iterations give *)
Definition solved {V} (v : V) (y i : FPOLY1) (s : sim V) : sim V :=
  let e := s_el s in
  mkS (s_last s) v (s_vt1 s)
    (mkE (e_time e) (fun j => if Nat.eqb j 0 then y else e_y e j)
         (fun j => if Nat.eqb j 0 then i else e_i e j) (e_dt e)).

(* _sim->analysis_is_static / analysis_is_restore / analysis_is_tran_dynamic *)
Inductive phase := Static | Restore | Dynamic.

(* differentiate  lib/e_storag.cc:127-173 *)
Definition differentiate (ph : phase) (q i : nat -> FPOLY1) (time : nat -> Q) (method : METHOD) : option FPOLY1 :=
  match ph with
  | Static => if qeqb (time 0%nat) 0 then Some (mkF (F_x (q 0%nat)) 0 0) else None
  | Restore => if qltb 0 (time 0%nat) then Some (i 0%nat) else None
  | Dynamic =>
      let method := if qeqb (time 1%nat) (time 2%nat) then mEULER else method in
      let dt := time 0%nat - time 1%nat in
      let q0 := q 0%nat in let q1 := q 1%nat in let q2 := q 2%nat in
      if qltb 0 dt then
        Some (match method with
        | mTRAPGEAR | mGEAR =>
            mkF (F_x q0) ((3#2) * (F_f0 q0 - F_f0 q1) / dt - (1#2) * (F_f0 q1 - F_f0 q2) / (time 1%nat - time 2%nat))
                (F_f1 q0 * (3#2) / dt)
        | mTRAPEULER | mEULER => mkF (F_x q0) ((F_f0 q0 - F_f0 q1) / dt) (F_f1 q0 / dt)
        | mTRAP => mkF (F_x q0) (2 * (F_f0 q0 - F_f0 q1) / dt - F_f0 (i 1%nat)) (F_f1 q0 * 2 / dt)
        end)
      else None
  end.

(* STORAGE::tr_c_to_g  lib/e_storag.cc:175-206 *)
Definition tr_c_to_g (ph : phase) (e : elem) (method_a : METHOD) (c g : Q) : option Q :=
  match ph with
  | Static => if qeqb (e_time e 0%nat) 0 then Some 0 else None
  | Restore => if qltb 0 (e_time e 0%nat) then Some g else None
  | Dynamic =>
      let* method :=
        if qeqb (e_time e 1%nat) (e_time e 2%nat) then
          if qeqb (e_time e 1%nat) 0 then Some mEULER else None
        else
          if qeqb (e_time e 1%nat) 0 then None else Some method_a in
      let* dt := e_dt e in
      let g := c / dt in
      Some (match method with
      | mTRAPGEAR | mGEAR => g * (3#2)
      | mTRAPEULER | mEULER => g
      | mTRAP => g * 2
      end)
  end.

(* ---------- truncation error ---------- *)

(* the options used  lib/u_opt1.cc:90-101, and _sim->_dtmin *)
Record topt := mkO { chgtol : Q; reltol : Q; trtol : Q; trreject : Q; o_dtmin : Q }.

(* the start of the search  lib/e_elemnt.cc:487-494 (order() is never negative here) *)
Definition first_error_deriv (ord : nat) : nat :=
  if Nat.leb (keep - 2) ord then (keep - 1)%nat else S ord.
(* the loop  lib/e_elemnt.cc:495-501: for (i=error_deriv; i>0; --i); [i] counts down *)
Fixpoint lower_deriv (i : nat) (t : nat -> Q) (ed : nat) : nat :=
  match i with
  | O => ed
  | S i' => lower_deriv i' t (if qleb (t i') (t i) then i' else ed)
  end.
Definition error_deriv (ord : nat) (t : nat -> Q) : nat :=
  lower_deriv (first_error_deriv ord) t (first_error_deriv ord).

Section Trunc.
  (* sqrt, cbrt, pow(x, 1/k): the k-th root, only used for k >= 2 *)
  Variable root : nat -> Q -> Q.

  (* ELEMENT::tr_review_trunc_error  lib/e_elemnt.cc:480-543; NEVER is [Some None], a failed
     assert None *)
  Definition tr_review_trunc_error (o : topt) (m : METHOD) (q : nat -> FPOLY1) (t : nat -> Q) : option (option Q) :=
    if qleb (t 0%nat) 0 then Some None
    else
      let ed := error_deriv (order m) t in
      if Nat.ltb 0 ed && Nat.ltb ed keep && forallb (fun i => qltb (t (S i)) (t i)) (seq 0 ed) then
        let c := derivatives (fun i => F_f0 (q i)) keep t in
        if qeqb (c ed) 0 then Some None
        else
          let chargetol := Qmax (chgtol o) (reltol o * Qmax (Qabs (F_f0 (q 0%nat))) (Qabs (F_f0 (q 1%nat)))) in
          let tol := trtol o * chargetol in
          let denom := error_factor m * Qabs (c ed) in
          if qltb 0 tol && qltb 0 denom then
            let ts := if Nat.eqb ed 1 then tol / denom else root ed (tol / denom) in
            if qltb 0 ts then Some (Some ts) else None
          else None
      else None.

  (* ELEMENT::tr_review_check_and_convert  lib/e_elemnt.cc:545-576 (messages left out); None
     inside: NEVER *)
  Definition tr_review_check_and_convert (o : topt) (e : elem) (timestep : option Q) : option (option Q) :=
    match timestep with
    | None => Some None
    | Some ts =>
        let* dt := e_dt e in
        let ts := if qltb ts (o_dtmin o) then o_dtmin o else ts in
        let tf := if qltb ts (dt * trreject o) then e_time e 1%nat + ts else e_time e 0%nat + ts in
        if qltb 0 tf && qltb (e_time e 1%nat) tf then Some (Some tf) else None
    end.

  (* STORAGE::tr_review  lib/e_storag.cc:208-218: the time passed to min_error_estimate, None
     for none *)
  Definition tr_review (o : topt) (m : METHOD) (e : elem) : option (option Q) :=
    match m with
    | mEULER => Some None
    | _ =>
        let* ts := tr_review_trunc_error o m (e_y e) (e_time e) in
        tr_review_check_and_convert o e ts
    end.
End Trunc.
