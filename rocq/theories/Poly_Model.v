(* First order forms FPOLY1/CPOLY1 (include/m_cpoly.h), derivative estimates
   (include/m_divdiff.h) and the polynomial behaviour (apps/bm_poly.cc).
   double is modelled by exact rationals. *)
Require Import ZArith QArith List Bool.
Require Import Verif.Qnum.
Import ListNotations.
Local Open Scope Q_scope.

(* ---------- include/m_cpoly.h ---------- *)

(* FPOLY1  44-66: argument, value, slope *)
Record FPOLY1 := mkF { F_x : Q; F_f0 : Q; F_f1 : Q }.
(* CPOLY1  68-84: argument, intercept, slope *)
Record CPOLY1 := mkC { C_x : Q; C_c0 : Q; C_c1 : Q }.
(* FPOLY1::c1, c0  63-65 (the asserts exclude NaN and LINEAR) *)
Definition F_c1 (p : FPOLY1) : Q := F_f1 p.
Definition F_c0 (p : FPOLY1) : Q := F_f0 p - F_x p * F_f1 p.
(* CPOLY1::f1, f0  82-83 *)
Definition C_f1 (p : CPOLY1) : Q := C_c1 p.
Definition C_f0 (p : CPOLY1) : Q := C_c0 p + C_x p * C_c1 p.
(* FPOLY1::FPOLY1(const CPOLY1&)  86-93 *)
Definition FPOLY1_of (p : CPOLY1) : FPOLY1 := mkF (C_x p) (C_f0 p) (C_f1 p).
(* CPOLY1::CPOLY1(const FPOLY1&)  95-105 *)
Definition CPOLY1_of (p : FPOLY1) : CPOLY1 := mkC (F_x p) (F_c0 p) (F_c1 p).
(* FPOLY1::operator*=(double)  57 *)
Definition F_scale (p : FPOLY1) (s : Q) : FPOLY1 := mkF (F_x p) (F_f0 p * s) (F_f1 p * s).
(* CPOLY1::operator*=(double)  81 *)
Definition C_scale (p : CPOLY1) (s : Q) : CPOLY1 := mkC (C_x p) (C_c0 p * s) (C_c1 p * s).
(* FPOLY1::operator+=(double)  59 *)
Definition F_addc (p : FPOLY1) (f : Q) : FPOLY1 := mkF (F_x p) (F_f0 p + f) (F_f1 p).
(* FPOLY1::operator+=(const FPOLY1&)  60-61 *)
Definition F_add (p s : FPOLY1) : FPOLY1 := mkF (F_x p) (F_f0 p + F_f0 s) (F_f1 p + F_f1 s).
(* FPOLY1::operator-()  62 *)
Definition F_neg (p : FPOLY1) : FPOLY1 := mkF (F_x p) (- F_f0 p) (- F_f1 p).
(* operator-(double, const FPOLY1&)  137-141 *)
Definition F_rsub (a : Q) (p : FPOLY1) : FPOLY1 := F_addc (F_neg p) a.
(* FPOLY1::operator*=(const FPOLY1&)  107-114: the slope is updated with the value that was
   already scaled *)
Definition F_mul (p s : FPOLY1) : FPOLY1 :=
  let q := F_scale p (F_f0 s) in mkF (F_x q) (F_f0 q) (F_f1 q + F_f0 q * F_f1 s).

(* ---------- include/m_divdiff.h ---------- *)

(* arrays c[] and t[]: functions of the index; every index used below is in 0..n-1 *)
Definition upd (c : nat -> Q) (i : nat) (v : Q) : nat -> Q :=
  fun j => if Nat.eqb j i then v else c j.

(* for (i=n-1; i>=d; --i) c[i] = d * (c[i-1]-c[i]) / (t[i-d]-t[i]);  52-54.  [m] counts the
   iterations left: i = d+m-1 *)
Fixpoint dd_inner (m d : nat) (t c : nat -> Q) : nat -> Q :=
  match m with
  | O => c
  | S m' =>
      let i := (d + m')%nat in
      dd_inner m' d t
        (upd c i (inject_Z (Z.of_nat d) * (c (i - 1)%nat - c i) / (t (i - d)%nat - t i)))
  end.
(* for (d=1; d<n; ++d)  51: [k] iterations done from d=1 *)
Fixpoint dd_outer (k n : nat) (t c : nat -> Q) : nat -> Q :=
  match k with
  | O => c
  | S k' => dd_inner (n - k) k t (dd_outer k' n t c)
  end.
(* derivatives  include/m_divdiff.h:48-56 *)
Definition derivatives (c : nat -> Q) (n : nat) (t : nat -> Q) : nat -> Q := dd_outer (n - 1) n t c.

(* ---------- apps/bm_poly.cc ---------- *)

(* the loop of EVAL_BM_POLY::tr_eval  128-133, from i = length c - 1 down to 1; [i] is the
   number of iterations left *)
Fixpoint poly_loop (i : nat) (c : list Q) (x f0 f1 : Q) : Q * Q :=
  match i with
  | O => (f0, f1)
  | S i' =>
      poly_loop i' c x ((f0 + nth i c 0) * x) (f1 * x + nth i c 0 * inject_Z (Z.of_nat i))
  end.

(* EVAL_BM_POLY::tr_eval  apps/bm_poly.cc:123-151, without the input offset and the final
   adjustment (the identity by default).  With no coefficients size()-1 wraps around and the
   loop reads outside the vector: None. *)
Definition poly_eval (c : list Q) (abs_ : bool) (mn mx x : Q) : option FPOLY1 :=
  match c with
  | [] => None
  | c0 :: _ =>
      let (g0, f1) := poly_loop (length c - 1) c x 0 0 in
      let f0 := g0 + c0 in
      let (f0, f1) := if abs_ && qltb f0 0 then (- f0, - f1) else (f0, f1) in
      let (f0, f1) := if qltb mx f0 then (mx, 0) else if qltb f0 mn then (mn, 0) else (f0, f1) in
      Some (mkF x f0 f1)
  end.
