(* Table interpolation (include/m_interp.h), the piecewise linear behaviour
   (apps/bm_pwl.cc), and the delay line of transmission lines (include/m_wave.h).

   double is modelled by exact rationals.  A table is a list of (key, value). *)
Require Import ZArith QArith Qabs List Bool.
Require Import Verif.Qnum.
Import ListNotations.
Local Open Scope Q_scope.

(* the result of a call: a value, a thrown Exception, or undefined behaviour (an access
   outside the table) *)
Inductive res (A : Type) : Type := Val (a : A) | Throw | UB.
Arguments Val {A} a.
Arguments Throw {A}.
Arguments UB {A}.

(* FPOLY1  include/m_cpoly.h:44-66 *)
Record fpoly := mk_fpoly { fx : Q; f0 : Q; f1 : Q }.

(* DPAIR(x,BIGBIG) < e, the order of std::pair (first, then second).  The values of the table
   are taken to be at most BIGBIG (include/constant.h:96, near the largest double), so that
   only x < e.first is left.  include/m_interp.h:57-58, apps/bm_pwl.cc:152-155 *)
Definition key_below (x : Q) (e : Q * Q) : bool := qltb x (fst e).

(* std::upper_bound (libstdc++ bits/stl_algo.h, __upper_bound): first and len, halving.
   Defined also for a range that is not sorted, as the library code is. *)
Fixpoint upper_bound (fuel : nat) (t : list (Q * Q)) (x : Q) (first len : nat) : res nat :=
  match len with
  | O => Val first
  | _ =>
      match fuel with
      | O => UB
      | S f =>
          let half := Nat.div2 len in
          let middle := (first + half)%nat in
          match nth_error t middle with
          | None => UB
          | Some e =>
              if key_below x e then upper_bound f t x first half
              else upper_bound f t x (S middle) (len - half - 1)
          end
      end
  end.

(* interpolate  include/m_interp.h:32-89.  [below] and [above] are None for NOT_INPUT. *)
Definition interpolate (t : list (Q * Q)) (x : Q) (below above : option Q) : res fpoly :=
  match t with
  | [] => Throw
  | [p] =>
      let s := if qltb x (fst p) then match below with Some b => b | None => 0 end
               else match above with Some a => a | None => 0 end in
      Val (mk_fpoly x (snd p + (x - fst p) * s) s)
  | _ =>
      let last := (length t - 1)%nat in
      match upper_bound (length t) t x 1 (last - 1) with
      | UB => UB
      | Throw => Throw
      | Val u =>
          match nth_error t u, nth_error t (u - 1) with
          | Some up, Some lo =>
              let line (base : Q * Q) (s : Q) := Val (mk_fpoly x (snd base + (x - fst base) * s) s) in
              let hi := match above with
                        | Some a => if Nat.eqb u last && qltb (fst up) x then Some a else None
                        | None => None
                        end in
              let lw := match below with
                        | Some b => if Nat.eqb u 1 && qltb x (fst lo) then Some b else None
                        | None => None
                        end in
              match hi, lw with
              | Some a, _ => line up a
              | None, Some b => line lo b
              | None, None =>
                  if qleb (fst up) (fst lo) then Throw
                  else line lo ((snd up - snd lo) / (fst up - fst lo))
              end
          | _, _ => UB
          end
      end
  end.

(* ---------- piecewise linear behaviour ---------- *)

(* The table part of EVAL_BM_PWL (apps/bm_pwl.cc:35-36): the numbers that the raw table
   evaluates to are given at each preparation; only _num_table is state. *)

(* EVAL_BM_PWL::precalc_last  apps/bm_pwl.cc:123-134: appends to _num_table, which is not
   cleared.  The flag is false when the loop stopped with Exception_Precalc; last = -BIGBIG
   before the first point is below every number. *)
Fixpoint pwl_push (last : option Q) (raw tab : list (Q * Q)) : list (Q * Q) * bool :=
  match raw with
  | [] => (tab, true)
  | p :: r =>
      if match last with Some l => qltb (fst p) l | None => false end then (tab, false)
      else pwl_push (Some (fst p)) r (tab ++ [p])
  end.
Definition pwl_precalc (raw tab : list (Q * Q)) : list (Q * Q) * bool := pwl_push None raw tab.

(* COMPONENT::precalc_last  lib/e_compon.cc:586-603: the shared data, table included, is
   copied, prepared, and kept (Exception_Precalc gives a warning only). *)
Definition pwl_prepare (raw tab : list (Q * Q)) : list (Q * Q) := fst (pwl_precalc raw tab).

(* EVAL_BM_PWL::tr_eval  apps/bm_pwl.cc:137-143, without the input offset and the final
   adjustment (both the identity by default).  [src]: is_source(). *)
Definition pwl_eval (src : bool) (tab : list (Q * Q)) (x : Q) : res fpoly :=
  let ext := if src then Some 0 else None in
  interpolate tab x ext ext.

(* EVAL_BM_PWL::tr_review  apps/bm_pwl.cc:145-177 for a source: the event it asks for, if
   any.  [now] is dd->_y[0].x (the time).  The reading of upper-1 by assert() (157) is not
   modelled: with NDEBUG, the default, it is not compiled. *)
Definition pwl_review (tab : list (Q * Q)) (now dtmin : Q) : res (option Q) :=
  let x := now + dtmin * 2 in
  match upper_bound (length tab) tab x 0 (length tab) with
  | UB => UB
  | Throw => Throw
  | Val u =>
      if Nat.eqb u (length tab) then Val None
      else match nth_error tab u with
           | None => UB
           | Some e => if qltb x (fst e) then Val (Some (fst e)) else Val None
           end
  end.

(* ---------- delay line ---------- *)

(* WAVE  include/m_wave.h:30-34: the samples and the delay *)
Record wave := mk_wave { w : list (Q * Q); delay : Q }.
(* WAVE::push  include/m_wave.h:59-63 *)
Definition wave_push (a : wave) (t v : Q) : wave := mk_wave (w a ++ [(t + delay a, v)]) (delay a).
(* WAVE::initialize  include/m_wave.h:67-71 *)
Definition wave_init (d : Q) : wave := mk_wave [] d.
(* WAVE::v_out  include/m_wave.h:97-100 *)
Definition v_out (a : wave) (t : Q) : res fpoly := interpolate (w a) t (Some 0) (Some 0).
(* dn_diff  include/l_denoise.h:50-55 with fixzero 42-47; tol is OPT::roundofftol *)
Definition dn_diff (tol a b : Q) : Q :=
  if qltb (Qabs (a - b)) (Qabs (a * tol)) then 0 else a - b.
(* WAVE::v_reflect  include/m_wave.h:107-111 *)
Definition v_reflect (tol : Q) (a : wave) (t v_total : Q) : res Q :=
  match v_out a t with
  | Val p => Val (dn_diff tol (v_total * 2) (f0 p))
  | Throw => Throw
  | UB => UB
  end.
