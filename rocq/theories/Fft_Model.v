(* lib/m_fft.cc: the fast Fourier transform.
   double COMPLEX is modelled by the elements of an exact field.  cos() and sin() are not
   modelled: the factor w = (cos(m*2*pi/nxp), s*sin(m*2*pi/nxp)) of line 36 is the argument
   [W inv nxp m].  An access outside x[0..n-1], an overflow of jj1+nxp and a loop that does not
   end are None. *)
Require Import ZArith List Bool.
Require Import Verif.Loops Verif.FieldSums.
Import ListNotations.
Local Open Scope Z_scope.

Section Fft.
Variable K : fld.
Variable W : bool -> Z -> Z -> F K.

(* x[i] and x[i] = v for an array of n elements *)
Definition aget (n : Z) (x : Z -> F K) (i : Z) : option (F K) :=
  if (0 <=? i) && (i <? n) then Some (x i) else None.
Definition aset (n : Z) (x : Z -> F K) (i : Z) (v : F K) : option (Z -> F K) :=
  if (0 <=? i) && (i <? n) then Some (fun k => if k =? i then v else x k) else None.

(* lib/m_fft.cc:38-41, one pass *)
Definition butterfly (n nxp2 : Z) (w : F K) (jj1 : Z) (x : Z -> F K) : option (Z -> F K) :=
  let jj2 := jj1 + nxp2 in
  let* a := aget n x jj1 in
  let* b := aget n x jj2 in
  let t := fsub K a b in
  let* x := aset n x jj1 (fadd K a b) in
  aset n x jj2 (fmul K t w).
(* lib/m_fft.cc:37-42: for (jj1 = m; jj1+nxp-m <= n; jj1 += nxp) *)
Fixpoint blocks (fuel : nat) (n nxp nxp2 m : Z) (w : F K) (jj1 : Z) (x : Z -> F K) : option (Z -> F K) :=
  if jj1 + nxp <? 2 ^ 31 then
    if jj1 + nxp - m <=? n then
      match fuel with
      | O => None
      | S f => let* x := butterfly n nxp2 w jj1 x in blocks f n nxp nxp2 m w (jj1 + nxp) x
      end
    else Some x
  else None.
(* lib/m_fft.cc:32-44: for (nxp=n; (nxp2=nxp/2) > 0; nxp=nxp2) *)
Fixpoint levels (fuel : nat) (inv : bool) (n nxp : Z) (x : Z -> F K) : option (Z -> F K) :=
  let nxp2 := Z.quot nxp 2 in
  if 0 <? nxp2 then
    match fuel with
    | O => None
    | S f =>
        let* x := for_up 0 nxp2 (fun m x => blocks (Z.to_nat n) n nxp nxp2 m (W inv nxp m) m x) x in
        levels f inv n nxp2 x
    end
  else Some x.

(* lib/m_fft.cc:53-56: for (k = n/2; k <= j; k /= 2) j -= k; then j += k *)
Fixpoint next_rev (fuel : nat) (k j : Z) : option Z :=
  if k <=? j then
    match fuel with
    | O => None
    | S f => next_rev f (Z.quot k 2) (j - k)
    end
  else Some (j + k).
(* std::swap(x[i], x[j]) *)
Definition aswap (n i j : Z) (x : Z -> F K) : option (Z -> F K) :=
  let* a := aget n x i in
  let* b := aget n x j in
  let* x := aset n x i b in
  aset n x j a.
(* lib/m_fft.cc:46-58 *)
Definition unscramble (n : Z) (x : Z -> F K) : option (Z -> F K) :=
  let* r := for_up 0 (n - 1) (fun i (s : Z * (Z -> F K)) =>
      let (j, x) := s in
      let* x := if i <? j then aswap n i j x else Some x in
      let* j := next_rev (Z.to_nat n) (Z.quot n 2) j in
      Some (j, x)) (0, x) in
  Some (snd r).

(* the number n as an element of the field *)
Definition of_Z (n : Z) : F K := fsum K 0 n (fun _ => f1 K).
(* lib/m_fft.cc:60-63 *)
Definition fix_level (n : Z) (x : Z -> F K) : option (Z -> F K) :=
  for_up 0 n (fun i x => let* a := aget n x i in aset n x i (fdiv K a (of_Z n))) x.

(* lib/m_fft.cc:28-66 *)
Definition fft (n : Z) (inv : bool) (x : Z -> F K) : option (Z -> F K) :=
  let* x := levels (Z.to_nat n) inv n n x in
  let* x := unscramble n x in
  if inv then Some x else fix_level n x.
End Fft.
