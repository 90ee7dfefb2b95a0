(* The interpolating polynomials behind "fit" and "table": lib/m_spline.cc and the check
   EVAL_BM_FIT::precalc_last makes before building one. *)
Require Import ZArith QArith Qabs List Bool SpecFloat.
Require Import Verif.Loops Verif.Qnum.
Import ListNotations.
Local Open Scope Z_scope.

(* The double arithmetic the code uses.  The theorems take rational numbers (SQ below), so
   rounding is not modelled there; the binary64 instance S64 is used to show one finding that
   only rounding produces. *)
Record snum := mksnum {
  T : Type;
  sadd : T -> T -> T;  ssub : T -> T -> T;  smul : T -> T -> T;  sdiv : T -> T -> T;
  sabs : T -> T;
  sint : Z -> T;                     (* the literals 0. 2 3 2. *)
  shalf : T;                         (* the literal .5 *)
  sltb : T -> T -> bool;             (* a < b *)
  seqb : T -> T -> bool;             (* a == b *)
  sNI : T;                           (* NOT_INPUT  include/constant.h:99 *)
  sNV : T;                           (* NOT_VALID  include/constant.h:100 *)
  sBB : T;                           (* -BIGBIG    include/constant.h:96 *)
  srot : T                           (* OPT::roundofftol  lib/u_opt1.cc:65 *)
}.

Section Spline.
Variable N : snum.
Notation D := (T N).
Notation "a +. b" := (sadd N a b) (at level 50, left associativity).
Notation "a -. b" := (ssub N a b) (at level 50, left associativity).
Notation "a *. b" := (smul N a b) (at level 40, left associativity).
Notation "a /. b" := (sdiv N a b) (at level 40, left associativity).
Notation lit := (sint N).

(* A block from new double[_n+1].  None is a cell not yet written. *)
Definition arr := Z -> option D.
(* new double[_n+1]  lib/m_spline.cc:75-76,93,141,179,198; also a null pointer, since no cell
   of it may be read  lib/m_spline.cc:77-79 *)
Definition alloc : arr := fun _ => None.
(* a[i] read: undefined outside the block and on a cell never written
   lib/m_spline.cc:120-300 *)
Definition rd (n : Z) (a : arr) (i : Z) : option D :=
  if (0 <=? i) && (i <=? n) then a i else None.
(* a[i] = v: undefined outside the block  lib/m_spline.cc:87-245 *)
Definition wr (n : Z) (a : arr) (i : Z) (v : D) : option arr :=
  if (0 <=? i) && (i <=? n) then Some (fun j => if j =? i then Some v else a j) else None.

(* class SPLINE  include/m_spline.h:42-63 *)
Record spline := mksp {
  sn : Z; sx : arr; sf0 : arr; sf1 : arr; sf2 : arr; sf3 : arr; sorder : Z; sd0 : option D }.

(* what a constructor does: throw an Exception, or finish *)
Inductive out (A : Type) := Thrown | Done (a : A).
Arguments Thrown {A}. Arguments Done {A} a.

(* fixzero  include/l_denoise.h:42-47 (the asserts exclude NaN, which the model has not) *)
Definition fixzero (z r : D) : D :=
  if sltb N (sabs N z) (sabs N (r *. srot N)) then lit 0 else z.

(* d == NOT_INPUT  lib/m_spline.cc:125,130,142,148,157,186,191,200,212,235,238 *)
Definition natural (d : D) : bool := seqb N d (sNI N).

(* SPLINE::SPLINE, loading _x and _f0  lib/m_spline.cc:87-90 *)
Definition column (f : D * D -> D) (t : list (D * D)) : arr :=
  fun i => if i <? 0 then None else option_map f (nth_error t (Z.to_nat i)).

(* SPLINE::SPLINE, the set-up of h  lib/m_spline.cc:93-102.  The inner option is None once
   the Exception for a repeated point has been thrown. *)
Definition steps (n : Z) (x : arr) : option (option arr) :=
  let* h := for_up 0 n (fun i st =>
    match st with
    | None => Some None
    | Some h =>
      let* b := rd n x (i + 1) in
      let* a := rd n x i in
      let* h' := wr n h i (b -. a) in
      let* v := rd n h' i in
      Some (if seqb N v (lit 0) then None else Some h')
    end) (Some alloc) in
  match h with
  | None => Some None
  | Some h => let* h' := wr n h n (sNV N) in Some (Some h')
  end.

(* (_f0[i+1]-_f0[i])/h[i]  lib/m_spline.cc:121,145,150,155,189,194,229 *)
Definition rise (n : Z) (f0 h : arr) (i : Z) : option D :=
  let* b := rd n f0 (i + 1) in
  let* a := rd n f0 i in
  let* d := rd n h i in
  Some ((b -. a) /. d).

(* SPLINE::construct_order_1  lib/m_spline.cc:115-135; _f1 is the storage of h *)
Definition order_1 (n : Z) (x f0 h : arr) (d0 dn : D) : option spline :=
  let* f1 := for_up 0 n (fun i f1 => let* v := rise n f0 f1 i in wr n f1 i v) h in
  let* lo := if natural d0 then rd n f1 0 else Some d0 in
  let* f1 :=
    if natural dn then let* v := rd n f1 (n - 1) in wr n f1 n v else wr n f1 n dn in
  Some (mksp n x f0 f1 alloc alloc 1 (Some lo)).

(* 2*(_f0[i+1]-_f0[i])/h[i]  lib/m_spline.cc:145,155 *)
Definition twice_rise (n : Z) (f0 h : arr) (i : Z) : option D :=
  let* b := rd n f0 (i + 1) in
  let* a := rd n f0 i in
  let* d := rd n h i in
  Some (lit 2 *. (b -. a) /. d).

(* SPLINE::construct_order_2  lib/m_spline.cc:137-172; _f2 is the storage of h *)
Definition order_2 (n : Z) (x f0 h : arr) (d0 dn : D) : option spline :=
  let* (f1, lo) :=
    if negb (natural d0) && natural dn then
      let* f1 := wr n alloc 0 d0 in
      let* f1 := for_up 0 n (fun i f1 =>
        let* q := twice_rise n f0 h i in
        let* v := rd n f1 i in
        wr n f1 (i + 1) (q -. v)) f1 in
      Some (f1, d0)
    else
      let* f1 :=
        if natural dn then let* v := rise n f0 h (n - 1) in wr n alloc n v
        else wr n alloc n dn in
      let* f1 := for_down (n - 1) (-1) (fun i f1 =>
        let* q := twice_rise n f0 h i in
        let* v := rd n f1 (i + 1) in
        wr n f1 i (q -. v)) f1 in
      let* lo := if natural d0 then rd n f1 0 else Some d0 in
      Some (f1, lo) in
  let* f2 := for_up 0 n (fun i f2 =>
    let* b := rd n f1 (i + 1) in
    let* a := rd n f1 i in
    let* d := rd n f2 i in
    wr n f2 i (shalf N *. (b -. a) /. d)) h in
  let* f2 := wr n f2 n (lit 0) in
  Some (mksp n x f0 f1 f2 alloc 2 (Some lo)).

(* construct_order_3, the right side  lib/m_spline.cc:179-195 *)
Definition right_side (n : Z) (f0 h : arr) (d0 dn : D) : option arr :=
  let* b := for_up 1 n (fun i b =>
    let* c := rd n f0 (i + 1) in
    let* g := rd n h (i - 1) in
    let* m := rd n f0 i in
    let* k := rd n h i in
    let* a := rd n f0 (i - 1) in
    let num := c *. g -. m *. (k +. g) +. a *. k in
    let den := g *. k in
    wr n b i (lit 3 *. num /. den)) alloc in
  let* b :=
    if natural d0 then wr n b 0 (lit 0)
    else let* r := rise n f0 h 0 in wr n b 0 (lit 3 *. (r -. d0)) in
  if natural dn then wr n b n (lit 0)
  else let* r := rise n f0 h (n - 1) in wr n b n (lit 3 *. (dn -. r)).

(* construct_order_3, LU decomposition and forward substitution  lib/m_spline.cc:198-218;
   z is the storage of b *)
Definition forward (n : Z) (h b : arr) (d0 dn : D) : option (arr * arr) :=
  let* (u, z) :=
    if natural d0 then
      let* u := wr n alloc 0 (lit 0) in let* z := wr n b 0 (lit 0) in Some (u, z)
    else
      let* u := wr n alloc 0 (shalf N) in
      let* b0 := rd n b 0 in let* h0 := rd n h 0 in
      let* z := wr n b 0 (b0 /. (lit 2 *. h0)) in Some (u, z) in
  let* (u, z) := for_up 1 n (fun (i : Z) (uz : arr * arr) =>
    let (u, z) := uz in
    let* k := rd n h i in
    let* g := rd n h (i - 1) in
    let* u1 := rd n u (i - 1) in
    let p := lit 2 *. (k +. g) -. g *. u1 in
    let* u := wr n u i (k /. p) in
    let* bi := rd n z i in
    let* z1 := rd n z (i - 1) in
    let* z := wr n z i ((bi -. z1 *. g) /. p) in
    Some (u, z)) (u, z) in
  let* z :=
    if natural dn then wr n z n (lit 0)
    else
      let* g := rd n h (n - 1) in
      let* u1 := rd n u (n - 1) in
      let p := g *. (lit 2 -. u1) in
      let* bn := rd n z n in
      let* z1 := rd n z (n - 1) in
      wr n z n ((bn -. z1 *. g) /. p) in
  let* u := wr n u n (sNV N) in
  Some (u, z).

(* construct_order_3, back substitution  lib/m_spline.cc:222-232; _f1, _f2, _f3 are the storage
   of u, z, h *)
Definition backward (n : Z) (f0 u z h : arr) : option (arr * arr * arr) :=
  let* zn := rd n z n in
  let* f2 := wr n z n zn in
  let* f3 := wr n h n (lit 0) in
  for_down (n - 1) (-1) (fun (i : Z) (a : arr * arr * arr) =>
    let '(f1, f2, f3) := a in
    let* zi := rd n f2 i in
    let* ui := rd n f1 i in
    let* up := rd n f2 (i + 1) in
    let* f2 := wr n f2 i (zi -. ui *. up) in
    let* r := rise n f0 f3 i in
    let* hi := rd n f3 i in
    let* me := rd n f2 i in
    let* f1 := wr n f1 i (r -. hi *. (up +. lit 2 *. me) /. lit 3) in
    let* f3 := wr n f3 i ((up -. me) /. (lit 3 *. hi)) in
    Some (f1, f2, f3)) (u, f2, f3).

(* SPLINE::construct_order_3  lib/m_spline.cc:174-246; None also for the failed assert of
   line 235 *)
Definition order_3 (n : Z) (x f0 h : arr) (d0 dn : D) : option spline :=
  let* b := right_side n f0 h d0 dn in
  let* (u, z) := forward n h b d0 dn in
  let* (f1, f2, f3) := backward n f0 u z h in
  let* a := rd n f1 0 in
  let* b := rd n f1 1 in
  let lo := fixzero a b in
  if natural d0 || seqb N lo d0 then
    let* f1 :=
      if natural dn then
        let* s := rd n f1 (n - 1) in
        let* xn := rd n x n in
        let* xm := rd n x (n - 1) in
        let* c := rd n f2 (n - 1) in
        wr n f1 n (s +. (xn -. xm) *. c)
      else wr n f1 n dn in
    let* f2 := wr n f2 n (lit 0) in
    let* f3 := wr n f3 n (lit 0) in
    Some (mksp n x f0 f1 f2 f3 3 (Some lo))
  else None.

(* SPLINE::SPLINE  lib/m_spline.cc:72-113; line 29-70 is the same text for DPAIR.  An order
   other than 0..3 only makes an error message. *)
Definition construct (t : list (D * D)) (d0 dn : D) (order : Z) : option (out spline) :=
  let n := Z.of_nat (length t) - 1 in
  if n <? 0 then Some Thrown
  else
    let x := column fst t in
    let f0 := column snd t in
    let* h := steps n x in
    match h with
    | None => Some Thrown
    | Some h =>
      let* s :=
        if order =? 3 then order_3 n x f0 h d0 dn
        else if order =? 2 then order_2 n x f0 h d0 dn
        else if order =? 1 then order_1 n x f0 h d0 dn
        else Some (mksp n x f0 alloc alloc alloc order None) in
      Some (Done s)
    end.

(* EVAL_BM_FIT::precalc_last, the order check  apps/bm_fit.cc:146-155 *)
Fixpoint in_turn (last : D) (t : list (D * D)) : bool :=
  match t with
  | [] => true
  | p :: t' => negb (sltb N (fst p) last) && in_turn (fst p) t'
  end.

(* EVAL_BM_FIT::precalc_last  apps/bm_fit.cc:129-161, the parameters being evaluated already.
   below and above are NOT_INPUT where they were not given (line 158-159). *)
Definition fit (t : list (D * D)) (below above : D) (order : Z) : option (out spline) :=
  if in_turn (sBB N) t then construct t below above order else Some Thrown.

(* std::upper_bound(_x, _x+_n+1, x)  lib/m_spline.cc:261: the first of k points from i on that is
   above v *)
Fixpoint first_above (n : Z) (x : arr) (k : nat) (i : Z) (v : D) : option Z :=
  match k with
  | O => Some i
  | S k' => let* a := rd n x i in if sltb N v a then Some i else first_above n x k' (i + 1) v
  end.
(* the k points from i on are all above v: what std::upper_bound asks of the points after its
   result  lib/m_spline.cc:261 *)
Fixpoint all_above (n : Z) (x : arr) (k : nat) (i : Z) (v : D) : option bool :=
  match k with
  | O => Some true
  | S k' => let* a := rd n x i in let* r := all_above n x k' (i + 1) v in Some (sltb N v a && r)
  end.
(* std::upper_bound(_x, _x+_n+1, x) - _x  lib/m_spline.cc:261,272; no result on points that are
   not in order around x, since the library promises none *)
Definition upper_bound (n : Z) (x : arr) (v : D) : option Z :=
  let* i := first_above n x (Z.to_nat (n + 1)) 0 v in
  let* ok := all_above n x (Z.to_nat (n + 1 - i)) i v in
  if ok then Some i else None.

(* SPLINE::at  lib/m_spline.cc:257-303; FPOLY1 is the triple (x, f0, f1)
   include/m_cpoly.h:44-50.  The failed assert of line 293 is None. *)
Definition at_ (s : spline) (x : D) : option (D * D * D) :=
  let n := sn s in
  let* here := upper_bound n (sx s) x in
  if here =? 0 then
    let* a := rd n (sf0 s) 0 in
    if sorder s =? 0 then Some (x, a, lit 0)
    else
      let* x0 := rd n (sx s) 0 in
      let dx := x -. x0 in
      let* d := sd0 s in
      Some (x, a +. dx *. d, d)
  else
    let i := here - 1 in
    let* xi := rd n (sx s) i in
    let dx := x -. xi in
    let* a := rd n (sf0 s) i in
    if sorder s =? 3 then
      let* b := rd n (sf1 s) i in
      let* c := rd n (sf2 s) i in
      let* d := rd n (sf3 s) i in
      Some (x, a +. dx *. (b +. dx *. (c +. dx *. d)),
               b +. dx *. (lit 2 *. c +. lit 3 *. dx *. d))
    else if sorder s =? 2 then
      let* b := rd n (sf1 s) i in
      let* c := rd n (sf2 s) i in
      Some (x, a +. dx *. (b +. dx *. c), b +. dx *. (lit 2 *. c))
    else if sorder s =? 1 then
      let* b := rd n (sf1 s) i in
      Some (x, a +. dx *. b, b)
    else if sorder s =? 0 then Some (x, a, lit 0)
    else None.
End Spline.

(* MAXDBL  include/constant.h:94, DBL_MAX *)
Definition max_q : Q := inject_Z ((2 ^ 53 - 1) * 2 ^ 971).
(* exact arithmetic; r is OPT::roundofftol.  Comparisons are those of Verif.Qnum. *)
Definition SQ (r : Q) : snum :=
  mksnum Q Qplus Qminus Qmult Qdiv Qabs inject_Z (1 # 2) qltb qeqb
    (- (max_q * (9547658 # 10000000)))%Q (- (max_q * (9647958 # 10000000)))%Q
    (- (max_q * (9247958 # 10000000)))%Q r.

(* IEEE binary64, round to nearest even, without NaN payloads *)
Definition sf_int (z : Z) : spec_float := binary_normalize 53 1024 z 0 false.
Definition sf_frac (a b : Z) : spec_float := SFdiv 53 1024 (sf_int a) (sf_int b).
Definition sf_max : spec_float := S754_finite false 9007199254740991 971.
Definition S64 : snum :=
  mksnum spec_float (SFadd 53 1024) (SFsub 53 1024) (SFmul 53 1024) (SFdiv 53 1024) SFabs
    sf_int (sf_frac 1 2) SFltb SFeqb
    (SFopp (SFmul 53 1024 sf_max (sf_frac 9547658 10000000)))
    (SFopp (SFmul 53 1024 sf_max (sf_frac 9647958 10000000)))
    (SFopp (SFmul 53 1024 sf_max (sf_frac 9247958 10000000)))
    (sf_frac 1 10000000000000).
