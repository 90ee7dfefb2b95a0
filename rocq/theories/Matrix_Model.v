(* The sparse matrix: include/m_matrix.h and include/m_matrix_solver.h.
   Definitions only. *)
Require Import ZArith List Bool.
Require Import Verif.Loops.
Import ListNotations.
Local Open Scope Z_scope.

(* The template argument T and the wider type used for dot products.
   include/m_matrix_solver.h:231-246 (struct longer) and the operators used by the solver.
   No law is assumed about any of them. *)
Record arith := {
  num : Type;                 (* T *)
  wide : Type;                (* longer<T>::type *)
  n0 : num;                   (* 0. *)
  nadd : num -> num -> num;
  nsub : num -> num -> num;
  nmul : num -> num -> num;
  ndiv : num -> num -> num;
  nzero : num -> bool;        (* x == 0. *)
  w0 : wide;
  wacc : wide -> num -> wide; (* dot += product *)
  wsub : num -> wide -> num;  (* T(in - dot), m_matrix_solver.h:286 *)
  wnar : wide -> num          (* T(dot), m_matrix_solver.h:265 *)
}.

Section Data.
Variable A : arith.
Notation T := (num A).

(* include/m_matrix.h:123-132 BSMATRIX_DATA: _size, _lownode, _space.  _diaptr and _nzcount are
   functions of _lownode (below); _zero and _trash are the constants they are documented to be.
   The arrays are total functions, and every access is bound-checked in load_/store_. *)
Record data := mkdata { size : Z; low : Z -> Z; cells : Z -> T }.

(* include/m_matrix.h:373-391 init *)
Definition init_low (s : Z) : Z -> Z := fun ii => ii.

(* include/m_matrix.h:464-480 iwant, asserts at 468-469 *)
Definition iwant_low (s : Z) (w : Z * Z) (lo : Z -> Z) : option (Z -> Z) :=
  let (node1, node2) := w in
  if (node1 <=? s) && (node2 <=? s) then
    if (node1 <=? 0) || (node2 <=? 0) then Some lo
    else if node1 <? lo node2 then Some (upd lo node2 node1)
    else if node2 <? lo node1 then Some (upd lo node1 node2)
    else Some lo
  else None.

(* include/m_matrix.h:538, 552: number of cells of column/row block ii *)
Definition blk (lo : Z -> Z) (ii : Z) : Z := 2 * (ii - lo ii) + 1.
(* include/m_matrix.h:549-553: value of "point" (as an offset in _space) at iteration ii *)
Definition start (lo : Z -> Z) (ii : Z) : Z := zsum 0 ii (blk lo).
(* include/m_matrix.h:536-539: _nzcount *)
Definition nzcount (s : Z) (lo : Z -> Z) : Z := zsum 0 (s + 1) (blk lo).
(* include/m_matrix.h:551: _diaptr[ii], as an offset in _space *)
Definition diaptr (lo : Z -> Z) (ii : Z) : Z := start lo ii + ii - lo ii.

(* include/m_matrix.h:529-555 allocate followed by zero() (559-566) *)
Definition allocate (s : Z) (lo : Z -> Z) : data := mkdata s lo (fun _ => n0 A).

(* include/m_matrix.h:373-391, 464-480, 529-555: init, all the iwant calls, allocate *)
Definition build (s : Z) (ws : list (Z * Z)) : option data :=
  let* lo := foldM (iwant_low s) ws (init_low s) in Some (allocate s lo).

(* include/m_matrix.h:596-604 d *)
Definition addr_d (D : data) (r : Z) : option Z :=
  if (0 <=? r) && (r <=? size D) then Some (diaptr (low D) r) else None.
(* include/m_matrix.h:609-621 u *)
Definition addr_u (D : data) (r c : Z) : option Z :=
  if (0 <=? r) && (r <=? c) && (c <=? size D) && (1 <=? low D c) && (low D c <=? r)
  then Some (diaptr (low D) c + (r - c)) else None.
(* include/m_matrix.h:626-638 l *)
Definition addr_l (D : data) (r c : Z) : option Z :=
  if (0 <? c) && (c <? r) && (r <=? size D) && (1 <=? low D r) && (low D r <=? c)
  then Some (diaptr (low D) r + (r - c)) else None.
(* include/m_matrix.h:644-659 m *)
Definition addr_m (D : data) (r c : Z) : option Z :=
  if (0 <? r) && (r <=? size D) && (1 <=? low D r) && (low D r <=? c)
     && (0 <? c) && (c <=? size D) && (1 <=? low D c) && (low D c <=? r)
  then Some (diaptr (low D) (if r <=? c then c else r) + (r - c)) else None.

(* reading and writing through the returned reference; an address outside the block allocated at
   include/m_matrix.h:542 is undefined behaviour *)
Definition load_ (D : data) (a : option Z) : option T :=
  let* x := a in
  if (0 <=? x) && (x <? nzcount (size D) (low D)) then Some (cells D x) else None.
Definition store_ (D : data) (a : option Z) (v : T) : option data :=
  let* x := a in
  if (0 <=? x) && (x <? nzcount (size D) (low D))
  then Some (mkdata (size D) (low D) (upd (cells D) x v)) else None.

(* include/m_matrix.h:673-704 s (read only).  _trash reads as 0: nothing writes it. *)
Definition read_s (D : data) (row col : Z) : option T :=
  if (0 <=? col) && (col <=? size D) && (0 <=? row) && (row <=? size D) then
    if col =? row then load_ D (addr_d D row)
    else if row <? col then
      if row =? 0 then Some (n0 A)
      else if row <? low D col then Some (n0 A) else load_ D (addr_u D row col)
    else
      if col =? 0 then Some (n0 A)
      else if col <? low D row then Some (n0 A) else load_ D (addr_l D row col)
  else None.

(* include/m_matrix.h:559-566 zero *)
Definition zero (D : data) : data := mkdata (size D) (low D) (fun _ => n0 A).

(* include/m_matrix.h:570-576 dezero *)
Definition dezero (o : T) (D : data) : option data :=
  for_up 1 (size D + 1) (fun ii D' =>
    let* x := load_ D' (addr_d D' ii) in store_ D' (addr_d D' ii) (nadd A x o)) D.

(* The state shared by a BSMATRIX and its LU_COPY solver.
   include/m_matrix.h:276 _data; include/m_matrix_solver.h:32-34 _lu, _changed, _min_pivot *)
Record mat := mkmat { aa : data; lu : data; changed : Z -> bool; min_pivot : T }.

(* include/m_matrix_solver.h:80-82 set_changed(i, bool j): the second argument is a bool, so a
   nonzero column number means true. *)
Definition set_changed (i : Z) (M : mat) : mat :=
  mkmat (aa M) (lu M) (upd (changed M) i true) (min_pivot M).
Definition addto (a : data -> option Z) (v : T) (M : mat) : option mat :=
  let* x := load_ (aa M) (a (aa M)) in
  let* D := store_ (aa M) (a (aa M)) (nadd A x v) in
  Some (mkmat D (lu M) (changed M) (min_pivot M)).
Definition subfrom (a : data -> option Z) (v : T) (M : mat) : option mat :=
  let* x := load_ (aa M) (a (aa M)) in
  let* D := store_ (aa M) (a (aa M)) (nsub A x v) in
  Some (mkmat D (lu M) (changed M) (min_pivot M)).
Definition at_m (i j : Z) (D : data) := addr_m D i j.
Definition at_d (i : Z) (D : data) := addr_d D i.

(* the calls of the load interface, include/m_matrix.h:222-237 *)
Inductive load :=
| LPoint (i j : Z) (v : T)
| LDiag (i : Z) (v : T)
| LCouple (i j : Z) (v : T)
| LSym (i j : Z) (v : T)
| LAsym (r1 r2 c1 c2 : Z) (v : T).

(* include/m_matrix.h:706-717 load_point *)
Definition load_point (i j : Z) (v : T) (M : mat) : option mat :=
  if (0 <? i) && (0 <? j) then
    addto (at_m i j) v (set_changed i (set_changed j M))
  else Some M.
(* include/m_matrix.h:720-728 load_diagonal_point *)
Definition load_diagonal_point (i : Z) (v : T) (M : mat) : option mat :=
  if 0 <? i then addto (at_d i) v (set_changed i M) else Some M.
(* include/m_matrix.h:732-745 load_couple *)
Definition load_couple (i j : Z) (v : T) (M : mat) : option mat :=
  if (0 <? j) && (0 <? i) then
    let* M1 := subfrom (at_m i j) v (set_changed i M) in
    subfrom (at_m j i) v (set_changed j M1)
  else Some M.
(* include/m_matrix.h:751-771 load_symmetric *)
Definition load_symmetric (i j : Z) (v : T) (M : mat) : option mat :=
  if 0 <? j then
    let* M1 := addto (at_d j) v (set_changed j M) in
    if 0 <? i then
      let* M2 := addto (at_d i) v (set_changed j (set_changed i (set_changed i M1))) in
      let* M3 := subfrom (at_m i j) v M2 in
      subfrom (at_m j i) v M3
    else Some M1
  else if 0 <? i then addto (at_d i) v (set_changed i M) else Some M.
(* include/m_matrix.h:777-806 load_asymmetric: only the row is marked changed *)
Definition load_asymmetric (r1 r2 c1 c2 : Z) (v : T) (M : mat) : option mat :=
  let* M2 :=
    if 0 <? r1 then
      let* M1 := if 0 <? c1 then
          let* M0 := addto (at_m r1 c1) v M in Some (set_changed r1 M0) else Some M in
      if 0 <? c2 then
          let* M0 := subfrom (at_m r1 c2) v M1 in Some (set_changed r1 M0) else Some M1
    else Some M in
  if 0 <? r2 then
    let* M3 := if 0 <? c1 then subfrom (at_m r2 c1) v (set_changed r2 M2) else Some M2 in
    if 0 <? c2 then addto (at_m r2 c2) v (set_changed r2 M3) else Some M3
  else Some M2.

Definition do_load (x : load) (M : mat) : option mat :=
  match x with
  | LPoint i j v => load_point i j v M
  | LDiag i v => load_diagonal_point i v M
  | LCouple i j v => load_couple i j v M
  | LSym i j v => load_symmetric i j v M
  | LAsym r1 r2 c1 c2 v => load_asymmetric r1 r2 c1 c2 v M
  end.

(* include/m_matrix_solver.h:269-288 LU_COPY::subtract_dot_product.
   row[-ii] is l(rr,kk+ii) and col[ii] is u(kk+ii,cc) by the layout of include/m_matrix.h:609-638;
   the model reads them through those accessors. *)
Definition dot (D : data) (rr cc kk dd : Z) : option (wide A) :=
  for_up kk dd (fun k acc =>
    let* x := load_ D (addr_l D rr k) in
    let* y := load_ D (addr_u D k cc) in
    Some (wacc A acc (nmul A x y))) (w0 A).
Definition subtract_dot_product (rr cc dd : Z) (inp : T) (D : data) : option (T * data) :=
  let kk := Z.max (low D rr) (low D cc) in
  let* dt := dot D rr cc kk dd in
  let r := wsub A inp dt in
  let* D' := store_ D (addr_m D rr cc) r in
  Some (r, D').

(* include/m_matrix_solver.h:199-225, body of the loop of LU_COPY::lu_decomp for one mm *)
Definition lu_block (src : data) (mp : T) (mm : Z) (D : data) : option data :=
  let bn := low D mm in
  if bn <? mm then
    let* a := load_ src (addr_u src bn mm) in
    let* p := load_ D (addr_d D bn) in
    let* D1 := store_ D (addr_u D bn mm) (ndiv A a p) in
    let* D2 := for_up (bn + 1) mm (fun ii D' =>
        let* a := load_ src (addr_u src ii mm) in
        let* rD := subtract_dot_product ii mm ii a D' in
        let* p := load_ (snd rD) (addr_d (snd rD) ii) in
        store_ (snd rD) (addr_m (snd rD) ii mm) (ndiv A (fst rD) p)) D1 in
    let* a := load_ src (addr_l src mm bn) in
    let* D3 := store_ D2 (addr_l D2 mm bn) a in
    let* D4 := for_up (bn + 1) mm (fun jj D' =>
        let* a := load_ src (addr_l src mm jj) in
        let* rD := subtract_dot_product mm jj jj a D' in
        Some (snd rD)) D3 in
    let* a := load_ src (addr_d src mm) in
    let* rD := subtract_dot_product mm mm mm a D4 in
    if nzero A (fst rD) then store_ (snd rD) (addr_d (snd rD) mm) mp else Some (snd rD)
  else
    let* a := load_ src (addr_d src mm) in
    let* D1 := store_ D (addr_d D mm) a in
    if nzero A a then store_ D1 (addr_d D1 mm) mp else Some D1.

(* include/m_matrix_solver.h:187-229 LU_COPY::lu_decomp.
   Loop state: (matrix, prop).  The "open circuit" warning is not modelled. *)
Definition lu_decomp (do_partial : bool) (M : mat) : option mat :=
  let* st := for_up 1 (size (aa M) + 1) (fun mm (st : mat * Z) =>
      let (M', prop) := st in
      let bn := low (lu M') mm in
      if negb do_partial || changed M' mm || (bn <=? prop) then
        let* D := lu_block (aa M') (min_pivot M') mm (lu M') in
        Some (mkmat (aa M') D (upd (changed M') mm false) (min_pivot M'), mm)
      else Some st) (M, 0) in
  Some (fst st).

(* include/m_matrix_solver.h:247-267 LU_INPLACE::subtract_dot_product: m(rr,cc) -= T(dot) *)
Definition ip_subtract_dot_product (rr cc dd : Z) (D : data) : option (T * data) :=
  let kk := Z.max (low D rr) (low D cc) in
  let* x := load_ D (addr_m D rr cc) in
  let* dt := dot D rr cc kk dd in
  let r := nsub A x (wnar A dt) in
  let* D' := store_ D (addr_m D rr cc) r in
  Some (r, D').

(* include/m_matrix_solver.h:290-322 LU_INPLACE::lu_decomp *)
Definition ip_block (mp : T) (mm : Z) (D : data) : option data :=
  let bn := low D mm in
  if bn <? mm then
    let* a := load_ D (addr_u D bn mm) in
    let* p := load_ D (addr_d D bn) in
    let* D1 := store_ D (addr_u D bn mm) (ndiv A a p) in
    let* D2 := for_up (bn + 1) mm (fun ii D' =>
        let* rD := ip_subtract_dot_product ii mm ii D' in
        let* p := load_ (snd rD) (addr_d (snd rD) ii) in
        store_ (snd rD) (addr_m (snd rD) ii mm) (ndiv A (fst rD) p)) D1 in
    let* D4 := for_up (bn + 1) mm (fun jj D' =>
        let* rD := ip_subtract_dot_product mm jj jj D' in
        Some (snd rD)) D2 in
    let* rD := ip_subtract_dot_product mm mm mm D4 in
    if nzero A (fst rD) then store_ (snd rD) (addr_d (snd rD) mm) mp else Some (snd rD)
  else
    let* a := load_ D (addr_d D mm) in
    if nzero A a then store_ D (addr_d D mm) mp else Some D.
Definition ip_lu_decomp (mp : T) (D : data) : option data :=
  for_up 1 (size D + 1) (ip_block mp) D.

(* Vectors are T arrays of size+1 elements: total maps, indices checked here. *)
Definition vget (n : Z) (v : Z -> T) (i : Z) : option T :=
  if (0 <=? i) && (i <=? n) then Some (v i) else None.
Definition vset (n : Z) (v : Z -> T) (i : Z) (x : T) : option (Z -> T) :=
  if (0 <=? i) && (i <=? n) then Some (upd v i x) else None.

(* include/m_matrix.h:818-820: v[ii] -= l(ii,jj)*v[jj], jj = from .. ii-1 *)
Definition fwd_row (D : data) (from ii : Z) (v : Z -> T) : option (Z -> T) :=
  for_up from ii (fun jj v' =>
    let* x := vget (size D) v' ii in
    let* a := load_ D (addr_l D ii jj) in
    let* y := vget (size D) v' jj in
    vset (size D) v' ii (nsub A x (nmul A a y))) v.
(* include/m_matrix.h:821, 861: v[ii] /= d(ii) *)
Definition div_row (D : data) (ii : Z) (v : Z -> T) : option (Z -> T) :=
  let* x := vget (size D) v ii in
  let* p := load_ D (addr_d D ii) in
  vset (size D) v ii (ndiv A x p).
(* include/m_matrix.h:824-828, 867-871: back substitution *)
Definition back_sub (D : data) (v : Z -> T) : option (Z -> T) :=
  for_down (size D) 1 (fun jj v' =>
    for_up (low D jj) jj (fun ii v'' =>
      let* x := vget (size D) v'' ii in
      let* a := load_ D (addr_u D ii jj) in
      let* y := vget (size D) v'' jj in
      vset (size D) v'' ii (nsub A x (nmul A a y))) v') v.

(* include/m_matrix.h:811-829 fbsub(v) *)
Definition fbsub1 (D : data) (v : Z -> T) : option (Z -> T) :=
  let* v1 := for_up 1 (size D + 1) (fun ii v' =>
      let* w := fwd_row D (low D ii) ii v' in div_row D ii w) v in
  back_sub D v1.

(* include/m_matrix.h:845-852: index of the first nonzero of b (size+1 if none) *)
Fixpoint first_nz (n : nat) (i : Z) (b : Z -> T) : Z :=
  match n with
  | O => i
  | S n' => if nzero A (b i) then first_nz n' (i + 1) b else i
  end.
(* include/m_matrix.h:836-875 fbsub(x,b,c); c is the given intermediate vector, the result is x
   (the final c is not returned).  x and c may be the same array: the code at 865 copies c to x
   first, so nothing else depends on the old x. *)
Definition fbsub3 (D : data) (b c : Z -> T) : option (Z -> T) :=
  let nz := first_nz (Z.to_nat (size D)) 1 b in
  let* c0 := for_up 1 nz (fun ii c' => vset (size D) c' ii (n0 A)) c in
  let* c1 := for_up nz (size D + 1) (fun ii c' =>
      let* bi := vget (size D) b ii in
      let* c2 := vset (size D) c' ii bi in
      let* c3 := fwd_row D (Z.max (low D ii) nz) ii c2 in
      div_row D ii c3) c0 in
  let* x := back_sub D c1 in
  vset (size D) x 0 (n0 A).

(* include/m_matrix.h:885-906 fbsubt(v) *)
Definition fbsubt (D : data) (v : Z -> T) : option (Z -> T) :=
  let* v1 := for_up 1 (size D + 1) (fun ii v' =>
      for_up (low D ii) ii (fun jj v'' =>
        let* x := vget (size D) v'' ii in
        let* a := load_ D (addr_u D jj ii) in
        let* y := vget (size D) v'' jj in
        vset (size D) v'' ii (nsub A x (nmul A a y))) v') v in
  let* v2 := for_down (size D) 1 (fun jj v' =>
      let* v'' := div_row D jj v' in
      for_up (low D jj) jj (fun ii w =>
        let* x := vget (size D) w ii in
        let* a := load_ D (addr_l D jj ii) in
        let* y := vget (size D) w jj in
        vset (size D) w ii (nsub A x (nmul A a y))) v'') v1 in
  div_row D 1 v2.

End Data.

Arguments size {A}. Arguments low {A}. Arguments cells {A}. Arguments mkdata {A}.
Arguments aa {A}. Arguments lu {A}. Arguments changed {A}. Arguments min_pivot {A}. Arguments mkmat {A}.
Arguments LPoint {A}. Arguments LDiag {A}. Arguments LCouple {A}. Arguments LSym {A}. Arguments LAsym {A}.
