(* What a user of the matrix relies on, stated without the storage scheme. *)
Require Import ZArith List Bool.
Require Import Verif.Loops Verif.FieldSums Verif.Matrix_Model Verif.Matrix_Load.
Import ListNotations.
Local Open Scope Z_scope.

(* nodes a load may use: ground (any non-positive number), a node with itself, or a declared pair *)
Definition wanted (s : Z) (ws : list (Z * Z)) (i j : Z) : Prop :=
  0 < i -> 0 < j -> (i = j /\ i <= s) \/ In (i, j) ws \/ In (j, i) ws.

Definition load_wanted {A} (s : Z) (ws : list (Z * Z)) (x : load A) : Prop :=
  match x with
  | LPoint i j _ => wanted s ws i j
  | LDiag i _ => wanted s ws i i
  | LCouple i j _ => wanted s ws i j
  | LSym i j _ => wanted s ws i i /\ wanted s ws j j /\ wanted s ws i j
  | LAsym r1 r2 c1 c2 _ => wanted s ws r1 c1 /\ wanted s ws r1 c2 /\ wanted s ws r2 c1 /\ wanted s ws r2 c2
  end.

Definition ops_wanted {A} (s : Z) (ws : list (Z * Z)) (l : list (op A)) : Prop :=
  forall x, In (OLoad A x) l -> load_wanted s ws x.

(* the last value written at (r,c), or the default *)
Definition last_write {V} (d : V) (l : list (Z * Z * V)) (r c : Z) : V :=
  fold_left (fun acc w => if (fst (fst w) =? r) && (snd (fst w) =? c) then snd w else acc) l d.

Section S.
Variable K : fld.
Definition delta (i j : Z) : F K := if i =? j then f1 K else f0 K.
(* contribution of a load to the dense matrix entry (r,c), r,c >= 1; ground rows/columns have
   indices <= 0 and so never match *)
Definition stamp {A} (val : num A -> F K) (x : load A) (r c : Z) : F K :=
  match x with
  | LPoint i j v => fmul K (val v) (fmul K (delta r i) (delta c j))
  | LDiag i v => fmul K (val v) (fmul K (delta r i) (delta c i))
  | LCouple i j v => fopp K (fmul K (val v) (fadd K (fmul K (delta r i) (delta c j)) (fmul K (delta r j) (delta c i))))
  | LSym i j v => fmul K (val v) (fmul K (fsub K (delta r i) (delta r j)) (fsub K (delta c i) (delta c j)))
  | LAsym r1 r2 c1 c2 v => fmul K (val v) (fmul K (fsub K (delta r r1) (delta r r2)) (fsub K (delta c c1) (delta c c2)))
  end.
(* sum over 1..n *)
Definition tot (n : Z) (f : Z -> F K) : F K := fsum K 1 (n + 1) f.
(* product of a lower triangular matrix and a unit upper triangular one stored together in m *)
Definition lower (m : Z -> Z -> F K) (r k : Z) : F K := if k <=? r then m r k else f0 K.
Definition upper1 (m : Z -> Z -> F K) (k c : Z) : F K := if k <? c then m k c else delta k c.
End S.
