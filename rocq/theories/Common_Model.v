(* lib/e_compon.cc: COMMON_COMPONENT reference counting, and COMPONENT::set_param_by_name on it. *)
Require Import ZArith List Bool.
Require Import Verif.Loops.
Import ListNotations.
Local Open Scope Z_scope.

Section Common.
(* the contents of a common, and its operator== (virtual; nothing is assumed about it here) *)
Context {D : Type} (same : D -> D -> bool).

(* include/e_compon.h:56 *)
Definition CC_STATIC : Z := 27342.
(* include/e_compon.h:59-69: _attach_count and the rest; static is a note for the proofs, the code
   does not read it *)
Record obj := Obj { count : Z; data : D; static : bool }.
(* objects by address (None: never allocated or freed), the next free address, and the _common
   pointers of all holders *)
Record state := State { heap : nat -> option obj; next : nat; slots : list (option nat) }.

Definition set_heap (st : state) (i : nat) (o : option obj) : state :=
  State (fun j => if Nat.eqb j i then o else heap st j) (next st) (slots st).
Fixpoint set_nth (l : list (option nat)) (k : nat) (v : option nat) : list (option nat) :=
  match l, k with
  | [], _ => []
  | _ :: l', O => v :: l'
  | x :: l', S k' => x :: set_nth l' k' v
  end.
Definition set_slot (st : state) (k : nat) (v : option nat) : state := State (heap st) (next st) (set_nth (slots st) k v).
Definition set_count (o : obj) (c : Z) : obj := Obj c (data o) (static o).

(* new COMMON_...(c), or the clone made by the copy constructor with count 0
   (lib/e_compon.cc:29-50) *)
Definition make (c : Z) (d : D) (s : bool) (st : state) : state * nat :=
  (State (fun j => if Nat.eqb j (next st) then Some (Obj c d s) else heap st j) (S (next st)) (slots st), next st).

(* delete, with the assert of the destructor (lib/e_compon.cc:53-57) *)
Definition delete (i : nat) (st : state) : option state :=
  let* o := heap st i in
  if (count o =? 0) || (count o =? CC_STATIC) then Some (set_heap st i None) else None.

(* lib/e_compon.cc:91-107 detach_common; k is the holder *)
Definition detach (k : nat) (st : state) : option state :=
  let* p := nth_error (slots st) k in
  match p with
  | None => Some st
  | Some i =>
    let* o := heap st i in
    if count o >? 0 then
      let o' := set_count o (count o - 1) in
      let st := set_heap st i (Some o') in
      let* st := if count o' =? 0 then delete i st else Some st in
      Some (set_slot st k None)
    else None
  end.

(* ++(c->_attach_count); *to = c; *)
Definition grab (i k : nat) (st : state) : option state :=
  let* o := heap st i in
  Some (set_slot (set_heap st i (Some (set_count o (count o + 1)))) k (Some i)).

Definition ptr_eqb (a b : option nat) : bool :=
  match a, b with Some i, Some j => Nat.eqb i j | None, None => true | _, _ => false end.

(* lib/e_compon.cc:59-89 attach_common *)
Definition attach (c : option nat) (k : nat) (st : state) : option state :=
  let* p := nth_error (slots st) k in
  if ptr_eqb c p then Some st
  else
    match c, p with
    | None, _ => detach k st
    | Some i, None => grab i k st
    | Some i, Some j =>
      let* oi := heap st i in
      let* oj := heap st j in
      if negb (same (data oi) (data oj)) then let* st := detach k st in grab i k st
      else if count oi =? 0 then delete i st
      else Some st
    end.

(* lib/e_compon.cc:732-743, COMPONENT::set_param_by_name on a component that has a common: f is what
   the common's own set_param_by_name does to its contents; is_shared is include/e_compon.h:73 *)
Definition set_param (f : D -> D) (k : nat) (st : state) : option state :=
  let* p := nth_error (slots st) k in
  let* i := p in
  let* o := heap st i in
  if negb (count o >? 1) then Some (set_heap st i (Some (Obj (count o) (f (data o)) (static o))))
  else let (st, c) := make 0 (f (data o)) false st in attach (Some c) k st.
End Common.
Arguments obj : clear implicits.
Arguments state : clear implicits.
