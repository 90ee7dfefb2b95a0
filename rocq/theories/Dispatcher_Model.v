(* lib/l_dispatcher.cc, include/l_dispatcher.h: the plugin dispatcher. *)
Require Import ZArith List Ascii String Bool.
Require Import Verif.Loops Verif.Wmatch_Model Verif.CS_Model Verif.Decimal_Text Verif.AMap.
Import ListNotations.

(* an installed object is known by its address; None is the null pointer *)
Definition ptr := option nat.
Definition table := amap ptr.

(* std::map::operator[] read: inserts a null pointer when the key is absent *)
Definition at_key (m : table) (k : key) : table * ptr :=
  match find m k with Some p => (m, p) | None => (put m k None, None) end.

(* the value a read of key k gives *)
Definition get (m : table) (k : key) : ptr := match find m k with Some p => p | None => None end.

(* lib/l_dispatcher.cc:34-47 DISPATCHER_BASE::operator[] (and include/l_dispatcher.h:87-98, which in
   addition asserts that the table exists) *)
Definition lower (s : key) : key := map to_lower s.
Definition lookup (ci : bool) (s : key) (d : option table) : option table * ptr :=
  match d with
  | None => (None, None)
  | Some m =>
    let (m, rv) := at_key m s in
    match rv with
    | None => if ci then let (m, rv) := at_key m (lower s) in (Some m, rv) else (Some m, None)
    | Some _ => (Some m, rv)
    end
  end.

(* lib/l_dispatcher.cc:49-68; the table must exist *)
Definition uninstall (p : ptr) (d : option table) : option (option table) :=
  match p with
  | None => Some d
  | Some a => let* m := d in
      Some (Some (map (fun kv => (fst kv, match snd kv with Some b => if Nat.eqb a b then None else Some b | None => None end)) m))
  end.

(* the substrings between '|', as taken by the loop at lib/l_dispatcher.cc:84-89; acc is the part of
   the current one already seen *)
Fixpoint split_bar (acc s : key) : list key :=
  match s with
  | [] => [acc]
  | c :: s' => if Ascii.eqb c "|" then acc :: split_bar [] s' else split_bar (acc ++ [c]) s'
  end.

(* lib/l_dispatcher.cc:96-99: find a free name to stash under.  Fuel: None when it runs out. *)
Definition stash_name (name : key) (ii : Z) : key := name ++ ":"%char :: show ii.
Fixpoint stash (fuel : nat) (m : table) (name save : key) (ii : Z) : option (table * key) :=
  match fuel with
  | O => None
  | S f => let (m, p) := at_key m save in
      match p with
      | None => Some (m, save)
      | Some _ => stash f m name (stash_name name ii) (ii + 1)%Z
      end
  end.

(* lib/l_dispatcher.cc:89-105: one name *)
Definition install_one (p : ptr) (name : key) (m : table) : option table :=
  match name with
  | [] => Some (put m name p)
  | _ => let (m, old) := at_key m name in
      match old with
      | None => Some (put m name p)
      | Some _ =>
          let* (m, save) := stash (List.length m + 3) m name (stash_name name 0) 0 in
          let (m, old) := at_key m name in
          Some (put (put m save old) name p)
      end
  end.
Fixpoint install_all (p : ptr) (names : list key) (m : table) : option table :=
  match names with [] => Some m | n :: ns => let* m := install_one p n m in install_all p ns m end.
(* lib/l_dispatcher.cc:78-107; the warnings printed are not modelled *)
Definition install (s : key) (p : ptr) (d : option table) : option (option table) :=
  if existsb (Ascii.eqb ",") s then None
  else let* m := install_all p (split_bar [] s) (match d with Some m => m | None => [] end) in Some (Some m).
