(* The command delete: apps/c_delete.cc, and what it uses of CARD_LIST (lib/e_cardlist.cc).

   Simplified: a card is its label, an identity, whether it is a device, and the list inside it.  Labels and names are
   texts without zero characters.  Not modelled: the text of the warning, purge() and the destruction of what is erased
   (lib/e_cardlist.cc:105-107), so that others may still point to it. *)
Require Import String Ascii List Bool ZArith.
Require Import Verif.Loops Verif.Wmatch_Model Verif.CS_Model Verif.Probes_Model.
Import ListNotations.
Open Scope list_scope.

(* include/e_card.h:71-131: label, identity, is_device(), subckt() *)
Inductive card := Card (label : list ascii) (id : Z) (device : bool) (sub : option (list card)).
(* include/e_base.h:85 short_label *)
Definition label (c : card) := match c with Card l _ _ _ => l end.
(* include/e_card.h:100 is_device: true for components (include/e_compon.h:186), except the subcircuits themselves
   (lib/d_subckt.cc:103); false for models, comments and commands *)
Definition device (c : card) := match c with Card _ _ d _ => d end.
(* include/e_card.h:117 subckt *)
Definition sub (c : card) := match c with Card _ _ _ s => s end.
(* the card after a change of the list in it  include/e_card.h:117 *)
Definition with_sub (c : card) (l : list card) := match c with Card n i d _ => Card n i d (Some l) end.

(* lib/e_base.cc:172-179, negated: strcasecmp or strcmp *)
Definition same_name (ci : bool) (a b : list ascii) : bool :=
  if list_eq_dec ascii_dec (map (fix_case ci) a) (map (fix_case ci) b) then true else false.
(* include/e_cardlist.h:90, lib/e_cardlist.cc:89-94, include/l_stlextra.h:41-48: the first card of that name, with what
   is before and after it *)
Fixpoint find_card (ci : bool) (nm : list ascii) (l : list card) : option (list card * card * list card) :=
  match l with
  | [] => None
  | c :: l' => if same_name ci (label c) nm then Some ([], c, l')
               else match find_card ci nm l' with Some (a, x, b) => Some (c :: a, x, b) | None => None end
  end.
(* apps/c_delete.cc:42-49: find_first_of and the two parts *)
Fixpoint cut_first (d : list ascii) : option (list ascii * list ascii) :=
  match d with
  | [] => None
  | c :: d' => if Ascii.eqb c "." then Some ([], d') else match cut_first d' with Some (a, b) => Some (c :: a, b) | None => None end
  end.
(* apps/c_delete.cc:55-57: find_last_of and the two parts *)
Fixpoint cut_last (d : list ascii) : option (list ascii * list ascii) :=
  match d with
  | [] => None
  | c :: d' => match cut_last d' with
               | Some (a, b) => Some (c :: a, b)
               | None => if Ascii.eqb c "." then Some ([], d') else None
               end
  end.
(* apps/c_delete.cc:75 find_first_of *)
Definition wild (nm : list ascii) : bool := existsb (fun c => Ascii.eqb c "*" || Ascii.eqb c "?") nm.
(* apps/c_delete.cc:77-89: the loop over the list *)
Fixpoint erase_wild (ci : bool) (nm : list ascii) (l : list card) : bool * list card :=
  match l with
  | [] => (false, [])
  | c :: l' => let '(d, r) := erase_wild ci nm l' in if wmatch ci (label c) nm then (true, r) else (d, c :: r)
  end.

(* apps/c_delete.cc:38-104.  Assert is assert(Scope) of a card without a list inside; n bounds the depth, and the name
   gets shorter with it *)
Fixpoint delete_one (ci : bool) (n : nat) (nm : list ascii) (scope : list card) : out (bool * list card) :=
  match n with
  | O => NoEnd
  | S n =>
      match cut_first nm with
      | Some (container, dev) =>
          let '(found, dev) :=
            match find_card ci container scope with
            | Some x => (Some x, dev)
            | None => match cut_last nm with
                      | Some (dev, container) => (find_card ci container scope, dev)
                      | None => (None, dev)
                      end
            end in
          match found with
          | None => Done (false, scope)
          | Some (a, c, b) =>
              if device c then Done (false, scope)
              else match sub c with
                   | None => Assert
                   | Some l => do (d, l) <- delete_one ci n dev l; Done (d, a ++ with_sub c l :: b)
                   end
          end
      | None =>
          if wild nm then Done (erase_wild ci nm scope)
          else match find_card ci nm scope with
               | Some (a, _, b) => Done (true, a ++ b)
               | None => Done (false, scope)
               end
      end
  end.
Definition delete_one_name (ci : bool) (nm : list ascii) (scope : list card) : out (bool * list card) :=
  delete_one ci (S (List.length nm)) nm scope.

(* apps/c_delete.cc:114-120; n bounds the rounds; the second result tells for each name whether there was a match, so
   whether there was no warning *)
Fixpoint names (ci : bool) (n : nat) (scope : list card) (s : cs) : out (list card * list bool) :=
  match n with
  | O => NoEnd
  | S n =>
      do (m, s) <- txt (more s);
      if m then
        do (nm, s) <- txt (ctos TERM QB QE s);
        do (d, scope) <- delete_one_name ci nm scope;
        do (scope, l) <- names ci n scope s;
        Done (scope, d :: l)
      else Done (scope, [])
  end.
(* apps/c_delete.cc:106-122 *)
Definition command (ci : bool) (n : nat) (scope : list card) (s : cs) : out (list card * list bool) :=
  do s <- txt (umatch ci (str "all ") s);
  if ok s then Done ([], []) else names ci n scope s.
