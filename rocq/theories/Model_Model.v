(* The search for the model of a device: COMPONENT::find_model  lib/e_compon.cc:874-934.

   The scopes are the lists that are searched, from that of the device outwards to the root (lib/e_compon.cc:884,
   lib/e_card.cc:91-107).  Of a card only its label, an identity, whether it is a MODEL_CARD, and if so whether it is
   valid for the device (include/e_model.h:70) are kept.  Labels and names are texts without zero characters; the
   number of a bin does not leave int.  Not modelled: the texts of the messages. *)
Require Import String Ascii List Bool Arith DecimalString.
Require Import Verif.Wmatch_Model Verif.CS_Model.
Require Verif.Delete_Model.
Import ListNotations.
Open Scope list_scope.

(* the result of the casts to MODEL_CARD  lib/e_compon.cc:901, 923, with is_valid 902, 926 *)
Inductive what := AModel (valid : bool) | Other.
(* include/e_base.h:85, include/e_card.h:71 *)
Record card := Card { label : list ascii; ident : nat; kind : what }.
(* lib/e_compon.cc:901-902 *)
Definition fits (c : card) : bool := match kind c with AModel v => v | Other => false end.
(* how it ends  lib/e_compon.cc:877, 913, 915, 925, 932; Found tells whether it is used anyway, with a warning (927);
   Endless: the loop at 891 does not end *)
Inductive result := Found (c : card) (warned : bool) | Nameless | Cant_find | No_bins | Mismatch | Endless.

Section Find.
Variable ci : bool.   (* OPT::case_insensitive *)
Variable nm : list ascii. (* modelname *)

(* lib/e_card.cc:133-145 find_in_my_scope: the first card of that name; None is the exception *)
Definition in_scope (n : list ascii) (sc : list card) : option card :=
  List.find (fun c => Delete_Model.same_name ci (label c) n) sc.
(* lib/l_ftos.cc:56-61 to_string(int) for numbers that are not negative *)
Definition number (k : nat) : list ascii := list_ascii_of_string (NilZero.string_of_uint (Nat.to_uint k)).
(* lib/e_compon.cc:893 *)
Definition extended (k : nat) : list ascii := nm ++ "."%char :: number k.
(* lib/e_compon.cc:891-908: the loop over the bins; k is bin_count, n bounds the rounds *)
Fixpoint bins (n k : nat) (sc : list card) : option (option card * nat) :=
  match n with
  | O => None
  | S n =>
      let k := S k in
      match in_scope (extended k) sc with
      | None => Some (None, k)
      | Some c => if fits c then Some (Some c, k) else bins n k sc
      end
  end.
(* lib/e_compon.cc:883-910: the loop over the scopes *)
Fixpoint look (scopes : list (list card)) (bin_count : nat) : option (option card * nat) :=
  match scopes with
  | [] => Some (None, bin_count)
  | sc :: rest =>
      match in_scope nm sc with
      | Some c => Some (Some c, bin_count)
      | None =>
          match bins (S (List.length sc)) 0 sc with
          | None => None
          | Some (Some c, k) => Some (Some c, k)
          | Some (None, k) => look rest k
          end
      end
  end.
(* lib/e_compon.cc:874-934 *)
Definition find_model (scopes : list (list card)) : result :=
  match nm with
  | [] => Nameless
  | _ =>
      match look scopes 0 with
      | None => Endless
      | Some (None, k) => if k <=? 1 then Cant_find else No_bins
      | Some (Some c, _) =>
          match kind c with
          | Other => Mismatch
          | AModel v => Found c (negb v)
          end
      end
  end.
End Find.
