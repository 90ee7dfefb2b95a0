(* Decimal text of an integer: what printf("%d") and std::to_string give.  Shared vocabulary. *)
Require Import ZArith List Ascii.
Import ListNotations.
Local Open Scope Z_scope.

Definition digit_char (d : Z) : ascii := ascii_of_N (Z.to_N (d + 48)).
Fixpoint show_loop (n : nat) (z : Z) (acc : list ascii) : list ascii :=
  match n with
  | O => acc
  | S n' => if z <? 10 then digit_char z :: acc else show_loop n' (z / 10) (digit_char (z mod 10) :: acc)
  end.
Definition show_nat (z : Z) : list ascii := show_loop (S (Z.to_nat (Z.log2 z))) z [].
Definition show (z : Z) : list ascii := if z <? 0 then "-"%char :: show_nat (- z) else show_nat z.

