(* C82: which file a command writes to, and when a file is kept. *)
Require Import Ascii String List Bool NArith Lia.
Require Import Verif.CS_Model Verif.Xopen_Model.
Import ListNotations.
Open Scope list_scope.

(* ---- the claim, without the model ---- *)

(* a word: no zero and no space *)
Definition word (w : list ascii) : Prop := forall c, In c w -> c <> NUL /\ isspace c = false.
(* what may come after a word *)
Definition after (r : list ascii) : Prop := match r with [] => True | c :: _ => c = NUL \/ isspace c = true end.
(* the word with the time for each dollar *)
Fixpoint with_time (now w : list ascii) : list ascii :=
  match w with
  | [] => []
  | c :: w' => (if ascii_dec c "$" then now else [c]) ++ with_time now w'
  end.
(* there is a dot after the last slash *)
Definition has_extension (w : list ascii) : Prop := exists a b, w = a ++ "."%char :: b /\ ~ In "/"%char b.
(* the buffer of 4096 holds it with the zero at its end *)
Definition holds (t : list ascii) : Prop := (N.of_nat (length t) < 4096)%N.

(* ---- proofs ---- *)

Lemma ends_after r : after r -> match r with [] => True | c :: _ => ends_name c = true end.
Proof.
  destruct r as [|c r]; [trivial|]. unfold ends_name. intros [->|E]; [reflexivity|]. rewrite E. apply orb_true_r.
Qed.
Lemma ends_word c : c <> NUL /\ isspace c = false -> ends_name c = false.
Proof.
  intros [N E]. unfold ends_name. rewrite E. destruct (Ascii.eqb_spec c NUL); [contradiction|reflexivity].
Qed.
Lemma size_app a b : size (a ++ b) = (size a + size b)%N.
Proof. unfold size. rewrite app_length. lia. Qed.

(* the state of defalt after a word *)
Fixpoint flag (w : list ascii) (d : bool) : bool :=
  match w with
  | [] => d
  | c :: w' => flag w' (if Ascii.eqb c "." then false else if Ascii.eqb c "/" then true else d)
  end.
Lemma flag_app a b d : flag (a ++ b) d = flag b (flag a d).
Proof. revert d. induction a as [|c a IH]; intros d; [reflexivity|]. simpl. apply IH. Qed.
Lemma flag_spec w : flag w true = false <-> has_extension w.
Proof.
  induction w as [|c w IH] using rev_ind.
  - simpl. split; [discriminate|]. intros (a & b & E & _). destruct a; discriminate.
  - rewrite flag_app. cbn [flag].
    destruct (Ascii.eqb_spec c ".") as [->|N1]; [|destruct (Ascii.eqb_spec c "/") as [->|N2]].
    + split; [|reflexivity]. intros _. exists w, []. split; [reflexivity|intros []].
    + split; [discriminate|]. intros (a & b & E & B). exfalso. apply B. destruct b as [|x b] using rev_ind.
      * apply app_inj_tail in E. destruct E as [_ E]. discriminate.
      * change (a ++ "."%char :: b ++ [x]) with (a ++ ("."%char :: b) ++ [x]) in E. rewrite app_assoc in E.
        apply app_inj_tail in E. destruct E as [_ <-]. apply in_or_app. right. left. reflexivity.
    + rewrite IH. split.
      * intros (a & b & -> & B). exists a, (b ++ [c]). split; [rewrite <- app_assoc; reflexivity|].
        intros I. apply in_app_or in I. destruct I as [I|[I|[]]]; [exact (B I)|exact (N2 I)].
      * intros (a & b & E & B). destruct b as [|x b _] using rev_ind.
        { apply app_inj_tail in E. destruct E as [_ E]. contradiction. }
        change (a ++ "."%char :: b ++ [x]) with (a ++ ("."%char :: b) ++ [x]) in E. rewrite app_assoc in E.
        apply app_inj_tail in E. destruct E as [-> _]. exists a, b. split; [reflexivity|].
        intros I. apply B. apply in_or_app. left. exact I.
Qed.

Lemma with_time_cons now c w : with_time now (c :: w) = (if Ascii.eqb c "$" then now else [c]) ++ with_time now w.
Proof. cbn [with_time]. destruct (ascii_dec c "$"), (Ascii.eqb_spec c "$"); congruence. Qed.

Lemma copy_fits now w : forall r acc d, word w -> after r -> (size acc + size (with_time now w) < 4096)%N ->
  copy now (w ++ r) acc d = Some (acc ++ with_time now w, flag w d, r).
Proof.
  induction w as [|c w IH]; intros r acc d W A L.
  - cbn [with_time flag app] in *. rewrite app_nil_r.
    assert (G : (size acc <? BIGBUFLEN)%N = true) by (apply N.ltb_lt; unfold BIGBUFLEN, size in *; simpl in L; lia).
    destruct r as [|c r]; cbn [copy]; rewrite G; [reflexivity|]. rewrite (ends_after _ A). reflexivity.
  - rewrite with_time_cons in *. rewrite size_app in L.
    assert (G : (size acc <? BIGBUFLEN)%N = true) by (apply N.ltb_lt; unfold BIGBUFLEN; lia).
    cbn [app copy]. rewrite G, (ends_word c) by (apply W; left; reflexivity).
    assert (W' : word w) by (intros x I; apply W; right; exact I).
    cbn [flag]. destruct (Ascii.eqb_spec c "$") as [->|N].
    + assert (G2 : (size acc + size now <? BIGBUFLEN)%N = true) by (apply N.ltb_lt; unfold BIGBUFLEN; lia).
      rewrite G2, IH; [|exact W'|exact A|rewrite size_app; lia]. rewrite <- app_assoc. reflexivity.
    + rewrite IH; [|exact W'|exact A|rewrite size_app; lia]. rewrite <- app_assoc. reflexivity.
Qed.
Lemma copy_over now w : forall r acc d, word w -> (4096 <= size acc + size (with_time now w))%N ->
  copy now (w ++ r) acc d = None.
Proof.
  induction w as [|c w IH]; intros r acc d W L.
  - assert (G : (size acc <? BIGBUFLEN)%N = false).
    { apply N.ltb_ge. unfold BIGBUFLEN, size in *. simpl in L. lia. }
    destruct r; cbn [app copy]; rewrite G; reflexivity.
  - rewrite with_time_cons in L. rewrite size_app in L. cbn [app copy].
    destruct (N.ltb_spec (size acc) BIGBUFLEN) as [G|G]; [|reflexivity].
    rewrite (ends_word c) by (apply W; left; reflexivity).
    assert (W' : word w) by (intros x I; apply W; right; exact I).
    destruct (Ascii.eqb_spec c "$") as [->|N].
    + destruct (N.ltb_spec (size acc + size now) BIGBUFLEN) as [G2|G2]; [|reflexivity].
      apply IH; [exact W'|rewrite size_app; lia].
    + apply IH; [exact W'|rewrite size_app; lia].
Qed.

(* ---- the theorems ---- *)

(* The name meant by the word w: the extension is added when it has none. *)
Inductive meant (now ext w : list ascii) : list ascii -> Prop :=
| meant_as_is : has_extension w \/ ext = [] -> meant now ext w (with_time now w)
| meant_added : ~ has_extension w -> ext <> [] -> meant now ext w (with_time now w ++ "."%char :: ext).

(* The name is the word, with the time for each dollar, and with the extension if it has none; the rest of the line
   is left. *)
Theorem C82_name now ex ag cl wr ext w r n : word w -> after r -> holds (with_time now w ++ "."%char :: ext ++ ["."%char]) ->
  n <> [] -> meant now ext w n ->
  xopen now ex ag cl wr ext (w ++ r) =
    Some (if (negb cl && wr && ex n)%bool then if ag n then Opens n else Kept n else Opens n, r).
Proof.
  intros W A L N M. unfold holds in L. rewrite app_length in L. cbn [length] in L. rewrite app_length in L.
  cbn [length] in L. unfold xopen. rewrite copy_fits; [|exact W|exact A|unfold size; simpl; lia].
  cbn [app].
  assert (E : extend ext (with_time now w) (flag w true) = n).
  { unfold extend. destruct M as [[H| ->]|H X].
    - apply flag_spec in H. rewrite H. destruct ext; reflexivity.
    - reflexivity.
    - destruct (flag w true) eqn:F; [|apply flag_spec in F; contradiction].
      destruct ext as [|x ext]; [contradiction|].
      assert (G : (size (with_time now w) + size (x :: ext) + 2 <? BIGBUFLEN)%N = true).
      { apply N.ltb_lt. unfold size, BIGBUFLEN. lia. }
      rewrite G. cbn [andb]. rewrite <- app_assoc. reflexivity. }
  rewrite E. destruct n as [|x n]; [contradiction|reflexivity].
Qed.

(* Every word means a name, and only one. *)
Theorem C82_one now ext w : exists n, meant now ext w n /\ forall m, meant now ext w m -> m = n.
Proof.
  destruct (flag w true) eqn:F.
  - assert (H : ~ has_extension w) by (intros H; apply flag_spec in H; congruence).
    destruct ext as [|x ext].
    + exists (with_time now w). split; [apply meant_as_is; right; reflexivity|].
      intros m [Y|Y X]; [reflexivity|contradiction].
    + exists (with_time now w ++ "."%char :: x :: ext). split; [apply meant_added; [exact H|discriminate]|].
      intros m [[X|X]|Y X]; [contradiction|discriminate|reflexivity].
  - apply flag_spec in F. exists (with_time now w). split; [apply meant_as_is; left; exact F|].
    intros m [Y|X _]; [reflexivity|contradiction].
Qed.

(* Without an extension to add, as all callers use it, the buffer is enough exactly when the name is shorter than it. *)
Theorem C82_fits now ex ag cl wr w r : word w -> after r ->
  xopen now ex ag cl wr [] (w ++ r) <> None <-> holds (with_time now w).
Proof.
  intros W A. unfold holds, xopen. split.
  - intros H. destruct (N.lt_ge_cases (N.of_nat (length (with_time now w))) 4096) as [L|L]; [exact L|].
    rewrite copy_over in H; [contradiction|exact W|exact L].
  - intros L. rewrite copy_fits; [|exact W|exact A|exact L]. destruct (extend _ _ _); discriminate.
Qed.

(* A file that exists is not opened for writing unless replacing is allowed by the option or by the user. *)
Theorem C82_kept now ex ag cl ext l n r :
  xopen now ex ag cl true ext l = Some (Opens n, r) -> ex n = true -> cl = true \/ ag n = true.
Proof.
  unfold xopen. destruct (copy now l [] true) as [[[acc d] r']|]; [|discriminate].
  destruct (extend ext acc d) as [|x m]; [discriminate|]. intros H E.
  destruct cl; [left; reflexivity|]. right. cbn [negb andb] in H.
  destruct (ex (x :: m)) eqn:X; [destruct (ag (x :: m)) eqn:G|].
  - injection H as <- _. exact G.
  - discriminate.
  - injection H as <- _. congruence.
Qed.
(* Nothing else keeps a file from being opened: not when it is new, when appending, or when the option allows it. *)
Theorem C82_not_kept now ex ag cl wr ext l n r :
  xopen now ex ag cl wr ext l = Some (Kept n, r) -> cl = false /\ wr = true /\ ex n = true /\ ag n = false.
Proof.
  unfold xopen. destruct (copy now l [] true) as [[[acc d] r']|]; [|discriminate].
  destruct (extend ext acc d) as [|x m]; [discriminate|].
  destruct cl; cbn [negb andb]; [discriminate|]. destruct wr; cbn [andb]; [|discriminate].
  destruct (ex (x :: m)) eqn:X; [|discriminate]. destruct (ag (x :: m)) eqn:G; [discriminate|].
  intros H. injection H as <- _. auto.
Qed.
(* There is no name exactly when there is no word. *)
Theorem C82_no_name now ex ag cl wr w r : word w -> after r -> now <> [] ->
  xopen now ex ag cl wr [] (w ++ r) = Some (No_name, r) <-> w = [].
Proof.
  intros W A T. unfold xopen. split.
  - destruct (N.lt_ge_cases (size (with_time now w)) 4096) as [L|L].
    + rewrite copy_fits; [|exact W|exact A|exact L]. cbn [app extend].
      destruct w as [|c w]; [reflexivity|]. rewrite with_time_cons.
      destruct (Ascii.eqb c "$"); [destruct now as [|x now]; [contradiction|]|]; cbn [app];
        match goal with |- context [if ?b then if ?a then _ else _ else _] => destruct b; [destruct a|] end; discriminate.
    + rewrite copy_over; [discriminate|exact W|exact L].
  - intros ->. rewrite copy_fits; [reflexivity|exact W|exact A|reflexivity].
Qed.

(* A word that fills the buffer or is longer makes it write outside of it, whatever comes after. *)
Theorem C82_long_refuted : forall now ex ag cl wr ext w r, word w -> ~ In "$"%char w ->
  (4096 <= N.of_nat (length w))%N -> xopen now ex ag cl wr ext (w ++ r) = None.
Proof.
  intros now ex ag cl wr ext w r W D L. unfold xopen. rewrite copy_over; [reflexivity|exact W|].
  assert (E : with_time now w = w).
  { clear W L. induction w as [|c w IH]; [reflexivity|]. rewrite with_time_cons.
    destruct (Ascii.eqb_spec c "$") as [->|N]; [exfalso; apply D; left; reflexivity|].
    cbn [app]. f_equal. apply IH. intros I. apply D. right. exact I. }
  rewrite E. exact L.
Qed.
(* The extension is left out without a word when it does not fit. *)
Theorem C82_left_out_refuted : forall now ex ag ext w r, word w -> after r -> holds (with_time now w) ->
  ~ holds (with_time now w ++ "."%char :: ext ++ ["."%char]) -> with_time now w <> [] ->
  xopen now ex ag true true ext (w ++ r) = Some (Opens (with_time now w), r).
Proof.
  intros now ex ag ext w r W A H L N. unfold xopen. rewrite copy_fits; [|exact W|exact A|exact H]. cbn [app].
  assert (E : extend ext (with_time now w) (flag w true) = with_time now w).
  { unfold extend. destruct ext as [|x ext]; [reflexivity|].
    assert (G : (size (with_time now w) + size (x :: ext) + 2 <? BIGBUFLEN)%N = false).
    { apply N.ltb_ge. unfold holds in L. rewrite app_length in L. cbn [length] in L. rewrite app_length in L.
      cbn [length] in L. unfold size, BIGBUFLEN. cbn [length]. lia. }
    rewrite G, andb_false_r. reflexivity. }
  rewrite E. destruct (with_time now w) as [|x n]; [contradiction|reflexivity].
Qed.

(* ---- cases ---- *)
Definition t (s : string) : list ascii := list_ascii_of_string s.
Definition run (s : string) := xopen (t "1700") (fun n => if list_eq_dec ascii_dec n (t "out.dat") then true else false)
  (fun _ => false) false true (t "dat") (t s).
Example C82_case_added : run "a.d/run$ x" = Some (Opens (t "a.d/run1700.dat"), t " x"). Proof. reflexivity. Qed.
Example C82_case_has : run "a/run.txt" = Some (Opens (t "a/run.txt"), []). Proof. reflexivity. Qed.
Example C82_case_kept : run "out list" = Some (Kept (t "out.dat"), t " list"). Proof. reflexivity. Qed.
Example C82_case_word : word (t "a.d/run$") /\ after (t " x") /\ ~ has_extension (t "a.d/run$") /\ has_extension (t "a/run.txt").
Proof.
  split; [|split; [|split]].
  - intros c I. simpl in I. repeat (destruct I as [<-|I]; [split; [discriminate|reflexivity]|]). contradiction.
  - right. reflexivity.
  - intros H. apply flag_spec in H. discriminate.
  - apply flag_spec. reflexivity.
Qed.
Example C82_case_long : let w := repeat "a"%char (N.to_nat 4096) in
  word w /\ ~ In "$"%char w /\ N.of_nat (length w) = 4096%N.
Proof.
  cbv zeta. split; [|split].
  - intros c I. apply repeat_spec in I. subst c. split; [discriminate|reflexivity].
  - intros I. apply repeat_spec in I. discriminate.
  - rewrite repeat_length. apply N2Nat.id.
Qed.
Example C82_case_left_out : let w := repeat "a"%char (N.to_nat 4094) in
  word w /\ holds (with_time [] w) /\ ~ holds (with_time [] w ++ "."%char :: t "dat" ++ ["."%char]).
Proof.
  cbv zeta. split; [intros c I; apply repeat_spec in I; subst c; split; [discriminate|reflexivity]|].
  assert (E : forall k, with_time [] (repeat "a"%char k) = repeat "a"%char k).
  { induction k as [|k IH]; [reflexivity|]. cbn [repeat]. rewrite with_time_cons, IH. reflexivity. }
  rewrite E. unfold holds. rewrite app_length, repeat_length, Nnat.Nat2N.inj_add, N2Nat.id.
  split; [reflexivity|discriminate].
Qed.

Print Assumptions C82_name.
Print Assumptions C82_one.
Print Assumptions C82_fits.
Print Assumptions C82_kept.
Print Assumptions C82_not_kept.
Print Assumptions C82_no_name.
Print Assumptions C82_long_refuted.
Print Assumptions C82_left_out_refuted.
