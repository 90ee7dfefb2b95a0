(* C13: wildcard matching of names *)
Require Import List Ascii String Bool.
Require Import Verif.Wmatch_Model.
Import ListNotations.

(* The documented meaning (lib/l_wmatch.cc:22-25): "? any character matches; * any repeated 0 or
   more"; other characters match themselves, up to case if eqc says so. *)
Inductive glob (eqc : ascii -> ascii -> Prop) : list ascii -> list ascii -> Prop :=
| g_end : glob eqc [] []
| g_chr : forall c d s p, eqc c d -> glob eqc s p -> glob eqc (c :: s) (d :: p)
| g_any : forall c s p, glob eqc s p -> glob eqc (c :: s) ("?"%char :: p)
| g_star0 : forall s p, glob eqc s p -> glob eqc s ("*"%char :: p)
| g_star1 : forall c s p, glob eqc s ("*"%char :: p) -> glob eqc (c :: s) ("*"%char :: p).

(* equal, or (when case is ignored) the upper and lower case of one letter *)
Definition same_char (ci : bool) (c d : ascii) : Prop := c = d \/ (ci = true /\ to_lower c = to_lower d).

Definition no_star (s : list ascii) : Prop := ~ In "*"%char s.

Lemma same_char_ok : forall ci c d, Ascii.eqb (fix_case ci c) (fix_case ci d) = true <-> same_char ci c d.
Proof.
  intros ci c d. rewrite Ascii.eqb_eq. unfold same_char, fix_case. destruct ci.
  - split; [auto|]. intros [->|[_ H]]; auto.
  - split; [auto|]. intros [->|[H _]]; [auto|discriminate].
Qed.

Lemma lower_star : forall c, to_lower c = "*"%char -> c = "*"%char.
Proof. intros [[] [] [] [] [] [] [] []] H; vm_compute in H; try discriminate H; reflexivity. Qed.
Lemma star_char : forall ci c, same_char ci c "*" -> c = "*"%char.
Proof. intros ci c [->|[_ H]]; [reflexivity|]. apply lower_star. exact H. Qed.

Lemma wm_cons : forall ci d p c s, wmatch_by_ptr ci (d :: p) (c :: s) =
  if Ascii.eqb (fix_case ci c) (fix_case ci d) then wmatch_by_ptr ci p s
  else if Ascii.eqb d "?" then wmatch_by_ptr ci p s
  else if Ascii.eqb d "*" then
    if wmatch_by_ptr ci (d :: p) s then true else if wmatch_by_ptr ci p (c :: s) then true else wmatch_by_ptr ci p s
  else false.
Proof. reflexivity. Qed.

Lemma wmatch_sound_l : forall ci p s, wmatch_by_ptr ci p s = true -> glob (same_char ci) s p.
Proof.
  induction p as [|d p IH]; intros s.
  - destruct s; cbn; [constructor|discriminate].
  - induction s as [|c s IHs]; [discriminate|]. rewrite wm_cons.
    destruct (Ascii.eqb (fix_case ci c) (fix_case ci d)) eqn:E.
    + intros H. apply g_chr; [now apply same_char_ok|now apply IH].
    + destruct (Ascii.eqb_spec d "?") as [->|N1]; [intros H; apply g_any; now apply IH|].
      destruct (Ascii.eqb_spec d "*") as [->|N2]; [|discriminate].
      destruct (wmatch_by_ptr ci ("*"%char :: p) s) eqn:E1.
      { intros _. apply g_star1. now apply IHs. }
      destruct (wmatch_by_ptr ci p (c :: s)) eqn:E2.
      { intros _. apply g_star0. now apply IH. }
      intros H. apply g_star1. apply g_star0. now apply IH.
Qed.

Lemma no_star_tl : forall c s, no_star (c :: s) -> no_star s.
Proof. intros c s H X. apply H. now right. Qed.
Lemma no_star_hd : forall c s, no_star (c :: s) -> c <> "*"%char.
Proof. intros c s H ->. apply H. now left. Qed.

(* the matcher satisfies the closure rules of glob on star-free strings, with the exception that
   a star cannot be dropped at the end of the string *)
Lemma wm_chr : forall ci c d s p, same_char ci c d -> wmatch_by_ptr ci p s = true -> wmatch_by_ptr ci (d :: p) (c :: s) = true.
Proof. intros ci c d s p H E. rewrite wm_cons. apply same_char_ok in H. now rewrite H. Qed.
Lemma wm_any : forall ci c s p, wmatch_by_ptr ci p s = true -> wmatch_by_ptr ci ("?"%char :: p) (c :: s) = true.
Proof. intros ci c s p E. rewrite wm_cons. destruct (Ascii.eqb (fix_case ci c) _); assumption. Qed.
Lemma not_star : forall ci c, c <> "*"%char -> Ascii.eqb (fix_case ci c) (fix_case ci "*") = false.
Proof.
  intros ci c N. destruct (Ascii.eqb (fix_case ci c) (fix_case ci "*")) eqn:E; [|reflexivity].
  apply same_char_ok in E. apply star_char in E. contradiction.
Qed.
Lemma wm_star0 : forall ci c s p, c <> "*"%char -> wmatch_by_ptr ci p (c :: s) = true -> wmatch_by_ptr ci ("*"%char :: p) (c :: s) = true.
Proof.
  intros ci c s p N E. rewrite wm_cons. rewrite not_star by assumption.
  cbn [Ascii.eqb Bool.eqb]. change (Ascii.eqb "*" "?") with false. change (Ascii.eqb "*" "*") with true. cbv iota.
  destruct (wmatch_by_ptr ci ("*"%char :: p) s) eqn:E1; [reflexivity|]. now rewrite E.
Qed.
Lemma wm_star1 : forall ci c s p, c <> "*"%char -> wmatch_by_ptr ci ("*"%char :: p) s = true -> wmatch_by_ptr ci ("*"%char :: p) (c :: s) = true.
Proof.
  intros ci c s p N E. rewrite wm_cons. rewrite not_star by assumption.
  change (Ascii.eqb "*" "?") with false. change (Ascii.eqb "*" "*") with true. cbv iota.
  now rewrite E.
Qed.
Lemma wm_only : forall ci c s p, c <> "*"%char -> wmatch_by_ptr ci p s = true -> wmatch_by_ptr ci ("*"%char :: p) (c :: s) = true.
Proof.
  intros ci c s p N E. rewrite wm_cons. rewrite not_star by assumption.
  change (Ascii.eqb "*" "?") with false. change (Ascii.eqb "*" "*") with true. cbv iota.
  match goal with |- (if ?b then _ else _) = true => destruct b; [reflexivity|] end.
  destruct (wmatch_by_ptr ci p (c :: s)); [reflexivity|assumption].
Qed.

Definition ends_in_star (p : list ascii) : Prop := exists q, p = q ++ ["*"%char].

Lemma glob_nil : forall eqc p, glob eqc [] p -> p = [] \/ ends_in_star p.
Proof.
  intros eqc p. induction p as [|d p IH]; intros H; [now left|]. right.
  inversion H; subst. destruct (IH H2) as [->|[q ->]]; [now exists []|]. exists ("*"%char :: q). reflexivity.
Qed.

Lemma wmatch_complete_l : forall ci s p, glob (same_char ci) s p -> no_star s -> ~ ends_in_star p ->
  wmatch_by_ptr ci p s = true.
Proof.
  intros ci s p H. induction H as [|c d s p Hc H IH|c s p H IH|s p H IH|c s p H IH]; intros Ns Np.
  - reflexivity.
  - apply wm_chr; [assumption|]. apply IH; [now apply no_star_tl with c|].
    intros [q ->]. apply Np. now exists (d :: q).
  - apply wm_any. apply IH; [now apply no_star_tl with c|]. intros [q ->]. apply Np. now exists ("?"%char :: q).
  - assert (Np' : ~ ends_in_star p) by (intros [q ->]; apply Np; now exists ("*"%char :: q)).
    destruct s as [|c s].
    + destruct (glob_nil _ _ H) as [->|X]; [|contradiction]. exfalso. apply Np. now exists [].
    + apply wm_star0; [now apply no_star_hd with s|]. now apply IH.
  - apply wm_star1; [now apply no_star_hd with s|]. apply IH; [now apply no_star_tl with c|assumption].
Qed.

(* a final star stands for one or more characters *)
Lemma wm_star_all : forall ci s, s <> [] -> no_star s -> wmatch_by_ptr ci ["*"%char] s = true.
Proof.
  intros ci s. induction s as [|c s IH]; intros N Ns; [contradiction|].
  destruct s as [|c' s'].
  - apply wm_only; [now apply no_star_hd with []|reflexivity].
  - apply wm_star1; [now apply no_star_hd with (c' :: s')|]. apply IH; [discriminate|now apply no_star_tl with c].
Qed.

Lemma star_sound : forall ci p s, wmatch_by_ptr ci (p ++ ["*"%char]) s = true ->
  exists s1 s2, s = s1 ++ s2 /\ glob (same_char ci) s1 p /\ s2 <> [].
Proof.
  intros ci p. induction p as [|d p IH]; intros s.
  - intros H. exists [], s. split; [reflexivity|]. split; [constructor|]. intros ->. discriminate H.
  - induction s as [|c s IHs]; cbn [app]; [discriminate|]. rewrite wm_cons.
    destruct (Ascii.eqb (fix_case ci c) (fix_case ci d)) eqn:E.
    { intros H. destruct (IH s H) as (s1 & s2 & -> & H1 & H2). exists (c :: s1), s2.
      split; [reflexivity|]. split; [apply g_chr; [now apply same_char_ok|assumption]|assumption]. }
    destruct (Ascii.eqb_spec d "?") as [->|N1].
    { intros H. destruct (IH s H) as (s1 & s2 & -> & H1 & H2). exists (c :: s1), s2.
      split; [reflexivity|]. split; [now apply g_any|assumption]. }
    destruct (Ascii.eqb_spec d "*") as [->|N2]; [|discriminate].
    cbn [app] in IHs.
    destruct (wmatch_by_ptr ci ("*"%char :: p ++ ["*"%char]) s) eqn:E1.
    { intros _. destruct (IHs eq_refl) as (s1 & s2 & -> & H1 & H2). exists (c :: s1), s2.
      split; [reflexivity|]. split; [now apply g_star1|assumption]. }
    destruct (wmatch_by_ptr ci (p ++ ["*"%char]) (c :: s)) eqn:E2.
    { intros _. destruct (IH _ E2) as (s1 & s2 & Es & H1 & H2). exists s1, s2.
      split; [assumption|]. split; [now apply g_star0|assumption]. }
    intros H. destruct (IH _ H) as (s1 & s2 & -> & H1 & H2). exists (c :: s1), s2.
    split; [reflexivity|]. split; [apply g_star1; now apply g_star0|assumption].
Qed.

Lemma star_complete : forall ci p s1, glob (same_char ci) s1 p -> forall s2, no_star (s1 ++ s2) -> s2 <> [] ->
  wmatch_by_ptr ci (p ++ ["*"%char]) (s1 ++ s2) = true.
Proof.
  intros ci p s1 H. induction H as [|c d s p Hc H IH|c s p H IH|s p H IH|c s p H IH]; intros s2 Ns N2; cbn [app] in *.
  - now apply wm_star_all.
  - apply wm_chr; [assumption|]. apply IH; [now apply no_star_tl with c|assumption].
  - apply wm_any. apply IH; [now apply no_star_tl with c|assumption].
  - destruct (s ++ s2) as [|c t] eqn:Et.
    { destruct s; [contradiction|discriminate]. }
    apply wm_star0; [now apply no_star_hd with t|]. rewrite <- Et. apply IH; [now rewrite Et|assumption].
  - apply wm_star1; [now apply no_star_hd with (s ++ s2)|]. apply IH; [now apply no_star_tl with c|assumption].
Qed.

(* ---- the theorems ---- *)

(* a reported match is a match, for every label and pattern *)
Theorem C13_wildcard_sound : forall ci label pattern,
  wmatch ci label pattern = true -> glob (same_char ci) label pattern.
Proof. exact (fun ci label pattern => wmatch_sound_l ci pattern label). Qed.
Print Assumptions C13_wildcard_sound.

(* for labels without a literal star and patterns not ending in one, exactly the documented matches *)
Theorem C13_wildcard_exact : forall ci label pattern, no_star label -> ~ ends_in_star pattern ->
  (wmatch ci label pattern = true <-> glob (same_char ci) label pattern).
Proof.
  intros ci label pattern H1 H2. split; [apply C13_wildcard_sound|]. intros H. now apply wmatch_complete_l.
Qed.
Print Assumptions C13_wildcard_exact.

(* a final star is exactly one or more characters *)
Theorem C13_final_star_one_or_more : forall ci label pattern, no_star label ->
  (wmatch ci label (pattern ++ ["*"%char]) = true <->
   exists front back, label = front ++ back /\ glob (same_char ci) front pattern /\ back <> []).
Proof.
  intros ci label pattern H1. split; [apply star_sound|].
  intros (s1 & s2 & -> & H & N). now apply star_complete.
Qed.
Print Assumptions C13_final_star_one_or_more.

Definition str := list_ascii_of_string.
Example C13_case : no_star (str "Vout12") /\ ~ ends_in_star (str "v*t?2") /\ wmatch true (str "Vout12") (str "v*t?2") = true
   /\ wmatch true (str "Vout12") (str "v*t?3") = false.
Proof.
  split; [|split; [|split; vm_compute; reflexivity]].
  - intros H. repeat destruct H as [H|H]; try discriminate H. exact H.
  - intros [q E]. apply (f_equal (fun l => last l "x"%char)) in E. rewrite last_last in E. discriminate E.
Qed.
Example C13_case_final_star : no_star (str "r1") /\ wmatch true (str "r1") (str "r" ++ ["*"%char]) = true.
Proof. split; [|reflexivity]. intros H. repeat destruct H as [H|H]; try discriminate H. exact H. Qed.

(* the documented meaning (0 or more) fails at the end of the pattern ... *)
Theorem C13_final_star_zero_refuted : exists label pattern, no_star label /\
  glob (same_char true) label pattern /\ wmatch true label pattern = false.
Proof.
  exists (str "r"), (str "r*"). split; [|split; [|reflexivity]].
  - intros H. repeat destruct H as [H|H]; try discriminate H. exact H.
  - apply g_chr; [now left|]. apply g_star0. constructor.
Qed.
Print Assumptions C13_final_star_zero_refuted.
(* ... and for labels that contain a star *)
Theorem C13_literal_star_refuted : exists label pattern, ~ ends_in_star pattern /\
  glob (same_char true) label pattern /\ wmatch true label pattern = false.
Proof.
  exists (str "*ab"), (str "*b"). split; [|split; [|reflexivity]].
  - intros [q E]. apply (f_equal (fun l => last l "x"%char)) in E. rewrite last_last in E. discriminate E.
  - apply g_star1. apply g_star1. apply g_star0. apply g_chr; [now left|constructor].
Qed.
Print Assumptions C13_literal_star_refuted.
