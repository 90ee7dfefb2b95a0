(* C62: text in quotes, braces or parentheses. *)
Require Import ZArith List Ascii String Bool Lia.
Require Import Verif.Loops Verif.Wmatch_Model Verif.CS_Model Verif.CS_Proofs Verif.CS_Ops Verif.Quote_Proofs.
Require Import Verif.P_Scanner Verif.P_Keyword.
Import ListNotations.
Local Open Scope Z_scope.

(* a pair of marks that a caller hands to ctos: the marks are visible characters other than the backslash,
   and the first place of the opening mark in the one list is the place of the closing mark in the other *)
Definition marks (bqs eqs : list ascii) (bq eq : ascii) : Prop :=
  List.length bqs = List.length eqs /\ (exists a b a' b', bqs = a ++ bq :: b /\ ~ In bq a /\ eqs = a' ++ eq :: b' /\ List.length a = List.length a') /\
  isgraph bq = true /\ isgraph eq = true /\ bq <> "\"%char /\ eq <> "\"%char.
(* how a text is put between the marks: a closing mark has a backslash in front; where the marks differ,
   nested pairs stand as they are *)
Inductive stands (bq eq : ascii) : list ascii -> list ascii -> Prop :=
  | st_nil : stands bq eq [] []
  | st_char c t d : ~ In c [NUL; bq; eq; "\"%char] -> stands bq eq t d -> stands bq eq (c :: t) (c :: d)
  | st_esc t d : stands bq eq t d -> stands bq eq ("\"%char :: eq :: t) (eq :: d)
  | st_pair t1 d1 t2 d2 : bq <> eq -> stands bq eq t1 d1 -> stands bq eq t2 d2 -> stands bq eq (bq :: t1 ++ eq :: t2) (bq :: d1 ++ eq :: d2).

Lemma unq_stands : forall bq eq, bq <> NUL -> eq <> NUL -> bq <> "\"%char -> eq <> "\"%char -> forall t d, stands bq eq t d -> forall k x, 1 <= k ->
  unq bq eq k (t ++ x) = (d ++ fst (unq bq eq k x), snd (unq bq eq k x)).
Proof.
  intros bq eq Nb Ne Bb Be t d H. induction H as [|c t d N _ IH|t d _ IH|t1 d1 t2 d2 N _ IH1 _ IH2]; intros k x Hk.
  - cbn. now destruct (unq bq eq k x).
  - cbn [app unq]. destruct (Ascii.eqb_spec c NUL) as [->|_]; [elim N; cbn; auto|]. destruct (Ascii.eqb_spec c eq) as [->|_]; [elim N; cbn; auto|].
    destruct (Ascii.eqb_spec c bq) as [->|_]; [elim N; cbn; auto|]. destruct (Ascii.eqb_spec c "\") as [->|_]; [elim N; cbn; auto|]. now rewrite (IH k x Hk).
  - cbn [app]. cbn [unq]. destruct (Ascii.eqb_spec "\" NUL) as [E|_]; [discriminate E|]. destruct (Ascii.eqb_spec "\" eq) as [E|_]; [now elim Be|].
    destruct (Ascii.eqb_spec "\" bq) as [E|_]; [now elim Bb|]. destruct (Ascii.eqb_spec "\" "\") as [_|E]; [|now elim E]. rewrite Ascii.eqb_refl. now rewrite (IH k x Hk).
  - cbn [app]. rewrite <- app_assoc. cbn [app]. cbn [unq]. destruct (Ascii.eqb_spec bq NUL) as [E|_]; [now elim Nb|]. destruct (Ascii.eqb_spec bq eq) as [E|_]; [now elim N|].
    rewrite Ascii.eqb_refl. rewrite (IH1 (k + 1) (eq :: t2 ++ x) ltac:(lia)). cbn [unq]. destruct (Ascii.eqb_spec eq NUL) as [E|_]; [now elim Ne|]. rewrite Ascii.eqb_refl.
    destruct (Z.leb_spec (k + 1 - 1) 0) as [E|_]; [lia|]. replace (k + 1 - 1) with k by lia. rewrite (IH2 k x Hk). cbn [fst snd]. rewrite <- app_assoc. reflexivity.
Qed.
Lemma find_pos_first : forall c a b, ~ In c a -> find_pos c (a ++ c :: b) = Some (List.length a).
Proof.
  induction a as [|d a IH]; intros b N; cbn; [now rewrite Ascii.eqb_refl|]. destruct (Ascii.eqb_spec c d) as [->|_]; [elim N; now left|].
  rewrite IH; [reflexivity|]. intros I. apply N. now right.
Qed.
Lemma marks_ctos : forall line t bqs eqs bq eq q s, marks bqs eqs bq eq -> vw line (bq :: q) s ->
  exists s', ctos t bqs eqs s = Some (fst (unq bq eq 1 q), s') /\ vw line (dropcom (snd (unq bq eq 1 q))) s'.
Proof.
  intros line t bqs eqs bq eq q s (L & (a & b & a' & b' & -> & N & -> & La) & Gb & Ge & _) V.
  apply ctos_quoted with (k := List.length a); try assumption.
  - now apply find_pos_first.
  - rewrite La, app_nth2, Nat.sub_diag by lia. reflexivity.
  - intros ->. discriminate Gb.
  - intros ->. discriminate Ge.
Qed.

(* Text put between marks is read back, and reading goes on behind the closing mark *)
Theorem C62_read : forall bqs eqs bq eq t d, marks bqs eqs bq eq -> stands bq eq t d ->
  forall term line s r, on_line line s -> after s = bq :: t ++ eq :: r -> (forall c q, r = c :: q -> isgraph c = true /\ c <> ","%char) ->
  exists s', ctos term bqs eqs s = Some (d, s') /\ on_line line s' /\ after s' = r.
Proof.
  intros bqs eqs bq eq t d M S term line s r H E Hr. destruct (on_line_vw _ _ H) as (r0 & V). rewrite (after_vw _ _ _ V) in E. subst r0.
  destruct (marks_ctos line term bqs eqs bq eq _ s M V) as (s' & E' & V'). destruct M as (_ & _ & Gb & Ge & Bb & Be).
  assert (Nb : bq <> NUL) by (intros ->; discriminate Gb). assert (Ne : eq <> NUL) by (intros ->; discriminate Ge).
  assert (U : unq bq eq 1 (t ++ eq :: r) = (d, r)).
  { rewrite (unq_stands bq eq Nb Ne Bb Be t d S 1 (eq :: r) ltac:(lia)). cbn [unq]. destruct (Ascii.eqb_spec eq NUL); [contradiction|]. rewrite Ascii.eqb_refl. cbn. now rewrite app_nil_r. }
  rewrite U in *. cbn [fst snd] in *.
  assert (Dr : dropcom r = r).
  { destruct r as [|c q]; [reflexivity|]. destruct (Hr c q eq_refl) as [G N].
    assert (D : dropbl (c :: q) = c :: q) by (apply drop_idem; unfold head, fblank; cbn [hd]; rewrite G; apply andb_false_r).
    assert (F : fcomma c = false).
    { destruct (fcomma c) eqn:F; [|reflexivity]. unfold fcomma in F. apply in_set_In in F. destruct F as [F|[]]. now elim N. }
    unfold dropcom, eat1b. rewrite D. unfold eat1. rewrite F. exact D. }
  rewrite Dr in V'. exists s'. split; [exact E'|]. split; [now apply vw_on_line with r|now apply after_vw with line].
Qed.
Print Assumptions C62_read.

(* Any text without a backslash can be put between quotes; between two different marks, any text
   without a backslash and without the opening mark *)
Theorem C62_write : forall bq eq d, ~ In NUL d -> ~ In "\"%char d -> (bq = eq \/ ~ In bq d) -> exists t, stands bq eq t d.
Proof.
  intros bq eq. induction d as [|c d IH]; intros Nn Nb H; [exists []; constructor|].
  destruct IH as (t & S); [intros I; apply Nn; now right|intros I; apply Nb; now right|destruct H as [H|H]; [now left|right; intros I; apply H; now right]|].
  destruct (ascii_dec c eq) as [->|Ne]; [exists ("\"%char :: eq :: t); now constructor|].
  exists (c :: t). constructor; [|exact S]. intros [<-|[<-|[<-|[<-|[]]]]].
  - apply Nn. now left.
  - destruct H as [H|H]; [now elim Ne|apply H; now left].
  - now elim Ne.
  - apply Nb. now left.
Qed.
Print Assumptions C62_write.

(* A backslash cannot be read at all: whatever stands between the marks, closed or not, none comes out *)
Lemma unq_no_bs : forall bq eq, bq <> "\"%char -> eq <> "\"%char -> forall n r k, (List.length r <= n)%nat -> ~ In "\"%char (fst (unq bq eq k r)).
Proof.
  intros bq eq Nb Ne. induction n as [|n IH]; intros [|c q] k L; try (cbn in L; lia); try (now intros []).
  cbn [unq]. cbn in L.
  assert (A : forall j c', c' <> "\"%char -> ~ In "\"%char (fst (let (d, x) := unq bq eq j q in (c' :: d, x)))).
  { intros j c' N. specialize (IH q j ltac:(lia)). destruct (unq bq eq j q) as [d x]. cbn in *. intros [E|I]; [now elim N|contradiction]. }
  destruct (Ascii.eqb c NUL); [now intros []|].
  destruct (Ascii.eqb_spec c eq) as [->|_]; [destruct (k - 1 <=? 0); [now intros []|now apply A]|].
  destruct (Ascii.eqb_spec c bq) as [->|_]; [now apply A|]. destruct (Ascii.eqb_spec c "\") as [->|N]; [|now apply A].
  destruct q as [|e q']; [now intros []|]. destruct (Ascii.eqb_spec e eq) as [->|_].
  - specialize (IH q' k ltac:(cbn in L; lia)). destruct (unq bq eq k q') as [d x]. cbn in *. intros [E|I]; [now elim Ne|contradiction].
  - apply IH. cbn in *. lia.
Qed.
Theorem C62_backslash_refuted : forall bqs eqs bq eq term line s q d s', marks bqs eqs bq eq -> on_line line s -> after s = bq :: q ->
  ctos term bqs eqs s = Some (d, s') -> ~ In "\"%char d.
Proof.
  intros bqs eqs bq eq term line s q d s' M H E C. destruct (on_line_vw _ _ H) as (r0 & V). rewrite (after_vw _ _ _ V) in E. subst r0.
  destruct (marks_ctos line term bqs eqs bq eq _ s M V) as (s2 & E' & _). rewrite C in E'. injection E' as -> _. destruct M as (_ & _ & _ & _ & Bb & Be).
  now apply unq_no_bs with (List.length q).
Qed.
Print Assumptions C62_backslash_refuted.

(* ---- cases: the marks used for a value in apps/lang_spice.cc:419 ---- *)
Definition QB : list ascii := (""""%char :: str "'{(").
Definition QE : list ascii := (""""%char :: str "'})").
Example C62_example_marks : marks QB QE "{" "}" /\ marks QB QE """" """".
Proof.
  split; (split; [reflexivity|]; split; [|repeat split; discriminate]).
  - exists (""""%char :: str "'"), (str "("), (""""%char :: str "'"), (str ")"). repeat split. cbn. intuition discriminate.
  - exists [], (str "'{("), [], (str "'})"). repeat split. now intros [].
Qed.
Example C62_example : exists t, stands "{" "}" t (str "a{b}c}") /\ t = str "a{b}c\}" /\
  (exists s', ctos (str ",") QB QE (cs_string (str "{a{b}c\}}=3")) = Some (str "a{b}c}", s') /\ after s' = str "=3").
Proof.
  exists (str "a{b}c\}"). assert (S : stands "{" "}" (str "a{b}c\}") (str "a{b}c}")).
  { apply st_char; [cbn; intuition discriminate|]. apply (st_pair "{" "}" (str "b") (str "b") (str "c\}") (str "c}")); [discriminate| |].
    - apply st_char; [cbn; intuition discriminate|apply st_nil].
    - apply st_char; [cbn; intuition discriminate|]. apply st_esc, st_nil. }
  split; [exact S|]. split; [reflexivity|].
  destruct (C62_read QB QE "{" "}" _ _ (proj1 C62_example_marks) S (str ",") (str "{a{b}c\}}=3") (cs_string (str "{a{b}c\}}=3")) (str "=3")) as (s' & E & _ & A).
  - apply vw_on_line with (str "{a{b}c\}}=3"). apply vw_start.
  - reflexivity.
  - intros c q [= <- _]. split; [reflexivity|discriminate].
  - exists s'. split; [exact E|exact A].
Qed.
