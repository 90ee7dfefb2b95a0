(* Proofs for C61: every text of the grammar is parsed to its tree. *)
Require Import ZArith List Ascii String Bool Lia.
Require Import ZifyBool.
Require Import Verif.Loops Verif.Wmatch_Model Verif.CS_Model Verif.CS_Proofs Verif.CS_Ops Verif.Parse_Model Verif.Parse_Spec Verif.Parse_Scan Verif.Parse_Proofs.
Import ListNotations.
Local Open Scope Z_scope.

(* ---- more depth never changes a result ---- *)
Definition le_pr {A} (a b : pr A) : Prop := a = Wrong \/ a = b.
Lemma le_refl : forall A (a : pr A), le_pr a a. Proof. now right. Qed.
Lemma le_wrong : forall A (a : pr A), le_pr Wrong a. Proof. now left. Qed.
Lemma le_bind : forall A B (a b : pr A) (f g : A -> pr B), le_pr a b -> (forall v, le_pr (f v) (g v)) -> le_pr (pbind a f) (pbind b g).
Proof. intros A B a b f g [->| ->] H; [now left|]. destruct b; cbn; [apply H|now right|now right]. Qed.
Lemma go_mono : forall ci n m x s E, (n <= m)%nat -> le_pr (go ci n x s E) (go ci m x s E).
Proof.
  intros ci. induction n as [|n IH]; intros m x s E L; [now left|]. destruct m as [|m]; [lia|]. assert (L' : (n <= m)%nat) by lia.
  destruct x; cbn [go];
  repeat match goal with
  | |- le_pr (pbind ?a ?f) (pbind ?b ?g) => apply le_bind; [|let v := fresh "v" in intros v; try destruct v as [? ?]]
  | |- le_pr (go ci n _ _ _) (go ci m _ _ _) => apply IH; exact L'
  | |- le_pr (if ?b then _ else _) _ => destruct b
  | |- le_pr (match ?b with Some _ => _ | None => _ end) _ => destruct b
  | |- le_pr (match ?b with [] => _ | _ :: _ => _ end) _ => destruct b
  | |- _ => apply le_refl
  end.
Qed.
Lemma go_good : forall ci n m x s E R, (n <= m)%nat -> go ci n x s E = Good R -> go ci m x s E = Good R.
Proof. intros ci n m x s E R L H. destruct (go_mono ci n m x s E L) as [W|W]; [congruence|]. now rewrite <- W. Qed.

Section Complete.
Variable ci : bool.
Variable line : list ascii.

(* from any scanner at r, with enough depth *)
Definition reaches (f : nat -> cs -> pr (cs * list ptok)) (r r' : list ascii) (E' : list ptok) : Prop :=
  forall s, vw line r s -> exists n s', (forall m, (n <= m)%nat -> f m s = Good (s', E')) /\ vw line r' s'.
Definition runs (x : nt) (r : list ascii) (E : list ptok) (r' : list ascii) (E' : list ptok) : Prop := reaches (fun m s => go ci m x s E) r r' E'.

Lemma reaches_S : forall f g r r' E', (forall m s, g (S m) s = f m s) -> reaches f r r' E' -> reaches g r r' E'.
Proof.
  intros f g r r' E' H R s V. destruct (R s V) as (n & s' & A & V'). exists (S n), s'. split; [|exact V'].
  intros [|m] L; [lia|]. rewrite H. apply A. lia.
Qed.
Lemma reaches_ext : forall f g r r' E', (forall m s, g m s = f m s) -> reaches f r r' E' -> reaches g r r' E'.
Proof. intros f g r r' E' H R s V. destruct (R s V) as (n & s' & A & V'). exists n, s'. split; [|exact V']. intros m L. rewrite H. now apply A. Qed.
Lemma reaches_bind : forall f g r r1 E1 r' E', reaches f r r1 E1 -> reaches (fun m s => g m s E1) r1 r' E' ->
  reaches (fun m s => do (s, E) <- f m s; g m s E) r r' E'.
Proof.
  intros f g r r1 E1 r' E' F G s V. destruct (F s V) as (n & s1 & A & V1). destruct (G s1 V1) as (n2 & s2 & A2 & V2).
  exists (Nat.max n n2), s2. split; [|exact V2]. intros m L. rewrite (A m ltac:(lia)). cbn [pbind]. apply A2. lia.
Qed.
Lemma reaches_good : forall r E, reaches (fun _ s => Good (s, E)) r r E.
Proof. intros r E s V. exists 0%nat, s. auto. Qed.
(* a step of the scanner *)
Lemma reaches_lift : forall (f : cs -> option cs) g r r1 b r' E',
  (forall s, vw line r s -> exists s1, f s = Some s1 /\ vw line r1 s1 /\ ok s1 = b) ->
  reaches (fun m s => g b m s) r1 r' E' -> reaches (fun m s => do s <- lift (f s); g (ok s) m s) r r' E'.
Proof.
  intros f g r r1 b r' E' F G s V. destruct (F s V) as (s1 & A & V1 & O1). destruct (G s1 V1) as (n2 & s2 & A2 & V2).
  exists n2, s2. split; [|exact V2]. intros m L. rewrite A. cbn [lift pbind]. rewrite O1. now apply A2.
Qed.
Lemma reaches_oper : forall k g r r1 o r' E',
  (forall s, vw line r s -> exists s1, oper ci (pat k) s = Some (o, s1) /\ vw line r1 s1) ->
  reaches (fun m s => g o m s) r1 r' E' -> reaches (fun m s => do (o, s) <- lift (oper ci (pat k) s); g o m s) r r' E'.
Proof.
  intros k g r r1 o r' E' F G s V. destruct (F s V) as (s1 & A & V1). destruct (G s1 V1) as (n2 & s2 & A2 & V2).
  exists n2, s2. split; [|exact V2]. intros m L. rewrite A. cbn [lift pbind]. now apply A2.
Qed.

(* ---- text after an operand ---- *)
Definition okrest (r : list ascii) : Prop := stops r /\ head r <> "("%char /\ fblank (head r) = false.
Definition clean (k : nat) (r : list ascii) : Prop := forall j, (k <= j <= 5)%nat -> opm j r = None.
(* the first character of an operand *)
Definition starts (t : list ascii) : Prop := exists c q, t = c :: q /\ isgraph c = true /\ ~ In c (str "=,)}").
Definition starts7 (t : list ascii) : Prop := exists c q, t = c :: q /\ isgraph c = true /\ ~ In c (str "=,)}-+!<").

Lemma starts_dropbl : forall t r, starts t -> dropbl (t ++ r) = t ++ r.
Proof. intros t r (c & q & -> & G & _). now apply dropbl_graph. Qed.
Lemma starts7_starts : forall t, starts7 t -> starts t.
Proof. intros t (c & q & -> & G & N). exists c, q. split; [reflexivity|]. split; [exact G|]. intros I. apply N. cbn in *. intuition auto. Qed.
Lemma starts_app : forall t r, starts t -> starts (t ++ r).
Proof. intros t r (c & q & -> & G & N). exists c, (q ++ r). auto. Qed.
Lemma okrest_dropbl : forall r, okrest r -> dropbl r = r.
Proof. intros r (_ & _ & B). now apply drop_idem. Qed.
Lemma skip1b_yes : forall c r s, c <> NUL -> isgraph c = true -> vw line (c :: r) s -> exists s1, skip1b [c] s = Some s1 /\ vw line (dropbl r) s1 /\ ok s1 = true.
Proof.
  intros c r s N G V. destruct (skip1b_one line c (c :: r) s N V) as (s1 & E1 & H1). exists s1. split; [exact E1|]. rewrite dropbl_graph in H1 by assumption.
  destruct H1 as [(O1 & q & Eq & V1)|(_ & Hh & _)]; [|now elim Hh]. injection Eq as ->. auto.
Qed.
Lemma skip1b_no : forall c r s, c <> NUL -> dropbl r = r -> head r <> c -> vw line r s -> exists s1, skip1b [c] s = Some s1 /\ vw line r s1 /\ ok s1 = false.
Proof.
  intros c r s N B H V. destruct (skip1b_one line c r s N V) as (s1 & E1 & H1). exists s1. split; [exact E1|]. rewrite B in H1.
  destruct H1 as [(O1 & q & Eq & V1)|(O1 & Hh & V1)]; [rewrite Eq in H; now elim H|]. auto.
Qed.
Lemma gap_false : forall b t, gap false b -> starts t -> dropcom (b ++ t) = t.
Proof.
  intros b t [B|[D _]] S; [|discriminate D]. unfold dropcom, eat1b. rewrite (blanks_drop _ _ _ B).
  assert (dropbl t = t) as -> by (destruct S as (c & q & -> & G & _); now apply dropbl_graph).
  assert (F : eat1 fcomma t = t).
  { destruct S as (c & q & -> & G & N). cbn. destruct (fcomma c) eqn:E; [|reflexivity]. apply in_set_In' in E; [|nonul]. destruct E as [<-|[]]. elim N. cbn. auto. }
  rewrite F. destruct S as (c & q & -> & G & _). now apply dropbl_graph.
Qed.
Lemma blank_not_eq : forall b t c q, blanks false b -> starts t -> b ++ t = c :: q -> c <> "="%char.
Proof.
  intros [|k b] t c q B (c0 & q0 & -> & G & N) E; cbn in E; injection E as <- _.
  - intros ->. apply N. cbn. auto.
  - inversion_clear B as [|? ? (_ & Bk & _) _]. intros ->. discriminate Bk.
Qed.
(* the operator that is there is the one that is found *)
Lemma opm_at : forall k o x, In o (ops k) -> (forall c q, x = c :: q -> c <> "="%char) -> opm k (o ++ x) = Some (o, x).
Proof.
  intros k o x I H.
  assert (N : forall a, strip [a; "="%char] ([a] ++ x) = None).
  { intros a. unfold strip. cbn [app]. rewrite Ascii.eqb_refl. destruct x as [|c q]; [reflexivity|]. destruct (Ascii.eqb_spec c "=") as [->|_]; [now elim (H "="%char q eq_refl)|reflexivity]. }
  destruct k as [|[|[|[|[|[|k]]]]]]; cbn in I;
    repeat (destruct I as [<-|I]; [first [reflexivity | unfold opm, first_op, ops, str; cbn [list_ascii_of_string]; rewrite (N "<"%char); reflexivity
      | unfold opm, first_op, ops, str; cbn [list_ascii_of_string]; rewrite (N ">"%char); reflexivity]|]); destruct I.
Qed.
Lemma op_okrest : forall k o x, In o (ops k) -> okrest (o ++ x).
Proof.
  intros k o x I. destruct k as [|[|[|[|[|[|k]]]]]]; cbn in I;
    repeat (destruct I as [<-|I]; [repeat split; try reflexivity; discriminate|]); destruct I.
Qed.
Lemma op_clean : forall k o x, In o (ops k) -> clean (S k) (o ++ x).
Proof.
  intros k o x I j Hj. destruct k as [|[|[|[|[|[|k]]]]]]; cbn in I; try (now destruct I);
    destruct j as [|[|[|[|[|[|j]]]]]]; try lia; repeat (destruct I as [<-|I]; [reflexivity|]); destruct I.
Qed.
Definition closer (c : ascii) : Prop := In c (str "),:}").
Lemma closer_okrest : forall c x, closer c -> okrest (c :: x).
Proof. intros c x I. cbn in I. repeat (destruct I as [<-|I]; [repeat split; try reflexivity; discriminate|]). destruct I. Qed.
Lemma closer_clean : forall c x, closer c -> clean 0 (c :: x).
Proof.
  intros c x I j Hj. cbn in I. destruct j as [|[|[|[|[|[|j]]]]]]; try lia; repeat (destruct I as [<-|I]; [reflexivity|]); destruct I.
Qed.
Lemma quest_okrest : forall x, okrest ("?"%char :: x).
Proof. intros x. repeat split; try reflexivity; discriminate. Qed.
Lemma quest_clean : forall x, clean 1 ("?"%char :: x).
Proof. intros x j Hj. destruct j as [|[|[|[|[|[|j]]]]]]; try lia; reflexivity. Qed.

(* ---- the levels ---- *)
Definition nt_of (k : nat) : nt := match k with 0 | 1 => Nexpression | 2 => Nandarg | 3 => Nlogical | 4 => Naddexp | 5 => Nterm | _ => Nfactor end%nat.
Definition tail_of (k : nat) : nt := match k with 0 | 1 => Nexptail | 2 => Nandtail | 3 => Nlogicaltail | 4 => Naddexptail | _ => Ntermtail end%nat.
Definition prim (E : list ptok) (m : nat) (s : cs) : pr (cs * list ptok) :=
  do s <- lift (skip1b (str "(") s);
  if ok s then do (s, E) <- go ci m Nexpression s E; do s <- lift (skip1b (str ")") s); if ok s then Good (s, E) else Bad
  else go ci m Nleaf s E.
Definition P (k : nat) (t : list ascii) (e : tree) : Prop :=
  match k with
  | 7 => starts7 t /\ forall r E, okrest r -> reaches (prim E) (t ++ r) r (E ++ post e)
  | 6 => starts t /\ forall r E, okrest r -> runs Nfactor (t ++ r) E r (E ++ post e)
  | 0 => starts t /\ forall r E, okrest r -> clean 0 r -> runs Nexpression (t ++ r) E r (E ++ post e)
  | 1 | 2 | 3 | 4 | 5 => starts t /\ forall r E r' E', okrest r -> clean (S k) r ->
       runs (tail_of k) r (E ++ post e) r' E' -> runs (nt_of k) (t ++ r) E r' E'
  | _ => False
  end%nat.
Definition Q (t : list ascii) (es : list tree) : Prop :=
  (t = [] /\ es = []) \/
  (starts t /\ es <> [] /\ forall c r E, In c (str ")}") -> 
     reaches (fun m s => do (s, E) <- go ci m Nexpression s E; go ci m Narglisttail s E) (t ++ c :: r) (c :: r) (E ++ flat_map post es)).

Lemma oper_found : forall k o x s, In o (ops k) -> (1 <= k)%nat -> (forall c q, x = c :: q -> c <> "="%char) -> vw line (o ++ x) s ->
  exists s1, oper ci (pat k) s = Some (Some o, s1) /\ vw line (dropcom x) s1.
Proof.
  intros k o x s I Hk H V. destruct (opm_vw ci line k (o ++ x) s V) as (s1 & E1 & V1).
  { apply okrest_dropbl. now apply op_okrest with k. }
  rewrite (opm_at k o x I H) in *. now exists s1.
Qed.
Lemma oper_none : forall k r s, okrest r -> opm k r = None -> vw line r s -> exists s1, oper ci (pat k) s = Some (None, s1) /\ vw line r s1.
Proof. intros k r s O N V. destruct (opm_vw ci line k r s V (okrest_dropbl _ O)) as (s1 & E1 & V1). rewrite N in *. now exists s1. Qed.

(* a tail with nothing to do *)
Lemma tail_stop : forall k r E, (2 <= k <= 5)%nat -> okrest r -> opm k r = None -> runs (tail_of k) r E r E.
Proof.
  intros k r E Hk O N. unfold runs.
  apply (reaches_S (fun m s => do (o, s) <- lift (oper ci (pat k) s); match o with Some name => do (s, E) <- go ci m (nt_of (S k)) s E; go ci m (tail_of k) s (E ++ [KBin name]) | None => Good (s, E) end)).
  { intros m s. destruct k as [|[|[|[|[|[|k]]]]]]; try lia; reflexivity. }
  eapply reaches_oper with (g := fun o m s => match o with Some name => do (s, E) <- go ci m (nt_of (S k)) s E; go ci m (tail_of k) s (E ++ [KBin name]) | None => Good (s, E) end).
  { intros s V. apply oper_none; [exact O|assumption|exact V]. }
  apply reaches_good.
Qed.
Lemma exptail_stop : forall r E, okrest r -> opm 1 r = None -> opm 0 r = None -> runs Nexptail r E r E.
Proof.
  intros r E O N1 N0. unfold runs.
  apply (reaches_S (fun m s => do (o, s) <- lift (oper ci (pat 1) s); match o with Some name => do (s, E) <- go ci m Nandarg s E; go ci m Nexptail s (E ++ [KBin name])
     | None => do (q, s) <- lift (oper ci (pat 0) s); match q with Some _ => match E with [] => Wrong | _ => go ci m Nternary s E end | None => Good (s, E) end end)).
  { reflexivity. }
  eapply reaches_oper with (g := fun o m s => match o with Some name => do (s, E) <- go ci m Nandarg s E; go ci m Nexptail s (E ++ [KBin name])
     | None => do (q, s) <- lift (oper ci (pat 0) s); match q with Some _ => match E with [] => Wrong | _ => go ci m Nternary s E end | None => Good (s, E) end end).
  { intros s V. apply oper_none; [exact O|assumption|exact V]. }
  eapply reaches_oper with (g := fun q m s => match q with Some _ => match E with [] => Wrong | _ => go ci m Nternary s E end | None => Good (s, E) end).
  { intros s V. apply oper_none; [exact O|assumption|exact V]. }
  apply reaches_good.
Qed.
(* what a level gives as an operand of the level below *)
Definition operand (k : nat) (t : list ascii) (e : tree) : Prop :=
  starts t /\ forall r E, okrest r -> clean k r -> runs (nt_of k) (t ++ r) E r (E ++ post e).
Lemma P_operand : forall k t e, (2 <= k <= 6)%nat -> P k t e -> operand k t e.
Proof.
  intros k t e Hk H. destruct (Nat.eq_dec k 6) as [->|N]; [destruct H as [S H]; split; [exact S|]; intros r E O _; now apply H|].
  assert (HP : starts t /\ forall r E r' E', okrest r -> clean (S k) r -> runs (tail_of k) r (E ++ post e) r' E' -> runs (nt_of k) (t ++ r) E r' E').
  { destruct k as [|[|[|[|[|[|k]]]]]]; try lia; exact H. }
  destruct HP as [S HP]. split; [exact S|]. intros r E O C. apply HP; [assumption| |].
  - intros j Hj. apply C. lia.
  - apply tail_stop; [lia|assumption|apply C; lia].
Qed.

Lemma P_up : forall k t e, P (S k) t e -> P k t e.
Proof.
  intros k t e H. destruct (Nat.le_gt_cases 7 k) as [G|G].
  { do 7 (destruct k as [|k]; [lia|]). destruct k; elim H. }
  destruct (Nat.eq_dec k 6) as [->|N6].
  { destruct H as [S7 H]. cbn in H. split; [now apply starts7_starts|]. intros r E O. unfold runs.
    apply (reaches_S (fun m s => do (u, s) <- lift (oper ci (str "-|+|!") s); do (s, E) <- prim E m s; Good (s, match u with Some name => E ++ [KUn name] | None => E end))).
    { intros m s. cbn [go]. unfold prim. destruct (oper ci (str "-|+|!") s) as [[u s1]|]; [cbn [lift pbind]|reflexivity].
      destruct (skip1b (str "(") s1) as [s2|]; [cbn [lift pbind]|reflexivity]. reflexivity. }
    intros s V. destruct (uop_vw ci line (t ++ r) s V) as (s1 & E1 & V1).
    assert (Un : uop (t ++ r) = None).
    { unfold uop. destruct S7 as (c & q & -> & Gc & Nc). unfold head. cbn [app hd]. unfold fblank. rewrite Gc, andb_false_r.
      apply first_op_none. intros w x Iw Ew. cbn in Iw. destruct Iw as [<-|[<-|[<-|[]]]]; cbn in Ew; injection Ew as -> _; apply Nc; cbn; auto 10. }
    rewrite Un in *. cbn [option_map] in E1.
    destruct (H r E O s1 V1) as (n & s2 & A & V2). exists n, s2. split; [|exact V2]. intros m L. rewrite E1. cbn [lift pbind]. rewrite (A m L). reflexivity. }
  destruct (Nat.eq_dec k 0) as [->|N0].
  { destruct H as [S H]. split; [exact S|]. intros r E O C. apply H; [assumption|intros j Hj; apply C; lia|]. apply exptail_stop; [assumption|apply C; lia|apply C; lia]. }
  (* 1 .. 5 *)
  destruct (P_operand (S k) t e ltac:(lia) H) as [S HO].
  assert (G1 : forall r E r' E', okrest r -> clean (Datatypes.S k) r -> runs (tail_of k) r (E ++ post e) r' E' -> runs (nt_of k) (t ++ r) E r' E').
  { intros r E r' E' O C T. unfold runs.
    apply (reaches_S (fun m s => do (s, E) <- go ci m (nt_of (Datatypes.S k)) s E; go ci m (tail_of k) s E)).
    { intros m s. destruct k as [|[|[|[|[|[|k]]]]]]; try lia; reflexivity. }
    eapply reaches_bind; [apply (HO r E O C)|]. exact T. }
  destruct k as [|[|[|[|[|[|k]]]]]]; try lia; (split; [exact S|exact G1]).
Qed.
Lemma P_bin : forall k o b t1 t2 e1 e2, In o (ops k) -> gap false b -> P k t1 e1 -> P (S k) t2 e2 -> P k (t1 ++ o ++ b ++ t2) (Bin o e1 e2).
Proof.
  intros k o b t1 t2 e1 e2 I G H1 H2.
  assert (Hk : (1 <= k <= 5)%nat) by (destruct k as [|[|[|[|[|[|k]]]]]]; cbn in I; try (now destruct I); lia).
  destruct (P_operand (S k) t2 e2 ltac:(lia) H2) as [S2 HO].
  assert (HP : starts t1 /\ forall r E r' E', okrest r -> clean (S k) r -> runs (tail_of k) r (E ++ post e1) r' E' -> runs (nt_of k) (t1 ++ r) E r' E').
  { destruct k as [|[|[|[|[|[|k]]]]]]; try lia; exact H1. }
  destruct HP as [S1 HP].
  assert (G1 : forall r E r' E', okrest r -> clean (S k) r -> runs (tail_of k) r (E ++ post (Bin o e1 e2)) r' E' -> runs (nt_of k) ((t1 ++ o ++ b ++ t2) ++ r) E r' E').
  { intros r E r' E' O C T. rewrite <- !app_assoc. apply HP; [now apply op_okrest with k|now apply op_clean|].
    assert (Bl : blanks false b) by (destruct G as [Bl|[D _]]; [exact Bl|discriminate D]).
    assert (Ne : forall c q, b ++ t2 ++ r = c :: q -> c <> "="%char) by (intros c q; apply blank_not_eq; [exact Bl|now apply starts_app]).
    assert (Fo : forall s, vw line (o ++ b ++ t2 ++ r) s -> exists s1, oper ci (pat k) s = Some (Some o, s1) /\ vw line (t2 ++ r) s1).
    { intros s V. destruct (oper_found k o (b ++ t2 ++ r) s I ltac:(lia) Ne V) as (s1 & A & V1). rewrite gap_false in V1; [now exists s1|exact G|now apply starts_app]. }
    assert (Next : forall E0, E0 = E ++ post e1 -> reaches (fun m s => do (s, E) <- go ci m (nt_of (S k)) s E0; go ci m (tail_of k) s (E ++ [KBin o])) (t2 ++ r) r' E').
    { intros E0 ->. eapply reaches_bind; [apply (HO r (E ++ post e1) O C)|]. cbn [post] in T. rewrite !app_assoc in T. exact T. }
    unfold runs.
    destruct (Nat.eq_dec k 1) as [->|N1].
    - set (E0 := E ++ post e1) in *.
      apply (reaches_S (fun m s => do (o, s) <- lift (oper ci (pat 1) s); match o with Some name => do (s, E) <- go ci m Nandarg s E0; go ci m Nexptail s (E ++ [KBin name])
        | None => do (q, s) <- lift (oper ci (pat 0) s); match q with Some _ => match E0 with [] => Wrong | _ => go ci m Nternary s E0 end | None => Good (s, E0) end end)).
      { reflexivity. }
      eapply reaches_oper with (g := fun o m s => match o with Some name => do (s, E) <- go ci m Nandarg s E0; go ci m Nexptail s (E ++ [KBin name])
        | None => do (q, s) <- lift (oper ci (pat 0) s); match q with Some _ => match E0 with [] => Wrong | _ => go ci m Nternary s E0 end | None => Good (s, E0) end end); [exact Fo|].
      now apply Next.
    - set (E0 := E ++ post e1) in *.
      apply (reaches_S (fun m s => do (o, s) <- lift (oper ci (pat k) s); match o with Some name => do (s, E) <- go ci m (nt_of (S k)) s E0; go ci m (tail_of k) s (E ++ [KBin name]) | None => Good (s, E0) end)).
      { intros m s. destruct k as [|[|[|[|[|[|k]]]]]]; try lia; reflexivity. }
      eapply reaches_oper with (g := fun o m s => match o with Some name => do (s, E) <- go ci m (nt_of (S k)) s E0; go ci m (tail_of k) s (E ++ [KBin name]) | None => Good (s, E0) end); [exact Fo|].
      now apply Next. }
  destruct k as [|[|[|[|[|[|k]]]]]]; try lia; (split; [now apply starts_app|exact G1]).
Qed.

Lemma P_tern : forall b1 b2 t1 t2 t3 e1 e2 e3, gap false b1 -> blanks false b2 -> P 1 t1 e1 -> P 0 t2 e2 -> P 0 t3 e3 ->
  P 0 (t1 ++ "?"%char :: b1 ++ t2 ++ ":"%char :: b2 ++ t3) (Tern e1 e2 e3).
Proof.
  intros b1 b2 t1 t2 t3 e1 e2 e3 G1 G2 [S1 H1] [S2 H2] [S3 H3]. split; [now apply starts_app|]. intros r E O C.
  repeat (rewrite <- app_assoc; cbn [app]). apply H1; [apply quest_okrest|intros j Hj; apply quest_clean; lia|].
  set (E0 := E ++ post e1) in *. assert (Ne : E0 <> []) by (unfold E0; intros X; apply app_eq_nil in X; now elim (post_ne e1)).
  unfold runs.
  apply (reaches_S (fun m s => do (o, s) <- lift (oper ci (pat 1) s); match o with Some name => do (s, E) <- go ci m Nandarg s E0; go ci m Nexptail s (E ++ [KBin name])
        | None => do (q, s) <- lift (oper ci (pat 0) s); match q with Some _ => match E0 with [] => Wrong | _ => go ci m Nternary s E0 end | None => Good (s, E0) end end)).
  { reflexivity. }
  eapply reaches_oper with (g := fun o m s => match o with Some name => do (s, E) <- go ci m Nandarg s E0; go ci m Nexptail s (E ++ [KBin name])
        | None => do (q, s) <- lift (oper ci (pat 0) s); match q with Some _ => match E0 with [] => Wrong | _ => go ci m Nternary s E0 end | None => Good (s, E0) end end).
  { intros s V. apply oper_none; [apply quest_okrest|reflexivity|exact V]. }
  eapply reaches_oper with (g := fun q m s => match q with Some _ => match E0 with [] => Wrong | _ => go ci m Nternary s E0 end | None => Good (s, E0) end) (o := Some (str "?")).
  { intros s V. destruct (opm_vw ci line 0 _ s V eq_refl) as (s1 & E1 & V1). cbn in E1. exists s1. split; [exact E1|].
    change (opm 0 ("?"%char :: b1 ++ t2 ++ ":"%char :: b2 ++ t3 ++ r)) with (Some (str "?", b1 ++ t2 ++ ":"%char :: b2 ++ t3 ++ r)) in V1.
    cbv iota beta in V1. rewrite gap_false in V1; [exact V1|assumption|now apply starts_app]. }
  apply (reaches_ext (fun m s => go ci m Nternary s E0)); [intros; destruct E0; [now elim Ne|reflexivity]|].
  apply (reaches_S (fun m s => do (s, T) <- go ci m Nexpression s []; do s <- lift (skip1b (str ":") s);
    if ok s then do (s, F) <- go ci m Nexpression s []; Good (s, E0 ++ [KTern T F]) else Bad)); [reflexivity|].
  eapply reaches_bind with (g := fun m s T => do s <- lift (skip1b (str ":") s); if ok s then do (s, F) <- go ci m Nexpression s []; Good (s, E0 ++ [KTern T F]) else Bad).
  { apply (H2 (":"%char :: b2 ++ t3 ++ r) []); [apply closer_okrest; cbn; auto|apply closer_clean; cbn; auto]. }
  eapply reaches_lift with (g := fun (b : bool) m s => if b then do (s, F) <- go ci m Nexpression s []; Good (s, E0 ++ [KTern (post e2) F]) else Bad).
  { intros s V. apply skip1b_yes; [discriminate|reflexivity|exact V]. }
  cbv iota. rewrite (blanks_drop _ _ _ G2), starts_dropbl by assumption.
  eapply reaches_bind with (g := fun (m : nat) (s : cs) (F : list ptok) => Good (s, E0 ++ [KTern (post e2) F])); [now apply (H3 r [])|]. cbn [app].
  replace (E ++ post (Tern e1 e2 e3)) with (E0 ++ [KTern (post e2) (post e3)]) by (unfold E0; cbn; now rewrite <- app_assoc). apply reaches_good.
Qed.

(* ---- words, strings, lists ---- *)
Lemma word_starts : forall n r, word false n -> exists c q, n = c :: q /\ isgraph c = true /\ ~ In c (str "=,)}-+!<'(""") /\ starts7 (n ++ r).
Proof.
  intros n r H.
  assert (K : exists c q, n = c :: q /\ (namechar false c \/ c = "["%char)).
  { destruct H as [((c & q & -> & Np) & F & Cn)|(f & g & -> & Nf & Ff & _)].
    - exists c, q. split; [reflexivity|]. inversion_clear F as [|? ? Fc _]. destruct Fc as [Fc|[Fc|Fc]]; [now left|now right|].
      subst c. specialize (Cn [] q eq_refl). cbn in Cn. lia.
    - destruct f as [|c f]; [now elim Nf|]. exists c, (f ++ g). split; [reflexivity|]. inversion_clear Ff. left. right. now left. }
  destruct K as (c & q & -> & Nc). exists c, q. split; [reflexivity|].
  assert (A : isgraph c = true /\ ~ In c (str "=,)}-+!<'(""")).
  { destruct Nc as [[L|[Pd|U]]| ->].
    - destruct L as [L|[D _]]; [|discriminate D]. revert L. clear. destruct c as [[] [] [] [] [] [] [] []]; vm_compute; intuition congruence.
    - cbn in Pd. repeat (destruct Pd as [<-|Pd]; [split; [reflexivity|cbn; intuition discriminate]|]). destruct Pd.
    - cbn in U. repeat (destruct U as [<-|U]; [split; [reflexivity|cbn; intuition discriminate]|]). destruct U.
    - split; [reflexivity|cbn; intuition discriminate]. }
  destruct A as [A B]. split; [exact A|]. split; [exact B|]. exists c, (q ++ r). split; [reflexivity|]. split; [exact A|].
  intros I. apply B. cbn in *. intuition auto.
Qed.
Lemma blanks_stops : forall b r, blanks false b -> okrest r -> stops (b ++ r).
Proof.
  intros [|c b] r B (S & _); [exact S|]. inversion_clear B as [|? ? (Nn & Gc & [D|L]) _]; [discriminate D|]. unfold stops, head. cbn [app hd].
  revert Gc L. clear. destruct c as [[] [] [] [] [] [] [] []]; vm_compute; intuition congruence.
Qed.
Lemma blanks_paren : forall b r, blanks false b -> stops (b ++ "("%char :: r).
Proof.
  intros [|c b] r B; [repeat split; try reflexivity; discriminate|]. inversion_clear B as [|? ? (Nn & Gc & [D|L]) _]; [discriminate D|]. unfold stops, head. cbn [app hd].
  revert Gc L. clear. destruct c as [[] [] [] [] [] [] [] []]; vm_compute; intuition congruence.
Qed.
(* prim on text that does not begin with a parenthesis is leaf *)
Lemma prim_leaf : forall t E r' E', dropbl t = t -> head t <> "("%char -> runs Nleaf t E r' E' -> reaches (prim E) t r' E'.
Proof.
  intros t E r' E' B H R. unfold prim.
  eapply reaches_lift with (g := fun (b : bool) m s => if b then do (s, E) <- go ci m Nexpression s E; do s <- lift (skip1b (str ")") s); if ok s then Good (s, E) else Bad else go ci m Nleaf s E) (b := false) (r1 := t).
  { intros s V. apply skip1b_no; [discriminate|assumption|assumption|exact V]. }
  exact R.
Qed.
(* leaf on a word: the name, then the argument list *)
Lemma leaf_word : forall n y E E', word false n -> stops y -> runs Narglist (dropbl y) E (dropbl y) E' \/ True -> forall r', 
  runs Narglist (dropbl y) E r' E' -> runs Nleaf (n ++ y) E r' (E' ++ [KSym n]).
Proof.
  intros n y E E' W St _ r' H s V. destruct (word_starts n y W) as (c & q & En & Gc & Nc & _).
  assert (Hh : head (n ++ y) = c) by (rewrite En; reflexivity).
  assert (Bn : dropbl (n ++ y) = n ++ y) by (rewrite En; now apply dropbl_graph).
  assert (Ar : exists s1, (forall m, (1 <= m)%nat -> go ci m Narray s E = Good (s1, E)) /\ ok s1 = false /\ vw line (n ++ y) s1).
  { destruct (skip1b_no "'" (n ++ y) s ltac:(discriminate) Bn) as (s1 & E1 & V1 & O1); [rewrite Hh; intros ->; apply Nc; cbn; auto 12|exact V|].
    exists (reset_fail (cnt s) s1). split; [|split; [reflexivity|exact (vw_reset_fail _ _ _ _ _ V V1)]]. intros [|m] L; [lia|]. cbn [go].
    change (str "'") with ["'"%char]. rewrite E1. cbn [lift pbind]. rewrite (peek_vw _ _ _ V1), O1. reflexivity. }
  destruct Ar as (s1 & A1 & O1 & V1). destruct (name_parse_vw line (n ++ y) s1 Bn V1) as (s2 & E2 & V2).
  rewrite (name_text_complete n y W St) in *. cbn [fst snd] in *. destruct (H s2 V2) as (k & s3 & A3 & V3).
  exists (S (S k)), s3. split; [|exact V3]. intros [|m] L; [lia|]. cbn [go]. rewrite (peek_vw _ _ _ V), Hh. cbn [lift pbind].
  destruct (Ascii.eqb_spec c QUOTE) as [->|_]; [elim Nc; cbn; auto 12|]. destruct (Ascii.eqb_spec c "<") as [->|_]; [elim Nc; cbn; auto 12|].
  rewrite (A1 m ltac:(lia)). cbn [pbind]. rewrite O1, E2. cbn [lift pbind].
  assert (Lt : cnt s <? cnt s2 = true).
  { rewrite (vw_cnt _ _ _ V), (vw_cnt _ _ _ V2). pose proof (vw_le _ _ _ V). pose proof (drop_len fblank y) as X. change (drop_while fblank y) with (dropbl y) in X.
    rewrite En, app_length. cbn [List.length]. lia. }
  rewrite Lt, (A3 m ltac:(lia)). reflexivity.
Qed.
(* a list with its closing character *)
Lemma list_run : forall c t es r E (K : cs -> list ptok -> pr (cs * list ptok)) b r' E', In c (str ")}") -> Q t es -> blanks false b -> okrest r ->
  reaches (fun (m : nat) (s : cs) => K s (E ++ flat_map post es)) r r' E' ->
  reaches (fun m s => do s <- lift (skip1b [c] s);
   if ok s then K s E
   else
     do (s, E) <- go ci m Nexpression s E;
     do (s, E) <- go ci m Narglisttail s E;
     do s <- lift (skip1b [c] s);
     if ok s then K s E else Bad) (t ++ c :: b ++ r) r' E'.
Proof.
  intros c t es r E K b r' E' I H B O HK.
  assert (Gc : c <> NUL /\ isgraph c = true) by (cbn in I; repeat (destruct I as [<-|I]; [split; [discriminate|reflexivity]|]); destruct I).
  assert (Br : dropbl (b ++ r) = r) by (rewrite (blanks_drop _ _ _ B); now apply okrest_dropbl).
  destruct H as [[-> ->]|(S & _ & H)].
  - cbn [app]. eapply reaches_lift with (b := true) (r1 := r) (g := fun (b : bool) m s => if b then K s E else
     do (s, E) <- go ci m Nexpression s E; do (s, E) <- go ci m Narglisttail s E; do s <- lift (skip1b [c] s); if ok s then K s E else Bad).
    { intros s V. destruct (skip1b_yes c (b ++ r) s (proj1 Gc) (proj2 Gc) V) as (s1 & E1 & V1 & O1). rewrite Br in V1. now exists s1. }
    cbn in HK. rewrite app_nil_r in HK. exact HK.
  - eapply reaches_lift with (b := false) (r1 := t ++ c :: b ++ r) (g := fun (b : bool) m s => if b then K s E else
     do (s, E) <- go ci m Nexpression s E; do (s, E) <- go ci m Narglisttail s E; do s <- lift (skip1b [c] s); if ok s then K s E else Bad).
    { intros s V. apply skip1b_no; [easy|now apply starts_dropbl| |exact V]. destruct S as (k & q & -> & _ & N). cbn. intros ->. apply N. cbn in *. intuition auto. }
    cbv iota.
    apply (reaches_ext (fun m s => do (s, E) <- (do (s, E) <- go ci m Nexpression s E; go ci m Narglisttail s E); do s <- lift (skip1b [c] s); if ok s then K s E else Bad)).
    { intros m s. destruct (go ci m Nexpression s E) as [[s1 E1]| |]; reflexivity. }
    eapply reaches_bind with (g := fun m s E => do s <- lift (skip1b [c] s); if ok s then K s E else Bad); [apply (H c (b ++ r) E I)|].
    eapply reaches_lift with (b := true) (r1 := r) (g := fun (b : bool) m s => if b then K s (E ++ flat_map post es) else Bad).
    { intros s V. destruct (skip1b_yes c (b ++ r) s (proj1 Gc) (proj2 Gc) V) as (s1 & E1 & V1 & O1). rewrite Br in V1. now exists s1. }
    exact HK.
Qed.

Theorem complete : (forall k t e, writes false k t e -> P k t e) /\ (forall t es, lists false t es -> Q t es).
Proof.
  apply writes_lists; try discriminate.
  - (* leaf *)
    intros n b W B. destruct (word_starts n b W) as (c & q & En & Gc & Nc & S7). split; [exact S7|]. intros r E O. rewrite <- app_assoc.
    apply prim_leaf; [rewrite En; now apply dropbl_graph|rewrite En; unfold head; cbn; intros ->; apply Nc; cbn; auto 12|].
    apply leaf_word with (E' := E); [exact W|now apply blanks_stops|now right|].
    rewrite (blanks_drop _ _ _ B), (okrest_dropbl _ O). unfold runs.
    apply (reaches_S (fun m s => do s <- lift (skip1b (str "(") s);
        if ok s then
          let E := E ++ [KStop (str "(")] in
          do s <- lift (skip1b (str ")") s);
          if ok s then Good (s, E ++ [KPar (str ")")])
          else
            do (s, E) <- go ci m Nexpression s E;
            do (s, E) <- go ci m Narglisttail s E;
            do s <- lift (skip1b (str ")") s);
            if ok s then Good (s, E ++ [KPar (str ")")]) else Bad
        else Good (s, E))); [reflexivity|].
    intros s V. destruct (skip1b_no "(" r s ltac:(discriminate) (okrest_dropbl _ O) (proj1 (proj2 O)) V) as (s1 & E1 & V1 & O1).
    exists 0%nat, s1. split; [|exact V1]. intros m _. change (str "(") with ["("%char]. rewrite E1. cbn [lift pbind]. now rewrite O1.
  - (* string *)
    intros d b Qd B. split; [exists QUOTE, (d ++ QUOTE :: b); split; [reflexivity|]; split; [reflexivity|cbn; intuition discriminate]|].
    intros r E O. cbn [app]. rewrite <- app_assoc. cbn [app]. apply prim_leaf; [reflexivity|discriminate|].
    intros s V. destruct (string_parse_vw line _ s V) as (d' & s1 & r1 & E1 & V1 & H1). rewrite (str_text_complete d Qd) in H1. destruct H1 as [-> ->].
    rewrite (blanks_drop _ _ _ B), (okrest_dropbl _ O) in V1. exists 1%nat, s1. split; [|exact V1]. intros [|m] L; [lia|]. cbn [go].
    rewrite (peek_vw _ _ _ V). cbn [lift pbind]. change (Ascii.eqb (head (QUOTE :: d ++ QUOTE :: b ++ r)) QUOTE) with true. cbv iota. rewrite E1. cbn [lift pbind].
    assert (Lt : cnt s <? cnt s1 = true).
    { rewrite (vw_cnt _ _ _ V), (vw_cnt _ _ _ V1). cbn [List.length]. rewrite !app_length. cbn [List.length]. rewrite app_length. lia. }
    now rewrite Lt.
  - (* call *)
    intros n b1 b2 b3 t args W B1 B2 B3 L HQ. destruct (word_starts n (b1 ++ "("%char :: b2 ++ t ++ ")"%char :: b3) W) as (c & q & En & Gc & Nc & S7). split; [exact S7|].
    intros r E O. repeat (rewrite <- app_assoc; cbn [app]).
    apply prim_leaf; [rewrite En; now apply dropbl_graph|rewrite En; unfold head; cbn; intros ->; apply Nc; cbn; auto 12|].
    replace (E ++ post (Call n args)) with ((E ++ KStop (str "(") :: flat_map post args ++ [KPar (str ")")]) ++ [KSym n]).
    2:{ cbn [post]. repeat (rewrite <- ?app_assoc; cbn [app]). reflexivity. }
    apply leaf_word; [exact W|now apply blanks_paren|now right|]. rewrite (blanks_drop _ _ _ B1), dropbl_graph by reflexivity. unfold runs.
    apply (reaches_S (fun m s => do s <- lift (skip1b (str "(") s);
        if ok s then
          let E := E ++ [KStop (str "(")] in
          do s <- lift (skip1b (str ")") s);
          if ok s then Good (s, E ++ [KPar (str ")")])
          else
            do (s, E) <- go ci m Nexpression s E;
            do (s, E) <- go ci m Narglisttail s E;
            do s <- lift (skip1b (str ")") s);
            if ok s then Good (s, E ++ [KPar (str ")")]) else Bad
        else Good (s, E))); [reflexivity|].
    eapply reaches_lift with (b := true) (r1 := t ++ ")"%char :: b3 ++ r) (g := fun (b : bool) m s => if b then let E := E ++ [KStop (str "(")] in
          do s <- lift (skip1b (str ")") s);
          if ok s then Good (s, E ++ [KPar (str ")")])
          else
            do (s, E) <- go ci m Nexpression s E;
            do (s, E) <- go ci m Narglisttail s E;
            do s <- lift (skip1b (str ")") s);
            if ok s then Good (s, E ++ [KPar (str ")")]) else Bad
        else Good (s, E)).
    { intros s V. destruct (skip1b_yes "(" _ s ltac:(discriminate) eq_refl V) as (s1 & E1 & V1 & O1). exists s1. split; [exact E1|]. split; [|exact O1].
      rewrite (blanks_drop _ _ _ B2) in V1. replace (dropbl (t ++ ")"%char :: b3 ++ r)) with (t ++ ")"%char :: b3 ++ r) in V1; [exact V1|].
      destruct HQ as [[-> _]|(S & _)]; [reflexivity|symmetry; now apply starts_dropbl]. }
    cbv iota zeta. change (str ")") with [")"%char].
    apply (list_run ")" t args r (E ++ [KStop (str "(")]) (fun s E => Good (s, E ++ [KPar [")"%char]])) b3); [cbn; auto|assumption|assumption|assumption|].
    replace (E ++ KStop (str "(") :: flat_map post args ++ [KPar [")"%char]]) with (((E ++ [KStop (str "(")]) ++ flat_map post args) ++ [KPar [")"%char]]) by (repeat (rewrite <- ?app_assoc; cbn [app]); reflexivity).
    apply reaches_good.
  - (* array *)
    intros b1 b2 b3 t items B1 B2 B3 L HQ. split; [eexists _, _; split; [reflexivity|]; split; [reflexivity|cbn; intuition discriminate]|].
    intros r E O. repeat (rewrite <- ?app_assoc; cbn [app]). apply prim_leaf; [reflexivity|discriminate|].
    assert (Ar : reaches (fun m s => do (s1, E1) <- go ci m Narray s E; if ok s1 then Good (s1, E1) else Bad) ("'"%char :: b1 ++ "{"%char :: b2 ++ t ++ "}"%char :: b3 ++ r) r (E ++ post (Arr items))).
    { apply (reaches_S (fun m s => do (s1, E1) <- (do s1 <- lift (skip1b (str "'") s);
        do c <- lift (peek s1);
        if ok s1 && Ascii.eqb c "{" then
          let s := skip s1 in
          let E := E ++ [KStop (str "'{")] in
          do s <- lift (skip1b (str "}") s);
          if ok s then Good (s, E ++ [KArr (str "}")])
          else
            do (s, E) <- go ci m Nexpression s E;
            do (s, E) <- go ci m Narglisttail s E;
            do s <- lift (skip1b (str "}") s);
            if ok s then Good (s, E ++ [KArr (str "}")]) else Bad
        else Good (reset_fail (cnt s) s1, E)); if ok s1 then Good (s1, E1) else Bad)); [reflexivity|].
      intros s V. destruct (skip1b_yes "'" _ s ltac:(discriminate) eq_refl V) as (s1 & E1 & V1 & O1).
      rewrite (blanks_drop _ _ _ B1), dropbl_graph in V1 by reflexivity. destruct (skip_vw _ _ _ _ V1) as [V2 _].
      destruct (skipbl_vw _ _ _ V2) as (s2 & E2 & V2' & _).
      assert (Sk : skip1b ["}"%char] (skip s1) = skip1b ["}"%char] s2).
      { unfold skip1b. rewrite E2. cbn [bind]. destruct (skipbl_vw _ _ _ V2') as (s3 & E3 & _ & F3 & _). rewrite E3. cbn [bind].
        rewrite (F3 (dropbl_head _)). reflexivity. }
      rewrite (blanks_drop _ _ _ B2) in V2'.
      assert (Dt : dropbl (t ++ "}"%char :: b3 ++ r) = t ++ "}"%char :: b3 ++ r) by (destruct HQ as [[-> _]|(S & _)]; [reflexivity|now apply starts_dropbl]).
      rewrite Dt in V2'.
      assert (Rest : reaches (fun m s => do s <- lift (skip1b ["}"%char] s);
          if ok s then (if ok s then Good (s, (E ++ [KStop (str "'{")]) ++ [KArr ["}"%char]]) else Bad)
          else
            do (s, E) <- go ci m Nexpression s (E ++ [KStop (str "'{")]);
            do (s, E) <- go ci m Narglisttail s E;
            do s <- lift (skip1b ["}"%char] s);
            if ok s then (if ok s then Good (s, E ++ [KArr ["}"%char]]) else Bad) else Bad) (t ++ "}"%char :: b3 ++ r) r (E ++ post (Arr items))).
      { apply (reaches_ext (fun m s => do s <- lift (skip1b ["}"%char] s);
          if ok s then Good (s, (E ++ [KStop (str "'{")]) ++ [KArr ["}"%char]])
          else
            do (s, E) <- go ci m Nexpression s (E ++ [KStop (str "'{")]);
            do (s, E) <- go ci m Narglisttail s E;
            do s <- lift (skip1b ["}"%char] s);
            if ok s then Good (s, E ++ [KArr ["}"%char]]) else Bad)).
        { intros m s0. destruct (skip1b ["}"%char] s0) as [s3|]; [cbn [lift pbind]|reflexivity]. destruct (ok s3) eqn:O3; [reflexivity|].
          destruct (go ci m Nexpression s3 _) as [[s4 E4]| |]; [cbn [pbind]|reflexivity|reflexivity].
          destruct (go ci m Narglisttail s4 E4) as [[s5 E5]| |]; [cbn [pbind]|reflexivity|reflexivity].
          destruct (skip1b ["}"%char] s5) as [s6|]; [cbn [lift pbind]|reflexivity]. destruct (ok s6); reflexivity. }
        apply (list_run "}" t items r (E ++ [KStop (str "'{")]) (fun s E => Good (s, E ++ [KArr ["}"%char]])) b3); [cbn; auto|assumption|assumption|assumption|].
        replace (E ++ post (Arr items)) with (((E ++ [KStop (str "'{")]) ++ flat_map post items) ++ [KArr ["}"%char]]) by (cbn [post]; repeat (rewrite <- ?app_assoc; cbn [app]); reflexivity).
        apply reaches_good. }
      destruct (Rest s2 V2') as (n & s3 & A3 & V3). exists n, s3. split; [|exact V3]. intros m Lm. specialize (A3 m Lm).
      change (str "'") with ["'"%char]. rewrite E1. cbn [lift pbind]. rewrite (peek_vw _ _ _ V1), O1. cbn [lift pbind].
      change (Ascii.eqb (head ("{"%char :: b2 ++ t ++ "}"%char :: b3 ++ r)) "{") with true. cbn [andb]. cbv zeta. change (str "}") with ["}"%char].
      rewrite Sk. rewrite <- A3.
      destruct (skip1b ["}"%char] s2) as [s4|]; [cbn [lift pbind]|reflexivity]. destruct (ok s4) eqn:O4; [cbn [pbind]; now rewrite O4|].
      destruct (go ci m Nexpression s4 _) as [[s5 E5]| |]; [cbn [pbind]|reflexivity|reflexivity].
      destruct (go ci m Narglisttail s5 E5) as [[s6 E6]| |]; [cbn [pbind]|reflexivity|reflexivity].
      destruct (skip1b ["}"%char] s6) as [s7|]; [cbn [lift pbind]|reflexivity]. destruct (ok s7) eqn:O7; [cbn [pbind]; now rewrite O7|reflexivity]. }
    intros s V. destruct (Ar s V) as (n & s1 & A1 & V1). exists (S n), s1. split; [|exact V1]. intros [|m] Lm; [lia|]. specialize (A1 m ltac:(lia)). cbn [go].
    rewrite (peek_vw _ _ _ V). cbn [lift pbind]. change (head ("'"%char :: b1 ++ "{"%char :: b2 ++ t ++ "}"%char :: b3 ++ r)) with "'"%char.
    change (Ascii.eqb "'" QUOTE) with false. change (Ascii.eqb "'" "<") with false. cbv iota.
    destruct (go ci m Narray s E) as [[s2 E2]| |]; cbn [pbind] in *; [|discriminate A1|discriminate A1]. destruct (ok s2); [exact A1|discriminate A1].
  - (* parentheses *)
    intros b1 b2 t e B1 B2 W [S H]. split; [eexists _, _; split; [reflexivity|]; split; [reflexivity|cbn; intuition discriminate]|].
    intros r E O. repeat (rewrite <- ?app_assoc; cbn [app]). unfold prim.
    eapply reaches_lift with (b := true) (r1 := t ++ ")"%char :: b2 ++ r) (g := fun (b : bool) m s => if b then do (s, E) <- go ci m Nexpression s E; do s <- lift (skip1b (str ")") s); if ok s then Good (s, E) else Bad else go ci m Nleaf s E).
    { intros s V. destruct (skip1b_yes "(" _ s ltac:(discriminate) eq_refl V) as (s1 & E1 & V1 & O1). exists s1. split; [exact E1|]. split; [|exact O1].
      rewrite (blanks_drop _ _ _ B1), starts_dropbl in V1 by assumption. exact V1. }
    cbv iota. eapply reaches_bind with (g := fun m s E => do s <- lift (skip1b (str ")") s); if ok s then Good (s, E) else Bad).
    { apply H; [apply closer_okrest; cbn; auto|apply closer_clean; cbn; auto]. }
    eapply reaches_lift with (b := true) (r1 := r) (g := fun (b : bool) (m : nat) (s : cs) => if b then Good (s, E ++ post e) else Bad).
    { intros s V. destruct (skip1b_yes ")" _ s ltac:(discriminate) eq_refl V) as (s1 & E1 & V1 & O1). exists s1. split; [exact E1|]. split; [|exact O1].
      rewrite (blanks_drop _ _ _ B2), (okrest_dropbl _ O) in V1. exact V1. }
    cbv iota. apply reaches_good.
  - (* sign *)
    intros o b t e I G W [S7 H]. pose proof (starts7_starts _ S7) as S.
    assert (So : starts (o ++ b ++ t)).
    { cbn in I. repeat (destruct I as [<-|I]; [eexists _, _; split; [reflexivity|]; split; [reflexivity|cbn; intuition discriminate]|]). destruct I. }
    split; [exact So|]. intros r E O. rewrite <- !app_assoc. unfold runs.
    apply (reaches_S (fun m s => do (u, s) <- lift (oper ci (str "-|+|!") s); do (s, E) <- prim E m s; Good (s, match u with Some name => E ++ [KUn name] | None => E end))).
    { intros m s. cbn [go]. unfold prim. destruct (oper ci (str "-|+|!") s) as [[u s1]|]; [cbn [lift pbind]|reflexivity].
      destruct (skip1b (str "(") s1) as [s2|]; [cbn [lift pbind]|reflexivity]. reflexivity. }
    intros s V. destruct (uop_vw ci line _ s V) as (s1 & E1 & V1).
    assert (U : uop (o ++ b ++ t ++ r) = Some (o, b ++ t ++ r)).
    { unfold uop. assert (fblank (head (o ++ b ++ t ++ r)) = false) as -> by (cbn in I; repeat (destruct I as [<-|I]; [reflexivity|]); destruct I).
      cbn in I. repeat (destruct I as [<-|I]; [reflexivity|]). destruct I. }
    rewrite U in *. cbn [option_map fst] in E1. rewrite gap_false in V1; [|exact G|now apply starts_app].
    destruct (H r E O s1 V1) as (n & s2 & A & V2). exists n, s2. split; [|exact V2]. intros m L. rewrite E1. cbn [lift pbind]. rewrite (A m L). cbn [pbind post].
    now rewrite app_assoc.
  - intros k t e W H. now apply P_up.
  - (* operators *)
    intros k o b t1 t2 e1 e2 [I|(D & _)] G W1 H1 W2 H2; [|discriminate D]. now apply P_bin.
  - intros b1 b2 t1 t2 t3 e1 e2 e3 G1 G2 W1 H1 W2 H2 W3 H3. now apply P_tern.
  - left. now split.
  - (* one element *)
    intros t e W [S H]. right. split; [exact S|]. split; [discriminate|]. intros c r E I.
    eapply reaches_bind with (g := fun m s E => go ci m Narglisttail s E).
    { apply H; [apply closer_okrest|apply closer_clean]; cbn in *; intuition auto. }
    cbn [flat_map]. rewrite app_nil_r.
    apply (reaches_S (fun m s => do s <- lift (skip1b (str ",") s); if ok s then do (s, E) <- go ci m Nexpression s (E ++ post e); go ci m Narglisttail s E else Good (s, E ++ post e))); [reflexivity|].
    intros s V. destruct (skip1b_no "," (c :: r) s ltac:(discriminate)) as (s1 & E1 & V1 & O1).
    { apply okrest_dropbl, closer_okrest. cbn in *. intuition auto. }
    { unfold head. cbn. intros ->. cbn in I. intuition discriminate. }
    { exact V. }
    exists 0%nat, s1. split; [|exact V1]. intros m _. change (str ",") with [","%char]. rewrite E1. cbn [lift pbind]. now rewrite O1.
  - (* more *)
    intros t b ts e es W [S H] B Ne L HQ. right. split; [now apply starts_app|]. split; [discriminate|]. intros c r E I.
    destruct HQ as [[_ ->]|(S2 & _ & HQ)]; [now elim Ne|]. repeat (rewrite <- ?app_assoc; cbn [app]).
    eapply reaches_bind with (g := fun m s E => go ci m Narglisttail s E).
    { apply H; [apply closer_okrest|apply closer_clean]; cbn; auto. }
    apply (reaches_S (fun m s => do s <- lift (skip1b (str ",") s); if ok s then do (s, E) <- go ci m Nexpression s (E ++ post e); go ci m Narglisttail s E else Good (s, E ++ post e))); [reflexivity|].
    eapply reaches_lift with (b := true) (r1 := ts ++ c :: r) (g := fun (b : bool) m s => if b then do (s, E) <- go ci m Nexpression s (E ++ post e); go ci m Narglisttail s E else Good (s, E ++ post e)).
    { intros s V. destruct (skip1b_yes "," _ s ltac:(discriminate) eq_refl V) as (s1 & E1 & V1 & O1). exists s1. split; [exact E1|]. split; [|exact O1].
      rewrite (blanks_drop _ _ _ B), starts_dropbl in V1 by assumption. exact V1. }
    cbv iota. cbn [flat_map]. rewrite app_assoc. now apply HQ.
Qed.
End Complete.
