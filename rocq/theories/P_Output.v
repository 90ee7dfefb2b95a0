(* C46, C49: output streams as sets of files *)
Require Import String.
Require Import ZArith List Ascii Bool Lia.
Require Import ZifyBool.
Require Import Verif.Loops Verif.Wmatch_Model Verif.CS_Model Verif.Out_Model.
Import ListNotations.
Local Open Scope string_scope.
Local Open Scope list_scope.
Local Open Scope Z_scope.

(* ---- what a user expects: each file on its own ---- *)
(* a file's current column and its text *)
Definition fstate : Type := Z * list ascii.
Definition fput (c : ascii) (s : fstate) : fstate :=
  let (col, txt) := s in
  if Ascii.eqb c TAB then (col, txt ++ [SP])
  else if Ascii.eqb c BS then (wrap (col - 1), txt ++ [c])
  else if Ascii.eqb c LF then (0, txt ++ [c])
  else (wrap (col + 1), txt ++ [c]).
(* a new line marked as continuation when the text would reach the width *)
Definition fbreak (width r : Z) (s : fstate) : fstate :=
  if (wrap (r + fst s) >=? width) && negb (fst s =? 0) then fput "+" (fput LF s) else s.
Definition fputs (width : Z) (t : list ascii) (s : fstate) : fstate :=
  fold_left (fun s c => fput c s) (sent t) (fbreak width (room t) s).
Definition ftab (n : Z) (s : fstate) : fstate :=
  let s1 := if fst s >? n then fput LF s else s in Nat.iter (Z.to_nat (n - fst s1)) (fput SP) s1.

(* ---- effect of the model on the tables ---- *)
Definition inj (st : io) : Prop := forall i j f, stream st i = Some f -> stream st j = Some f -> i = j.
Definition acts (sel : nat -> bool) (g : fstate -> fstate) (st st' : io) : Prop :=
  (forall ii, stream st' ii = stream st ii) /\
  (forall ii f, stream st ii = Some f -> (cpos st' ii, out st' f) = if sel ii then g (cpos st ii, out st f) else (cpos st ii, out st f)) /\
  (forall ii, stream st ii = None -> cpos st' ii = cpos st ii) /\
  (forall f, (forall ii, stream st ii <> Some f) -> out st' f = out st f).
Definition usable (m : Z) (st : io) : Prop := forall ii, bit m ii = true -> (1 <= ii <= 31)%nat /\ stream st ii <> None.

Lemma acts_refl : forall sel g st, (forall ii, stream st ii <> None -> sel ii = false) -> acts sel g st st.
Proof. intros sel g st H. split; [reflexivity|]. split; [|split; reflexivity]. intros ii f E. rewrite (H ii); [reflexivity|congruence]. Qed.
Lemma acts_trans : forall sel g h a b c, acts sel g a b -> acts sel h b c -> acts sel (fun s => h (g s)) a c.
Proof.
  intros sel g h a b c (A1 & A2 & A3 & A4) (B1 & B2 & B3 & B4). split; [intros; now rewrite B1|]. split; [|split].
  - intros ii f E. specialize (A2 ii f E). specialize (B2 ii f ltac:(now rewrite A1)). rewrite B2. destruct (sel ii); [now rewrite A2|exact A2].
  - intros ii E. rewrite B3 by (now rewrite A1). now apply A3.
  - intros f H. rewrite B4 by (intros ii; rewrite A1; apply H). now apply A4.
Qed.
Lemma acts_ext : forall sel sel2 g st st', acts sel g st st' -> (forall ii, stream st ii <> None -> sel ii = sel2 ii) -> acts sel2 g st st'.
Proof. intros sel sel2 g st st' (A1 & A2 & A3 & A4) H. split; [assumption|]. split; [|split; assumption]. intros ii f E. rewrite (A2 ii f E), (H ii); [reflexivity|congruence]. Qed.
Lemma acts_fun : forall sel g h st st', acts sel g st st' -> (forall s, g s = h s) -> acts sel h st st'.
Proof. intros sel g h st st' (A1 & A2 & A3 & A4) H. split; [assumption|]. split; [|split; assumption]. intros ii f E. rewrite (A2 ii f E), H. reflexivity. Qed.
Lemma acts_inj : forall sel g st st', acts sel g st st' -> inj st -> inj st'.
Proof. intros sel g st st' (A1 & _) H i j f. rewrite !A1. apply H. Qed.
Lemma acts_usable : forall sel g st st' m, acts sel g st st' -> usable m st -> usable m st'.
Proof. intros sel g st st' m (A1 & _) H ii E. rewrite A1. now apply H. Qed.
(* two disjoint selections one after the other *)
Lemma acts_union : forall s1 s2 g a b c, acts s1 g a b -> acts s2 g b c -> (forall ii, s1 ii = true -> s2 ii = false) ->
  acts (fun ii => s1 ii || s2 ii) g a c.
Proof.
  intros s1 s2 g a b c (A1 & A2 & A3 & A4) (B1 & B2 & B3 & B4) D. split; [intros; now rewrite B1|]. split; [|split].
  - intros ii f E. specialize (A2 ii f E). specialize (B2 ii f ltac:(now rewrite A1)). rewrite B2. specialize (D ii). destruct (s1 ii).
    + rewrite D by reflexivity. cbn. exact A2.
    + cbn. rewrite A2. reflexivity.
  - intros ii E. rewrite B3 by (now rewrite A1). now apply A3.
  - intros f H. rewrite B4 by (intros ii; rewrite A1; apply H). now apply A4.
Qed.

Definition only (m : Z) (ii : nat) : nat -> bool := fun j => Nat.eqb j ii && bit m j.
(* a loop over the handles that treats each selected handle with g *)
Lemma loop_acts : forall {T} (get : T -> io) (P : T -> Prop) m g (body : nat -> T -> option T) l t, NoDup l -> inj (get t) -> usable m (get t) -> P t ->
  (forall ii t, inj (get t) -> usable m (get t) -> P t -> exists t', body ii t = Some t' /\ P t' /\ acts (only m ii) g (get t) (get t')) ->
  exists t', foldM body l t = Some t' /\ P t' /\ acts (fun j => existsb (Nat.eqb j) l && bit m j) g (get t) (get t').
Proof.
  intros T get P m g body l. induction l as [|x l IH]; intros t N I U Ht Hb; cbn [foldM].
  - exists t. split; [reflexivity|]. split; [assumption|]. apply acts_refl. reflexivity.
  - apply NoDup_cons_iff in N. destruct N as [Nx N]. destruct (Hb x t I U Ht) as (t1 & E1 & P1 & A1). rewrite E1. cbn [bind].
    destruct (IH t1 N) as (t2 & E2 & P2 & A2); [now apply (acts_inj _ _ _ _ A1)|now apply (acts_usable _ _ _ _ _ A1)|assumption|assumption|].
    exists t2. split; [assumption|]. split; [assumption|]. eapply acts_ext; [eapply acts_union; [exact A1|exact A2|]|].
    + intros j. unfold only. intros H. apply andb_true_iff in H. destruct H as [H _]. apply Nat.eqb_eq in H. subst j.
      replace (existsb (Nat.eqb x) l) with false; [reflexivity|]. symmetry. apply not_true_iff_false. intros H. apply existsb_exists in H. destruct H as (y & Hy & E). apply Nat.eqb_eq in E. now subst.
    + intros j _. unfold only. cbn [existsb]. destruct (Nat.eqb j x); cbn; [|reflexivity]. destruct (bit m j); [reflexivity|]. now rewrite andb_false_r.
Qed.
Lemma all_handles : forall m st j, usable m st -> existsb (Nat.eqb j) (seq 0 (S MAXHANDLE)) && bit m j = bit m j.
Proof.
  intros m st j U. destruct (bit m j) eqn:E; [|apply andb_false_r]. rewrite andb_true_r. destruct (U j E) as [R _].
  apply existsb_exists. exists j. split; [|apply Nat.eqb_refl]. apply in_seq. unfold MAXHANDLE. lia.
Qed.
Lemma usable0 : forall m st, usable m st -> bit m 0 = false.
Proof. intros m st U. destruct (bit m 0) eqn:E; [|reflexivity]. destruct (U 0%nat E). lia. Qed.

Lemma put_one_acts : forall m c ii t, c <> CR -> inj (snd t) -> usable m (snd t) -> fst t = false ->
  exists t', put_one m (negb (Ascii.eqb c TAB)) (if Ascii.eqb c TAB then SP else c) ii t = Some t' /\ fst t' = false /\ acts (only m ii) (fput c) (snd t) (snd t').
Proof.
  intros m c ii [b st] Hc I U Hs. cbn [fst snd] in *. subst b. unfold put_one. destruct (bit m ii) eqn:Eb.
  - destruct (U ii Eb) as [_ Hst]. destruct (stream st ii) as [f|] eqn:Ef; [|contradiction]. cbn [bind].
    assert (Ec : Ascii.eqb (if Ascii.eqb c TAB then SP else c) CR = false).
    { destruct (Ascii.eqb c TAB); [reflexivity|]. now apply Ascii.eqb_neq. }
    rewrite Ec. 
    match goal with |- context [let '(_, _) := ?e in _] => destruct e as [c2 sp] eqn:E2 end.
    assert (Esp : sp = false) by (destruct (Ascii.eqb _ LF) in E2; injection E2 as _ <-; reflexivity). subst sp.
    eexists. split; [reflexivity|]. split; [reflexivity|]. cbn [snd]. split; [reflexivity|]. split; [|split].
    + intros jj f' Ef'. cbn [stream cpos out]. unfold only. destruct (Nat.eqb_spec jj ii) as [->|N].
      * rewrite Ef in Ef'. injection Ef' as <-. unfold setf. rewrite !Nat.eqb_refl, Eb. cbn [andb fput].
        destruct (Ascii.eqb_spec c TAB) as [->|Nt].
        { cbn in E2. injection E2 as <-. reflexivity. }
        cbn [negb] in E2. destruct (Ascii.eqb_spec c BS) as [->|Nb]; [cbn in E2; injection E2 as <-; reflexivity|].
        destruct (Ascii.eqb c LF); injection E2 as <-; reflexivity.
      * unfold setf. destruct (Nat.eqb_spec jj ii); [contradiction|]. destruct (Nat.eqb_spec f' f) as [->|]; [|reflexivity]. exfalso. apply N. now apply (I jj ii f).
    + intros jj En. cbn [cpos]. unfold setf. destruct (Nat.eqb_spec jj ii) as [->|]; [congruence|reflexivity].
    + intros f' Hn. cbn [out]. unfold setf. destruct (Nat.eqb_spec f' f) as [->|]; [|reflexivity]. exfalso. now apply (Hn ii).
  - eexists. split; [reflexivity|]. split; [reflexivity|]. cbn [snd]. apply acts_refl. intros jj _. unfold only. destruct (Nat.eqb_spec jj ii) as [->|]; [now rewrite Eb|reflexivity].
Qed.
Lemma put_acts : forall m c st, c <> CR -> inj st -> usable m st -> exists st', put m false c st = Some st' /\ acts (bit m) (fput c) st st'.
Proof.
  intros m c st Hc I U. unfold put. rewrite (usable0 m st U). cbn [andb]. set (st0 := Io (stream st) (cpos st) (out st) (if Ascii.eqb c TAB then SP else c)).
  destruct (loop_acts snd (fun t => fst t = false) m (fput c) (put_one m (negb (Ascii.eqb c TAB)) (if Ascii.eqb c TAB then SP else c)) (seq 0 (S MAXHANDLE)) (false, st0)) as (t' & E & _ & A).
  - apply seq_NoDup.
  - exact I.
  - exact U.
  - reflexivity.
  - intros ii t I' U' Ht. now apply put_one_acts.
  - rewrite E. cbn [bind]. destruct t' as [b st']. exists st'. split; [reflexivity|]. cbn [snd] in A.
    eapply acts_ext in A; [exact A|]. intros j _. now apply (all_handles m st).
Qed.

Lemma bit_this : forall m ii j, bit (Z.land m (2 ^ Z.of_nat ii)) j = only m ii j.
Proof. intros m ii j. unfold bit, only. rewrite Z.land_spec, Z.pow2_bits_eqb by lia. destruct (Nat.eqb_spec j ii) as [->|N]; [rewrite Z.eqb_refl; apply andb_comm|].
  replace (Z.of_nat ii =? Z.of_nat j) with false by lia. rewrite andb_false_r. reflexivity. Qed.
Lemma usable_this : forall m ii st, usable m st -> usable (Z.land m (2 ^ Z.of_nat ii)) st.
Proof. intros m ii st U j E. rewrite bit_this in E. unfold only in E. apply U. now destruct (Nat.eqb j ii). Qed.
Lemma puts_body : forall l m st, Forall (fun c => c <> CR) l -> inj st -> usable m st -> exists st', foldM (put m false) l st = Some st' /\ acts (bit m) (fun s => fold_left (fun s c => fput c s) l s) st st'.
Proof.
  induction l as [|c l IH]; intros m st F I U; cbn [foldM].
  - exists st. split; [reflexivity|]. split; [reflexivity|]. split; [|split; reflexivity]. intros ii f E. now destruct (bit m ii).
  - apply Forall_cons_iff in F. destruct F as [Fc F]. destruct (put_acts m c st Fc I U) as (s1 & E1 & A1). rewrite E1. cbn [bind].
    destruct (IH m s1 F (acts_inj _ _ _ _ A1 I) (acts_usable _ _ _ _ _ A1 U)) as (s2 & E2 & A2). exists s2. split; [assumption|].
    eapply acts_fun; [eapply acts_trans; [exact A1|exact A2]|]. reflexivity.
Qed.
Lemma acts_id : forall m ii st g, (forall f, stream st ii = Some f -> bit m ii = true -> g (cpos st ii, out st f) = (cpos st ii, out st f)) -> acts (only m ii) g st st.
Proof.
  intros m ii st g H. split; [reflexivity|]. split; [|split; reflexivity]. intros jj f E. unfold only. destruct (Nat.eqb_spec jj ii) as [->|]; [|reflexivity].
  cbn [andb]. destruct (bit m ii) eqn:Eb; [|reflexivity]. now rewrite H.
Qed.
(* a step that acts on the single handle ii only if a condition on that handle holds *)
Lemma acts_cond : forall m ii g h st st', acts (only m ii) g st st' -> (forall f, stream st ii = Some f -> bit m ii = true -> g (cpos st ii, out st f) = h (cpos st ii, out st f)) -> acts (only m ii) h st st'.
Proof.
  intros m ii g h st st' (A1 & A2 & A3 & A4) H. split; [assumption|]. split; [|split; assumption]. intros jj f E. rewrite (A2 jj f E). unfold only. destruct (Nat.eqb_spec jj ii) as [->|]; [|reflexivity].
  cbn [andb]. destruct (bit m ii) eqn:Eb; [|reflexivity]. now apply H.
Qed.
Lemma LF_CR : LF <> CR. Proof. discriminate. Qed.
Lemma plus_CR : "+"%char <> CR. Proof. discriminate. Qed.
Lemma SP_CR : SP <> CR. Proof. discriminate. Qed.
Lemma break_acts : forall w m r ii st, inj st -> usable m st -> exists st', break_one w m r ii st = Some st' /\ acts (only m ii) (fbreak w r) st st'.
Proof.
  intros w m r ii st I U. unfold break_one. destruct (bit m ii && (wrap (r + cpos st ii) >=? w) && negb (cpos st ii =? 0)) eqn:C.
  - pose proof (usable_this m ii st U) as U1. destruct (put_acts _ LF st LF_CR I U1) as (s1 & E1 & A1). rewrite E1. cbn [bind].
    destruct (put_acts _ "+"%char s1 plus_CR (acts_inj _ _ _ _ A1 I) (acts_usable _ _ _ _ _ A1 U1)) as (s2 & E2 & A2). exists s2. split; [assumption|].
    pose proof (acts_trans _ _ _ _ _ _ A1 A2) as A. eapply acts_ext in A; [|intros j _; apply bit_this].
    eapply acts_cond; [exact A|]. intros f Ef Eb. unfold fbreak. cbn [fst]. rewrite Eb in C. cbn [andb] in C. rewrite C. reflexivity.
  - exists st. split; [reflexivity|]. apply acts_id. intros f Ef Eb. unfold fbreak. cbn [fst]. rewrite Eb in C. cbn [andb] in C. now rewrite C.
Qed.
Lemma puts_acts : forall w m s st, Forall (fun c => c <> CR) s -> inj st -> usable m st -> exists st', puts w m false s st = Some st' /\ acts (bit m) (fputs w s) st st'.
Proof.
  intros w m s st F I U. unfold puts. rewrite (usable0 m st U).
  destruct (loop_acts (fun t => t) (fun _ => True) m (fbreak w (room s)) (break_one w m (room s)) (seq 0 (S MAXHANDLE)) st) as (s1 & E1 & _ & A1);
    [apply seq_NoDup|assumption|assumption|exact Logic.I| |].
  - intros ii t I' U' _. destruct (break_acts w m (room s) ii t I' U') as (t' & E & A). exists t'. auto.
  - rewrite E1. cbn [bind]. eapply acts_ext in A1; [|intros j _; now apply (all_handles m st)].
    assert (F2 : Forall (fun c => c <> CR) (sent s)).
    { clear -F. induction F as [|c l H F IH]; [constructor|]. cbn [sent]. destruct l as [|c2 l]; [destruct (Ascii.eqb c "@"); [constructor|apply Forall_cons; [assumption|constructor]]|]. apply Forall_cons; [assumption|exact IH]. }
    destruct (puts_body (sent s) m s1 F2 (acts_inj _ _ _ _ A1 I) (acts_usable _ _ _ _ _ A1 U)) as (s2 & E2 & A2). exists s2. split; [assumption|].
    exact (acts_trans _ _ _ _ _ _ A1 A2).
Qed.
Lemma iter_comm : forall A (f : A -> A) n x, Nat.iter n f (f x) = f (Nat.iter n f x).
Proof. intros A f n x. induction n as [|n IH]; [reflexivity|]. cbn. f_equal. exact IH. Qed.
Lemma spaces_acts : forall n m ii count st, inj st -> usable m st -> 0 <= cpos st ii -> count < 2 ^ 64 -> count - cpos st ii <= Z.of_nat n -> bit m ii = true ->
  exists st', spaces n (Z.land m (2 ^ Z.of_nat ii)) ii count st = Some st' /\ acts (only m ii) (fun s => Nat.iter (Z.to_nat (count - fst s)) (fput SP) s) st st'.
Proof.
  induction n as [|n IH]; intros m ii count st I U P L Hn Eb; cbn [spaces]; (destruct (cpos st ii <? count) eqn:C; [|exists st; split; [reflexivity|]; apply acts_id; intros f _ _; cbn [fst]; replace (Z.to_nat (count - cpos st ii)) with 0%nat by lia; reflexivity]).
  - lia.
  - pose proof (usable_this m ii st U) as U1. destruct (put_acts _ SP st SP_CR I U1) as (s1 & E1 & A1). rewrite E1. cbn [bind].
    assert (Hc : cpos s1 ii = cpos st ii + 1).
    { destruct A1 as (_ & A2 & _). destruct (U ii Eb) as [_ Hs]. destruct (stream st ii) as [f|] eqn:Ef; [|contradiction]. specialize (A2 ii f Ef). rewrite bit_this in A2. unfold only in A2. rewrite Nat.eqb_refl, Eb in A2. cbn [andb] in A2.
      injection A2 as A2 _. rewrite A2. cbn. unfold wrap. apply Z.mod_small. lia. }
    destruct (IH m ii count s1 (acts_inj _ _ _ _ A1 I) (acts_usable _ _ _ _ _ A1 U)) as (s2 & E2 & A2); [lia|assumption|lia|assumption|].
    exists s2. split; [assumption|]. eapply acts_ext in A1; [|intros j _; apply bit_this]. pose proof (acts_trans _ _ _ _ _ _ A1 A2) as A. eapply acts_cond; [exact A|].
    intros f Ef _. cbn [fst]. replace (fst (fput SP (cpos st ii, out st f))) with (cpos st ii + 1) by (cbn; unfold wrap; symmetry; apply Z.mod_small; lia).
    replace (Z.to_nat (count - cpos st ii)) with (S (Z.to_nat (count - (cpos st ii + 1)))) by lia. cbn [Nat.iter nat_rect]. apply iter_comm.
Qed.
Lemma wrap_nonneg : forall x, 0 <= wrap x.
Proof. intros x. unfold wrap. now apply Z.mod_pos_bound. Qed.
Lemma fput_col : forall c s, 0 <= fst s -> 0 <= fst (fput c s).
Proof. intros c [col t] H. unfold fput. pose proof (wrap_nonneg (col - 1)). pose proof (wrap_nonneg (col + 1)). destruct (Ascii.eqb c TAB), (Ascii.eqb c BS), (Ascii.eqb c LF); cbn [fst] in *; assumption || lia. Qed.
Lemma tab_acts : forall m n st, 0 <= n < 2 ^ 64 -> (forall ii, 0 <= cpos st ii) -> inj st -> usable m st -> exists st', tab m n st = Some st' /\ acts (bit m) (ftab n) st st'.
Proof.
  intros m n st Hn P I U. unfold tab.
  destruct (loop_acts (fun t => t) (fun t => forall ii, 0 <= cpos t ii) m (ftab n) (tab_one m n) (seq 0 (S MAXHANDLE)) st) as (s1 & E1 & _ & A1);
    [apply seq_NoDup|assumption|assumption|assumption| |].
  - clear st P I U. intros ii st I U P. unfold tab_one. destruct (bit m ii) eqn:Eb.
    + pose proof (usable_this m ii st U) as U1.
      assert (X : exists s1, (if cpos st ii >? n then put (Z.land m (2 ^ Z.of_nat ii)) false LF st else Some st) = Some s1 /\ acts (only m ii) (fun s => if fst s >? n then fput LF s else s) st s1 /\ (forall jj, 0 <= cpos s1 jj) /\ 0 <= cpos s1 ii).
      { destruct (cpos st ii >? n) eqn:C.
        - destruct (put_acts _ LF st LF_CR I U1) as (s1 & E1 & A1). exists s1. split; [assumption|]. eapply acts_ext in A1; [|intros j _; apply bit_this]. split; [|split].
          + eapply acts_cond; [exact A1|]. intros f _ _. cbn [fst]. now rewrite C.
          + intros jj. destruct A1 as (B1 & B2 & B3 & _). destruct (stream st jj) as [f|] eqn:Ef; [|rewrite B3 by assumption; apply P]. specialize (B2 jj f Ef).
            replace (cpos s1 jj) with (fst (cpos s1 jj, out s1 f)) by reflexivity. rewrite B2. destruct (only m ii jj); [apply fput_col; apply P|apply P].
          + destruct A1 as (B1 & B2 & B3 & _). destruct (U ii Eb) as [_ Hs]. destruct (stream st ii) as [f|] eqn:Ef; [|contradiction]. specialize (B2 ii f Ef).
            replace (cpos s1 ii) with (fst (cpos s1 ii, out s1 f)) by reflexivity. rewrite B2. destruct (only m ii ii); [apply fput_col; apply P|apply P].
        - exists st. split; [reflexivity|]. split; [|split; [assumption|apply P]]. apply acts_id. intros f _ _. cbn [fst]. now rewrite C. }
      destruct X as (s1 & E1 & A1 & P1 & P2). rewrite E1. cbn [bind].
      destruct (spaces_acts (Z.to_nat n) m ii n s1 (acts_inj _ _ _ _ A1 I) (acts_usable _ _ _ _ _ A1 U)) as (s2 & E2 & A2); [assumption|lia|lia|assumption|].
      exists s2. split; [assumption|]. split; [|exact (acts_trans _ _ _ _ _ _ A1 A2)].
      intros jj. destruct A2 as (B1 & B2 & B3 & _). destruct (stream s1 jj) as [f|] eqn:Ef; [|rewrite B3 by assumption; apply P1]. specialize (B2 jj f Ef).
      replace (cpos s2 jj) with (fst (cpos s2 jj, out s2 f)) by reflexivity. rewrite B2. destruct (only m ii jj); [|apply P1]. generalize (Z.to_nat (n - fst (cpos s1 jj, out s1 f))) as q. intros q. induction q as [|q IHq]; [apply P1|]. cbn [Nat.iter nat_rect]. now apply fput_col.
    + exists st. split; [reflexivity|]. split; [assumption|]. apply acts_refl. intros jj _. unfold only. destruct (Nat.eqb_spec jj ii) as [->|]; [now rewrite Eb|reflexivity].
  - exists s1. split; [assumption|]. eapply acts_ext; [exact A1|]. intros j _. now apply (all_handles m st).
Qed.

(* ---- histories ---- *)
(* statements on stream variables: v = OMSTREAM(f); v = w; v.attach(w); v.detach(w); v.attach(f);
   v.detach(f); u = v + w; u = v - w; v << c; v << s; v.tab(n) *)
Inductive op :=
| Of_file (v f : nat) | Assign (v w : nat) | Attach (v w : nat) | Detach (v w : nat) | Attach_file (v f : nat) | Detach_file (v f : nat)
| Plus (u v w : nat) | Minus (u v w : nat) | Put (v : nat) (c : ascii) | Puts (v : nat) (s : list ascii) | Tab (v : nat) (n : Z).

(* the code: variables hold masks *)
Definition step (width : Z) (o : op) (a : (nat -> Z) * io) : option ((nat -> Z) * io) :=
  let (env, st) := a in
  match o with
  | Of_file v f => let* (m, st) := handle f st in Some (setf env v m, st)
  | Assign v w => Some (setf env v (env w), st)
  | Attach v w => Some (setf env v (attach (env v) (env w)), st)
  | Detach v w => Some (setf env v (detach (env v) (env w)), st)
  | Attach_file v f => let* (m, st) := handle f st in Some (setf env v (attach (env v) m), st)
  | Detach_file v f => let* (m, st) := handle f st in Some (setf env v (detach (env v) m), st)
  | Plus u v w => Some (setf env u (attach (env v) (env w)), st)
  | Minus u v w => Some (setf env u (detach (env v) (env w)), st)
  | Put v c => let* st := put (env v) false c st in Some (env, st)
  | Puts v s => let* st := puts width (env v) false s st in Some (env, st)
  | Tab v n => let* st := tab (env v) n st in Some (env, st)
  end.
(* the expectation: variables hold sets of files, and each file is on its own *)
Definition spec (width : Z) (o : op) (a : (nat -> nat -> bool) * (nat -> fstate)) : (nat -> nat -> bool) * (nat -> fstate) :=
  let (env, fs) := a in
  let send v g := fun f => if env v f then g (fs f) else fs f in
  match o with
  | Of_file v f => (setf env v (Nat.eqb f), fs)
  | Assign v w => (setf env v (env w), fs)
  | Attach v w => (setf env v (fun f => env v f || env w f), fs)
  | Detach v w => (setf env v (fun f => env v f && negb (env w f)), fs)
  | Attach_file v f => (setf env v (fun f' => env v f' || Nat.eqb f f'), fs)
  | Detach_file v f => (setf env v (fun f' => env v f' && negb (Nat.eqb f f')), fs)
  | Plus u v w => (setf env u (fun f => env v f || env w f), fs)
  | Minus u v w => (setf env u (fun f => env v f && negb (env w f)), fs)
  | Put v c => (env, send v (fput c))
  | Puts v s => (env, send v (fputs width s))
  | Tab v n => (env, send v (ftab n))
  end.
(* no carriage return, column numbers are size_t values, and the files are among fl *)
Definition fits (fl : list nat) (o : op) : Prop :=
  match o with
  | Of_file _ f | Attach_file _ f | Detach_file _ f => In f fl
  | Put _ c => c <> CR
  | Puts _ s => Forall (fun c => c <> CR) s
  | Tab _ n => 0 <= n < 2 ^ 64
  | _ => True
  end.

Definition Rel (fl : list nat) (c : (nat -> Z) * io) (a : (nat -> nat -> bool) * (nat -> fstate)) : Prop :=
  let (env, st) := c in let (sets, fs) := a in
  inj st /\ (exists n, (n <= length fl)%nat /\ forall ii, stream st ii <> None <-> (1 <= ii <= n)%nat) /\
  (forall ii f, stream st ii = Some f -> In f fl) /\
  (forall v, 0 <= env v) /\
  (forall v, usable (env v) st) /\
  (forall v f, sets v f = true <-> exists ii, stream st ii = Some f /\ bit (env v) ii = true) /\
  (forall ii f, stream st ii = Some f -> fs f = (cpos st ii, out st f)) /\
  (forall f, (forall ii, stream st ii <> Some f) -> fs f = (0, out st f)) /\
  (forall ii, 0 <= cpos st ii) /\ (forall ii, stream st ii = None -> cpos st ii = 0).

Lemma nodup_map : forall A B (g : A -> B) l, NoDup l -> (forall x y, In x l -> In y l -> g x = g y -> x = y) -> NoDup (map g l).
Proof.
  intros A B g l N. induction N as [|a l Ha N IH]; intros H; [constructor|]. cbn. apply NoDup_cons.
  - intros X. apply in_map_iff in X. destruct X as (y & E & Hy). assert (y = a) by (apply H; [now right|now left|assumption]). now subst.
  - apply IH. intros x y Hx Hy. apply H; now right.
Qed.
(* the table of handles is full up to n with distinct files out of fl *)
Lemma room_left : forall fl st n f, inj st -> (forall ii, stream st ii <> None <-> (1 <= ii <= n)%nat) -> (forall ii f, stream st ii = Some f -> In f fl) ->
  In f fl -> (forall ii, stream st ii <> Some f) -> (n < length fl)%nat.
Proof.
  intros fl st n f I H F Hf Hn.
  pose (g := fun ii => match stream st (S ii) with Some x => x | None => 0%nat end).
  assert (G : forall ii, (ii < n)%nat -> stream st (S ii) = Some (g ii)).
  { intros ii Hi. unfold g. assert (X : stream st (S ii) <> None) by (apply H; lia). now destruct (stream st (S ii)). }
  assert (N : NoDup (f :: map g (seq 0 n))).
  { apply NoDup_cons.
    - intros X. apply in_map_iff in X. destruct X as (ii & E & Hi). apply in_seq in Hi. apply (Hn (S ii)). rewrite G by lia. now f_equal.
    - apply nodup_map; [apply seq_NoDup|]. intros x y Hx Hy E. apply in_seq in Hx, Hy. assert (S x = S y); [|lia]. apply (I _ _ (g x)); [apply G; lia|rewrite E; apply G; lia]. }
  assert (L : (length (f :: map g (seq 0 n)) <= length fl)%nat).
  { apply NoDup_incl_length; [assumption|]. intros x [<-|X]; [assumption|]. apply in_map_iff in X. destruct X as (ii & <- & Hi). apply in_seq in Hi. apply (F (S ii)). apply G. lia. }
  cbn [length] in L. rewrite map_length, seq_length in L. lia.
Qed.
Lemma handle_from_ok : forall st n f k ii, (forall ii, stream st ii <> None <-> (1 <= ii <= n)%nat) -> (n <= 30)%nat -> (1 <= ii <= S n)%nat -> (31 < k + ii)%nat ->
  (forall jj, (1 <= jj < ii)%nat -> stream st jj <> Some f) ->
  (exists jj, stream st jj = Some f /\ handle_from k ii f st = Some (2 ^ Z.of_nat jj, st) /\ (jj <= 30)%nat) \/
  ((forall jj, stream st jj <> Some f) /\ ((n <= 29)%nat -> handle_from k ii f st = Some (2 ^ Z.of_nat (S n), Io (setf (stream st) (S n) (Some f)) (cpos st) (out st) (old st)))).
Proof.
  intros st n f k. induction k as [|k IH]; intros ii H Hn Hi Hk Hb; cbn [handle_from].
  - lia.
  - destruct (stream st ii) as [g|] eqn:E.
    + assert (R : (1 <= ii <= n)%nat) by (apply H; congruence). destruct (Nat.eqb_spec g f) as [->|N].
      * left. exists ii. split; [assumption|]. split; [|lia]. unfold shift1. destruct (Nat.ltb_spec ii 31); [reflexivity|lia].
      * destruct (Nat.leb_spec MAXHANDLE ii) as [L|L]; [unfold MAXHANDLE in L; lia|]. apply IH; try assumption; try lia. intros jj Hj. destruct (Nat.eq_dec jj ii) as [->|]; [congruence|apply Hb; lia].
    + right. assert (R : ~ (1 <= ii <= n)%nat) by (intros X; apply H in X; congruence). assert (ii = S n) by lia. subst ii.
      split.
      * intros jj Ej. assert (1 <= jj <= n)%nat by (apply H; congruence). apply (Hb jj); [lia|assumption].
      * intros L. unfold shift1. destruct (Nat.ltb_spec (S n) 31); [|lia]. reflexivity.
Qed.

(* ---- the relation is kept ---- *)
Lemma bit_pow : forall jj ii, bit (2 ^ Z.of_nat jj) ii = Nat.eqb ii jj.
Proof. intros. unfold bit. rewrite Z.pow2_bits_eqb by lia. destruct (Nat.eqb_spec ii jj); lia. Qed.
Lemma bit_attach : forall m x ii, bit (attach m x) ii = bit m ii || bit x ii.
Proof. intros. apply Z.lor_spec. Qed.
Lemma bit_detach : forall m x ii, bit (detach m x) ii = bit m ii && negb (bit x ii).
Proof. intros. unfold bit, detach. rewrite Z.land_spec, Z.lnot_spec by lia. reflexivity. Qed.
Lemma setf_same : forall A (f : nat -> A) i x, setf f i x i = x. Proof. intros. unfold setf. now rewrite Nat.eqb_refl. Qed.
Lemma setf_other : forall A (f : nat -> A) i x j, j <> i -> setf f i x j = f j. Proof. intros. unfold setf. destruct (Nat.eqb_spec j i); [contradiction|reflexivity]. Qed.

(* storing a mask in a variable *)
Lemma rel_store : forall fl env st sets fs v m t, Rel fl (env, st) (sets, fs) -> 0 <= m -> usable m st ->
  (forall f, t f = true <-> exists ii, stream st ii = Some f /\ bit m ii = true) -> Rel fl (setf env v m, st) (setf sets v t, fs).
Proof.
  intros fl env st sets fs v m t (A1 & A2 & A3 & A4 & A5 & A6 & A7) P U H. split; [assumption|]. split; [assumption|]. split; [assumption|].
  split; [intros w; unfold setf; destruct (Nat.eqb w v); [assumption|apply A4]|]. split; [intros w; unfold setf; destruct (Nat.eqb w v); [assumption|apply A5]|].
  split; [|assumption]. intros w f. unfold setf. destruct (Nat.eqb w v); [apply H|apply A6].
Qed.
Lemma nonneg_detach : forall m x, 0 <= m -> 0 <= detach m x.
Proof. intros m x H. unfold detach. apply Z.land_nonneg. now left. Qed.
Lemma nonneg_attach : forall m x, 0 <= m -> 0 <= x -> 0 <= attach m x.
Proof. intros m x H Hx. unfold attach. apply Z.lor_nonneg. now split. Qed.
Lemma usable_attach : forall m x st, usable m st -> usable x st -> usable (attach m x) st.
Proof. intros m x st A B ii E. rewrite bit_attach in E. apply orb_true_iff in E. destruct E; [now apply A|now apply B]. Qed.
Lemma usable_detach : forall m x st, usable m st -> usable (detach m x) st.
Proof. intros m x st A ii E. rewrite bit_detach in E. apply andb_true_iff in E. now apply A. Qed.
(* union and difference of masks are union and difference of the files they stand for *)
Definition stands (st : io) (m : Z) (t : nat -> bool) : Prop := forall f, t f = true <-> exists ii, stream st ii = Some f /\ bit m ii = true.
Lemma stands_attach : forall st m x t u, stands st m t -> stands st x u -> stands st (attach m x) (fun f => t f || u f).
Proof.
  intros st m x t u A B f. rewrite orb_true_iff, (A f), (B f). split.
  - intros [(ii & E & H)|(ii & E & H)]; exists ii; rewrite bit_attach, H; auto using orb_true_r.
  - intros (ii & E & H). rewrite bit_attach in H. apply orb_true_iff in H. destruct H; [left|right]; now exists ii.
Qed.
Lemma stands_detach : forall st m x t u, inj st -> stands st m t -> stands st x u -> stands st (detach m x) (fun f => t f && negb (u f)).
Proof.
  intros st m x t u I A B f. rewrite andb_true_iff, negb_true_iff, (A f). split.
  - intros ((ii & E & H) & Hu). exists ii. split; [assumption|]. rewrite bit_detach, H. destruct (bit x ii) eqn:Ex; [|reflexivity]. assert (u f = true) by (apply B; now exists ii). congruence.
  - intros (ii & E & H). rewrite bit_detach in H. apply andb_true_iff in H. destruct H as [H1 H2]. split; [now exists ii|]. apply not_true_iff_false. intros Hu. apply B in Hu. destruct Hu as (jj & Ej & Hj).
    assert (jj = ii) by now apply (I jj ii f). subst jj. rewrite Hj in H2. discriminate.
Qed.

(* the constructor from a file *)
Lemma rel_handle : forall fl env st sets fs f, (length fl <= 30)%nat -> Rel fl (env, st) (sets, fs) -> In f fl ->
  exists m st', handle f st = Some (m, st') /\ Rel fl (env, st') (sets, fs) /\ 0 <= m /\ usable m st' /\ stands st' m (Nat.eqb f).
Proof.
  intros fl env st sets fs f L R Hf. pose proof R as (A1 & (n & Hn & A2) & A3 & A4 & A5 & A6 & A7 & A8 & A9 & A10).
  unfold handle. destruct (handle_from_ok st n f (S MAXHANDLE) 1 A2) as [(jj & Ej & E & Lj)|(Nf & E)]; [lia|lia|unfold MAXHANDLE; lia|intros; lia| |].
  - exists (2 ^ Z.of_nat jj), st. split; [assumption|]. split; [assumption|]. split; [lia|].
    assert (Rj : (1 <= jj <= n)%nat) by (apply A2; congruence). split.
    + intros ii B. rewrite bit_pow in B. apply Nat.eqb_eq in B. subst ii. split; [lia|congruence].
    + intros g. rewrite Nat.eqb_eq. split; [intros <-; exists jj; split; [assumption|rewrite bit_pow; apply Nat.eqb_refl]|].
      intros (ii & Ei & B). rewrite bit_pow in B. apply Nat.eqb_eq in B. subst ii. congruence.
  - pose proof (room_left fl st n f A1 A2 A3 Hf Nf) as Lt. specialize (E ltac:(lia)). rewrite E. eexists. eexists. split; [reflexivity|].
    set (st' := Io (setf (stream st) (S n) (Some f)) (cpos st) (out st) (old st)).
    assert (Sn : stream st (S n) = None) by (destruct (stream st (S n)) eqn:X; [|reflexivity]; assert (1 <= S n <= n)%nat by (apply A2; congruence); lia).
    assert (Ss : forall ii, stream st' ii = if Nat.eqb ii (S n) then Some f else stream st ii) by reflexivity.
    split; [|split; [lia|split]].
    + split; [|split; [|split; [|split; [|split; [|split; [|split; [|split; [|split]]]]]]]].
      * intros i j g Ei Ej. rewrite Ss in Ei, Ej. destruct (Nat.eqb_spec i (S n)), (Nat.eqb_spec j (S n)); try congruence; now apply (A1 i j g).
      * exists (S n). split; [lia|]. intros ii. rewrite Ss. destruct (Nat.eqb_spec ii (S n)) as [->|]; [split; [intros _; lia|discriminate]|]. rewrite A2. lia.
      * intros ii g E2. rewrite Ss in E2. destruct (Nat.eqb ii (S n)); [now injection E2 as <-|now apply (A3 ii)].
      * assumption.
      * intros v ii B. destruct (A5 v ii B) as [B1 B2]. split; [assumption|]. rewrite Ss. now destruct (Nat.eqb ii (S n)).
      * intros v g. rewrite A6. split; intros (ii & E2 & B); exists ii; (split; [|assumption]).
        { rewrite Ss. destruct (Nat.eqb_spec ii (S n)) as [Ei|]; [|assumption]. rewrite Ei in E2. congruence. }
        { rewrite Ss in E2. destruct (Nat.eqb_spec ii (S n)) as [Ei|]; [|assumption]. destruct (A5 v _ B) as [_ B2]. rewrite Ei in B2. congruence. }
      * intros ii g E2. rewrite Ss in E2. destruct (Nat.eqb_spec ii (S n)) as [->|]; [|now apply A7]. injection E2 as <-. cbn [st' cpos out]. rewrite (A10 _ Sn). now apply A8.
      * intros g Hg. apply A8. intros ii E2. apply (Hg ii). rewrite Ss. destruct (Nat.eqb_spec ii (S n)) as [->|]; [congruence|assumption].
      * assumption.
      * intros ii E2. rewrite Ss in E2. destruct (Nat.eqb ii (S n)); [discriminate|]. now apply A10.
    + intros ii B. rewrite bit_pow in B. apply Nat.eqb_eq in B. subst ii. split; [lia|]. rewrite Ss, Nat.eqb_refl. discriminate.
    + intros g. rewrite Nat.eqb_eq. split.
      * intros <-. exists (S n). rewrite Ss, Nat.eqb_refl, bit_pow. split; [reflexivity|apply Nat.eqb_refl].
      * intros (ii & E2 & B). rewrite bit_pow in B. apply Nat.eqb_eq in B. subst ii. rewrite Ss, Nat.eqb_refl in E2. now injection E2.
Qed.
(* sending *)
Lemma rel_send : forall fl env st sets fs v g st', Rel fl (env, st) (sets, fs) -> acts (bit (env v)) g st st' -> (forall s, 0 <= fst s -> 0 <= fst (g s)) ->
  Rel fl (env, st') (sets, fun f => if sets v f then g (fs f) else fs f).
Proof.
  intros fl env st sets fs v g st' (A1 & (n & Hn & A2) & A3 & A4 & A5 & A6 & A7 & A8 & A9 & A10) A Hg. pose proof A as (B1 & B2 & B3 & B4).
  split; [|split; [|split; [|split; [|split; [|split; [|split; [|split; [|split]]]]]]]].
  - now apply (acts_inj _ _ _ _ A).
  - exists n. split; [assumption|]. intros ii. now rewrite B1.
  - intros ii f. rewrite B1. apply A3.
  - assumption.
  - intros w. now apply (acts_usable _ _ _ _ _ A).
  - intros w f. rewrite A6. split; intros (ii & E & B); exists ii; rewrite B1 in *; auto.
  - intros ii f E. rewrite B1 in E. rewrite (B2 ii f E), (A7 ii f E).
    assert (X : sets v f = bit (env v) ii).
    { destruct (bit (env v) ii) eqn:Eb; [apply A6; now exists ii|]. apply not_true_iff_false. intros X. apply A6 in X. destruct X as (jj & Ej & Bj). assert (jj = ii) by now apply (A1 jj ii f). subst jj. congruence. }
    rewrite X. destruct (bit (env v) ii); reflexivity.
  - intros f Hf. assert (Hf' : forall ii, stream st ii <> Some f) by (intros ii; rewrite <- B1; apply Hf).
    replace (sets v f) with false; [rewrite B4 by assumption; now apply A8|]. symmetry. apply not_true_iff_false. intros X. apply A6 in X. destruct X as (jj & Ej & _). now apply (Hf' jj).
  - intros ii. destruct (stream st ii) as [f|] eqn:E; [|rewrite B3 by assumption; apply A9]. specialize (B2 ii f E). replace (cpos st' ii) with (fst (cpos st' ii, out st' f)) by reflexivity. rewrite B2. destruct (bit (env v) ii); [apply Hg|]; apply A9.
  - intros ii E. rewrite B1 in E. rewrite B3 by assumption. now apply A10.
Qed.
Lemma fold_col : forall l s, 0 <= fst s -> 0 <= fst (fold_left (fun s c => fput c s) l s).
Proof. induction l as [|c l IH]; intros s H; [assumption|]. cbn [fold_left]. apply IH. now apply fput_col. Qed.
Lemma fputs_col : forall w t s, 0 <= fst s -> 0 <= fst (fputs w t s).
Proof. intros w t s H. unfold fputs. apply fold_col. unfold fbreak. destruct (_ && _); [|assumption]. now repeat apply fput_col. Qed.
Lemma ftab_col : forall n s, 0 <= fst s -> 0 <= fst (ftab n s).
Proof. intros n s H. unfold ftab. set (s1 := if fst s >? n then fput LF s else s). assert (H1 : 0 <= fst s1) by (unfold s1; destruct (fst s >? n); [now apply fput_col|assumption]).
  induction (Z.to_nat (n - fst s1)) as [|q IH]; [assumption|]. cbn [Nat.iter nat_rect]. now apply fput_col. Qed.

Lemma rel_step : forall width fl o c a, (length fl <= 30)%nat -> Rel fl c a -> fits fl o -> exists c', step width o c = Some c' /\ Rel fl c' (spec width o a).
Proof.
  intros width fl o [env st] [sets fs] L R F. pose proof R as (A1 & _ & _ & A4 & A5 & A6 & _ & _ & A9 & _).
  destruct o as [v f|v w|v w|v w|v f|v f|u v w|u v w|v c|v s|v n]; cbn [step spec fits] in *.
  - destruct (rel_handle fl env st sets fs f L R F) as (m & st' & E & R' & P & U & S). rewrite E. cbn [bind]. eexists. split; [reflexivity|]. now apply rel_store.
  - eexists. split; [reflexivity|]. apply rel_store; auto.
  - eexists. split; [reflexivity|]. apply rel_store; auto using nonneg_attach, usable_attach. now apply stands_attach.
  - eexists. split; [reflexivity|]. apply rel_store; auto using nonneg_detach, usable_detach. now apply stands_detach.
  - destruct (rel_handle fl env st sets fs f L R F) as (m & st' & E & R' & P & U & S). rewrite E. cbn [bind]. eexists. split; [reflexivity|].
    pose proof R' as (_ & _ & _ & _ & B5 & B6 & _). apply rel_store; auto using nonneg_attach, usable_attach. apply stands_attach; [intros g; apply B6|assumption].
  - destruct (rel_handle fl env st sets fs f L R F) as (m & st' & E & R' & P & U & S). rewrite E. cbn [bind]. eexists. split; [reflexivity|].
    pose proof R' as (B1 & _ & _ & _ & B5 & B6 & _). apply rel_store; auto using nonneg_detach, usable_detach. apply stands_detach; [assumption|intros g; apply B6|assumption].
  - eexists. split; [reflexivity|]. apply rel_store; auto using nonneg_attach, usable_attach. now apply stands_attach.
  - eexists. split; [reflexivity|]. apply rel_store; auto using nonneg_detach, usable_detach. now apply stands_detach.
  - destruct (put_acts (env v) c st F A1 (A5 v)) as (st' & E & A). rewrite E. cbn [bind]. eexists. split; [reflexivity|]. apply (rel_send fl env st sets fs v (fput c) st' R A). apply fput_col.
  - destruct (puts_acts width (env v) s st F A1 (A5 v)) as (st' & E & A). rewrite E. cbn [bind]. eexists. split; [reflexivity|]. apply (rel_send fl env st sets fs v (fputs width s) st' R A). apply fputs_col.
  - destruct (tab_acts (env v) n st F A9 A1 (A5 v)) as (st' & E & A). rewrite E. cbn [bind]. eexists. split; [reflexivity|]. apply (rel_send fl env st sets fs v (ftab n) st' R A). apply ftab_col.
Qed.
Definition c_start : (nat -> Z) * io := (fun _ => 0, io_start).
Definition a_start : (nat -> nat -> bool) * (nat -> fstate) := (fun _ _ => false, fun _ => (0, [])).
Lemma rel_start : forall fl, Rel fl c_start a_start.
Proof.
  intros fl. cbn. split; [intros i j f E; discriminate|]. split; [exists 0%nat; split; [lia|]; intros ii; split; [intros X; now contradiction X|lia]|].
  split; [discriminate|]. split; [lia|]. split; [intros v ii B; unfold bit in B; rewrite Z.bits_0 in B; discriminate|].
  split; [intros v f; split; [discriminate|intros (ii & E & _); discriminate]|]. repeat split; try discriminate; lia.
Qed.

(* ---- theorems ---- *)
(* Any program of stream statements over at most 30 files runs without fault, and every file ends up
   with exactly the text that it would get if stream variables were sets of files and each file were
   written on its own: union for attach and +, difference for detach and -, one copy per file. *)
Theorem C46_streams_are_sets : forall width fl ops, (length fl <= 30)%nat -> Forall (fits fl) ops ->
  exists env st, foldM (step width) ops c_start = Some (env, st) /\
    let (sets, fs) := fold_left (fun a o => spec width o a) ops a_start in
    (forall f, out st f = snd (fs f)) /\
    (forall v f, sets v f = true <-> exists ii, stream st ii = Some f /\ bit (env v) ii = true) /\
    (forall i j f, stream st i = Some f -> stream st j = Some f -> i = j).
Proof.
  intros width fl ops L F.
  assert (G : forall c a, Rel fl c a -> exists c', foldM (step width) ops c = Some c' /\ Rel fl c' (fold_left (fun a o => spec width o a) ops a)).
  { induction F as [|o ops Fo F IH]; intros c a R; cbn [foldM fold_left]; [now exists c|]. destruct (rel_step width fl o c a L R Fo) as (c' & E & R'). rewrite E. cbn [bind]. now apply IH. }
  destruct (G c_start a_start (rel_start fl)) as ([env st] & E & R). exists env, st. split; [assumption|]. destruct (fold_left _ ops a_start) as [sets fs]. destruct R as (A1 & (n & Hn & A2) & _ & _ & _ & A6 & A7 & A8 & _).
  split; [|split; assumption]. intros f.
  destruct (existsb (fun ii => match stream st ii with Some g => Nat.eqb g f | None => false end) (seq 0 32)) eqn:X.
  - apply existsb_exists in X. destruct X as (ii & _ & X). destruct (stream st ii) as [g|] eqn:Eg; [|discriminate]. apply Nat.eqb_eq in X. subst g. now rewrite (A7 ii f Eg).
  - rewrite A8; [reflexivity|]. intros ii E2. assert (1 <= ii <= n)%nat by (apply A2; congruence). apply not_true_iff_false in X. apply X. apply existsb_exists. exists ii. split; [apply in_seq; lia|]. rewrite E2. apply Nat.eqb_refl.
Qed.
Print Assumptions C46_streams_are_sets.

(* the 31st file needs the sign bit of an int *)
Theorem C46_thirty_one_files_refuted : exists ops, Forall (fits (seq 0 31)) ops /\ foldM (step 80) ops c_start = None.
Proof.
  exists (map (Attach_file 0) (seq 0 31)). split; [|vm_compute; reflexivity].
  apply Forall_forall. intros o H. apply in_map_iff in H. destruct H as (f & <- & Hf). exact Hf.
Qed.
Print Assumptions C46_thirty_one_files_refuted.
(* with packing, the second of two spaces is dropped even if the first went to another file: file 1
   never gets its space *)
Theorem C46_pack_mixes_files_refuted : exists st st1 st2 st3, handle 0 io_start = Some (2, st) /\ (exists s', handle 1 st = Some (4, s') /\ st1 = s') /\
  put 2 true SP st1 = Some st2 /\ put 4 true SP st2 = Some st3 /\ out st3 0%nat = [SP] /\ out st3 1%nat = [].
Proof. do 4 eexists. split; [reflexivity|]. split; [eexists; split; reflexivity|]. split; [reflexivity|]. split; [reflexivity|]. split; reflexivity. Qed.
Print Assumptions C46_pack_mixes_files_refuted.
(* after a backspace at column 0 of file 0 alone, a carriage return to both files is kept from file 1 *)
Theorem C46_carriage_return_refuted : exists env st, foldM (step 80) [Attach_file 0 0; Attach_file 1 1; Put 0 BS; Attach 0 1; Put 0 CR] c_start = Some (env, st) /\
  out st 0%nat = [BS] /\ out st 1%nat = [].
Proof. do 2 eexists. split; [vm_compute; reflexivity|]. split; reflexivity. Qed.
Print Assumptions C46_carriage_return_refuted.

(* four stream statements over two files *)
Definition demo := [Attach_file 0 7; Attach_file 1 9; Plus 2 0 1; Puts 2 (str "v(1)="); Minus 2 2 0; Puts 2 (str "3.5"); Tab 0 8; Put 0 "|"%char].
Example C46_case : Forall (fits [7; 9]%nat) demo /\
  (let* (_, st) := foldM (step 80) demo c_start in Some (out st 7%nat, out st 9%nat)) = Some (str "v(1)=   |", str "v(1)=3.5").
Proof. split; [|vm_compute; reflexivity]. unfold demo. repeat apply Forall_cons; try apply Forall_nil; cbn; auto; try lia; try discriminate; repeat apply Forall_cons; try apply Forall_nil; discriminate. Qed.

(* ---- C49: what one file gets ---- *)
(* received is the text with only continuation breaks put in *)
Inductive with_breaks : list ascii -> list ascii -> Prop :=
| wb_nil : with_breaks [] []
| wb_char : forall t r c, with_breaks t r -> with_breaks (t ++ [c]) (r ++ [c])
| wb_break : forall t r, with_breaks t r -> with_breaks t (r ++ [LF; "+"%char]).
Definition shown (c : ascii) : ascii := if Ascii.eqb c TAB then SP else c.
(* the text of a string: a final '@' is a layout mark *)
Definition text_of (s : list ascii) : list ascii :=
  match rev s with "@"%char :: r => rev r | _ => s end.
Lemma sent_text : forall s, sent s = text_of s.
Proof.
  intros s. unfold text_of. destruct (rev s) as [|c r] eqn:E.
  - apply (f_equal (@rev ascii)) in E. rewrite rev_involutive in E. subst s. reflexivity.
  - apply (f_equal (@rev ascii)) in E. rewrite rev_involutive in E. cbn [rev] in E. subst s.
    assert (G : forall l, sent (l ++ [c]) = if Ascii.eqb c "@" then l else l ++ [c]).
    { induction l as [|x l IH]; [cbn; now destruct (Ascii.eqb c "@")|]. cbn [app sent]. destruct (l ++ [c]) as [|y l'] eqn:El; [destruct l; discriminate|]. rewrite IH. now destruct (Ascii.eqb c "@"). }
    rewrite G. destruct (Ascii.eqb_spec c "@") as [->|N]; [reflexivity|].
    destruct c as [[] [] [] [] [] [] [] []]; try reflexivity; now contradiction N.
Qed.
Lemma fput_txt : forall c s, snd (fput c s) = snd s ++ [shown c].
Proof. intros c [col t]. unfold fput, shown. destruct (Ascii.eqb c TAB), (Ascii.eqb c BS), (Ascii.eqb c LF); reflexivity. Qed.
Lemma fold_txt : forall l s t, with_breaks t (snd s) -> with_breaks (t ++ map shown l) (snd (fold_left (fun s c => fput c s) l s)).
Proof.
  induction l as [|c l IH]; intros s t H; [now rewrite app_nil_r|]. cbn [fold_left map]. replace (t ++ shown c :: map shown l) with ((t ++ [shown c]) ++ map shown l) by now rewrite <- app_assoc.
  apply IH. rewrite fput_txt. now constructor.
Qed.
(* whatever the width and the sequence of strings: nothing is lost, changed or added but breaks *)
Lemma text_kept : forall width strings,
  with_breaks (concat (map (fun s => map shown (text_of s)) strings)) (snd (fold_left (fun a s => fputs width s a) strings (0, []))).
Proof.
  intros width strings.
  assert (G : forall l a t, with_breaks t (snd a) -> with_breaks (t ++ concat (map (fun s => map shown (text_of s)) l)) (snd (fold_left (fun a s => fputs width s a) l a))).
  { induction l as [|s l IH]; intros a t H; cbn [map concat fold_left]; [now rewrite app_nil_r|]. rewrite app_assoc. apply IH. unfold fputs. rewrite <- sent_text. apply fold_txt.
    unfold fbreak. destruct (_ && _); [|assumption]. rewrite !fput_txt, <- app_assoc. now apply wb_break. }
  apply (G strings (0, []) []). constructor.
Qed.

(* lines of a text *)
Fixpoint longest (cur best : Z) (t : list ascii) : Z :=
  match t with
  | [] => Z.max cur best
  | c :: t' => if Ascii.eqb c LF then longest 0 (Z.max cur best) t' else longest (cur + 1) best t'
  end.
Definition last_line (t : list ascii) : Z := fold_left (fun n c => if Ascii.eqb c LF then 0 else n + 1) t 0.
Lemma longest_snoc : forall t c cur best, longest cur best (t ++ [c]) =
  Z.max (longest cur best t) (if Ascii.eqb c LF then 0 else fold_left (fun n c => if Ascii.eqb c LF then 0 else n + 1) t cur + 1).
Proof.
  induction t as [|x t IH]; intros c cur best; cbn [app longest fold_left].
  - destruct (Ascii.eqb c LF); cbn [longest]; lia.
  - destruct (Ascii.eqb x LF); rewrite IH; reflexivity.
Qed.
Lemma last_snoc : forall t c, last_line (t ++ [c]) = if Ascii.eqb c LF then 0 else last_line t + 1.
Proof. intros t c. unfold last_line. now rewrite fold_left_app. Qed.
Lemma last_nonneg : forall t, 0 <= last_line t.
Proof. intros t. induction t as [|c t IH] using rev_ind; [unfold last_line; cbn; lia|]. rewrite last_snoc. destruct (Ascii.eqb c LF); lia. Qed.
Definition plain (c : ascii) : Prop := c <> TAB /\ c <> BS /\ c <> LF /\ c <> CR.
(* a string without control characters, possibly ending its line *)
Definition item (s : list ascii) : Prop := exists b, Forall plain b /\ (s = b \/ s = b ++ [LF]).
(* the column is kept and lines stay within b *)
Definition Lay (b : Z) (a : fstate) : Prop := fst a = last_line (snd a) /\ fst a <= b /\ longest 0 0 (snd a) <= b.
Lemma lay_put : forall b c a, plain c -> Lay b a -> fst a + 1 <= b -> b < 2 ^ 64 -> Lay b (fput c a) /\ fst (fput c a) = fst a + 1.
Proof.
  intros b c [col t] (P1 & P2 & P3 & P4) (H1 & H2 & H3) H4 H5. cbn [fst snd] in *. pose proof (last_nonneg t).
  unfold fput. apply Ascii.eqb_neq in P1, P2, P3. rewrite P1, P2, P3.
  assert (W : wrap (col + 1) = col + 1) by (unfold wrap; apply Z.mod_small; lia). rewrite W. split; [|reflexivity].
  split; [cbn [fst snd]; rewrite last_snoc, P3; lia|]. split; [cbn [fst]; lia|]. cbn [snd]. rewrite longest_snoc, P3. fold (last_line t). lia.
Qed.
Lemma lay_lf : forall b a, Lay b a -> Lay b (fput LF a) /\ fst (fput LF a) = 0.
Proof.
  intros b [col t] (H1 & H2 & H3). cbn [fst snd] in *. pose proof (last_nonneg t). unfold fput. cbn [Ascii.eqb]. replace (Ascii.eqb LF TAB) with false by reflexivity. replace (Ascii.eqb LF BS) with false by reflexivity. replace (Ascii.eqb LF LF) with true by reflexivity.
  split; [|reflexivity]. split; [cbn [fst snd]; now rewrite last_snoc|]. split; [cbn [fst]; lia|]. cbn [snd]. rewrite longest_snoc. replace (Ascii.eqb LF LF) with true by reflexivity. lia.
Qed.
Lemma lay_puts : forall b l a, Forall plain l -> Lay b a -> fst a + Z.of_nat (length l) <= b -> b < 2 ^ 64 -> Lay b (fold_left (fun s c => fput c s) l a) /\ fst (fold_left (fun s c => fput c s) l a) = fst a + Z.of_nat (length l).
Proof.
  intros b l. induction l as [|c l IH]; intros a F H L B; cbn [fold_left length] in *; [split; [assumption|lia]|].
  apply Forall_cons_iff in F. destruct F as [Fc F]. destruct (lay_put b c a Fc H ltac:(lia) B) as [H1 E1]. destruct (IH (fput c a) F H1 ltac:(lia) B) as [H2 E2]. split; [assumption|lia].
Qed.
Lemma room_ge : forall s, Z.of_nat (length s) <= room s <= Z.of_nat (length s) + 16.
Proof. intros s. unfold room. destruct (rev s) as [|c r]; [lia|]. destruct (Ascii.eqb c "@"), (Ascii.eqb c "="), (Ascii.eqb c "("); lia. Qed.
Lemma item_sent : forall s, item s -> exists b, Forall plain b /\ (length b <= length s)%nat /\ (sent s = b \/ sent s = b ++ [LF]).
Proof.
  intros s (b & F & [-> | -> ]).
  - exists (sent b). assert (G : Forall plain (sent b) /\ (length (sent b) <= length b)%nat).
    { clear -F. induction F as [|c l H F IH]; [split; [constructor|cbn; lia]|]. cbn [sent]. destruct l as [|c2 l]; [destruct (Ascii.eqb c "@"); split; cbn; auto; lia|]. destruct IH as [I1 I2]. split; [now constructor|]. cbn [length] in *. lia. }
    destruct G as [G1 G2]. split; [assumption|]. split; [assumption|now left].
  - exists b. split; [assumption|]. split; [rewrite app_length; lia|]. right. clear F. induction b as [|x b IH]; [reflexivity|]. cbn [app sent]. destruct (b ++ [LF]) as [|y l] eqn:E; [destruct b; discriminate|]. now rewrite IH.
Qed.
(* no line reaches the width, except for a single string that does not fit on a line by itself *)
Lemma lines_fit : forall width longest_item strings, 1 <= width < 2 ^ 63 -> 0 <= longest_item < 2 ^ 62 ->
  Forall (fun s => item s /\ Z.of_nat (length s) <= longest_item) strings ->
  longest 0 0 (snd (fold_left (fun a s => fputs width s a) strings (0, []))) <= Z.max (width - 1) (1 + longest_item).
Proof.
  intros width k strings Hw Hk F. set (b := Z.max (width - 1) (1 + k)). assert (B : b < 2 ^ 63) by lia.
  assert (G : forall l a, Forall (fun s => item s /\ Z.of_nat (length s) <= k) l -> Lay b a -> Lay b (fold_left (fun a s => fputs width s a) l a)).
  { induction l as [|s l IH]; intros a Fl H; [assumption|]. apply Forall_cons_iff in Fl. destruct Fl as [[Fi Fk] Fl]. cbn [fold_left]. apply IH; [assumption|].
    unfold fputs. set (a1 := fbreak width (room s) a). destruct (item_sent s Fi) as (bs & Fb & Lb & Es). pose proof (room_ge s) as Rg.
    assert (H1 : Lay b a1 /\ fst a1 + Z.of_nat (length s) <= b).
    { unfold a1, fbreak. pose proof H as (C1 & C2 & C3). pose proof (last_nonneg (snd a)).
      assert (W : wrap (room s + fst a) = room s + fst a) by (unfold wrap; apply Z.mod_small; lia). rewrite W.
      destruct ((room s + fst a >=? width) && negb (fst a =? 0)) eqn:C.
      - destruct (lay_lf b a H) as [H1 E1]. destruct (lay_put b "+" (fput LF a)) as [H2 E2]; [repeat split; discriminate|assumption|lia|lia|]. split; [assumption|lia].
      - split; [assumption|]. lia. }
    destruct H1 as [H1 L1]. destruct (lay_puts b bs a1 Fb H1 ltac:(lia) ltac:(lia)) as [H2 E2]. destruct Es as [->| ->]; [assumption|]. rewrite fold_left_app. cbn [fold_left]. now apply lay_lf. }
  apply (G strings (0, []) F). split; [reflexivity|]. split; cbn; lia.
Qed.
(* a program that sends strings to one file *)
Lemma one_file : forall width f strings, Forall (Forall (fun c => c <> CR)) strings ->
  exists env st, foldM (step width) (Attach_file 0 f :: map (Puts 0) strings) c_start = Some (env, st) /\ out st f = snd (fold_left (fun a s => fputs width s a) strings (0, [])).
Proof.
  intros width f strings F. destruct (C46_streams_are_sets width [f] (Attach_file 0 f :: map (Puts 0) strings)) as (env & st & E & H); [cbn; lia|apply Forall_cons; [cbn; now left|]; clear -F; induction F; constructor; assumption|].
  exists env, st. split; [exact E|]. cbn [fold_left] in H. 
  assert (G : forall l a, fst a 0%nat f = true -> let r := fold_left (fun a o => spec width o a) (map (Puts 0) l) a in snd r f = fold_left (fun a s => fputs width s a) l (snd a f)).
  { induction l as [|s l IH]; intros [sets fs] Ha; [reflexivity|]. cbn [fst snd] in *. cbn [map fold_left]. cbv zeta in IH |- *. rewrite IH by exact Ha. cbn [spec snd]. now rewrite Ha. }
  specialize (G strings (spec width (Attach_file 0 f) a_start)). cbv zeta in G. destruct (fold_left _ (map (Puts 0) strings) _) as [sets fs]. destruct H as [H _]. rewrite H. cbn [snd] in G. rewrite G; [reflexivity|].
  cbn. unfold setf. cbn. apply Nat.eqb_refl.
Qed.
Theorem C49_text_kept : forall width f strings, Forall (Forall (fun c => c <> CR)) strings ->
  exists env st, foldM (step width) (Attach_file 0 f :: map (Puts 0) strings) c_start = Some (env, st) /\
    with_breaks (concat (map (fun s => map shown (text_of s)) strings)) (out st f).
Proof. intros width f strings F. destruct (one_file width f strings F) as (env & st & E & Eo). exists env, st. split; [exact E|rewrite Eo; apply text_kept]. Qed.
Print Assumptions C49_text_kept.
Theorem C49_lines_fit : forall width longest_item f strings, 1 <= width < 2 ^ 63 -> 0 <= longest_item < 2 ^ 62 ->
  Forall (fun s => item s /\ Z.of_nat (length s) <= longest_item) strings ->
  exists env st, foldM (step width) (Attach_file 0 f :: map (Puts 0) strings) c_start = Some (env, st) /\
    longest 0 0 (out st f) <= Z.max (width - 1) (1 + longest_item).
Proof.
  intros width k f strings Hw Hk F. destruct (one_file width f strings) as (env & st & E & Eo).
  - eapply Forall_impl; [|exact F]. cbn beta. intros s [(b & Fb & Hb) _].
    assert (X : Forall (fun c => c <> CR) b) by (eapply Forall_impl; [|exact Fb]; intros c (_ & _ & _ & P); exact P).
    destruct Hb as [-> | -> ]; [exact X|]. apply Forall_app. split; [exact X|]. apply Forall_cons; [discriminate|constructor].
  - exists env, st. split; [exact E|]. rewrite Eo. now apply lines_fit.
Qed.
Print Assumptions C49_lines_fit.
(* tabbing reaches the column *)
Theorem C49_tab_column : forall n s, 0 <= n < 2 ^ 64 -> 0 <= fst s -> fst (ftab n s) = n.
Proof.
  intros n s Hn H. unfold ftab. set (s1 := if fst s >? n then fput LF s else s).
  assert (H1 : 0 <= fst s1 <= n) by (unfold s1; destruct (fst s >? n) eqn:E; [destruct s; cbn; lia|lia]).
  assert (G : forall q, Z.of_nat q <= n - fst s1 -> fst (Nat.iter q (fput SP) s1) = fst s1 + Z.of_nat q).
  { induction q as [|q IH]; intros L; [cbn; lia|]. cbn [Nat.iter nat_rect]. specialize (IH ltac:(lia)). change (nat_rect _ _ _ _) with (Nat.iter q (fput SP) s1). destruct (Nat.iter q (fput SP) s1) as [col t]. cbn [fst] in IH. cbn [fput]. replace (Ascii.eqb SP TAB) with false by reflexivity. cbn. unfold wrap. rewrite Z.mod_small; lia. }
  rewrite G; lia.
Qed.
Print Assumptions C49_tab_column.
Example C49_case : snd (fold_left (fun a s => fputs 12 s a) [str "resistor"; str "r="; str "100"] (0, [])) = str "resistor" ++ [LF] ++ str "+r=100" /\
  Forall (fun s => item s /\ Z.of_nat (length s) <= 8) [str "resistor"; str "r="; str "100"].
Proof.
  split; [vm_compute; reflexivity|]. repeat apply Forall_cons; try apply Forall_nil; (split; [|cbn; lia]); eexists; (split; [|left; reflexivity]);
  repeat (apply Forall_cons; [repeat split; discriminate|]); apply Forall_nil.
Qed.
