(* Counting loops with undefined behaviour, and finite sums over integer ranges.
   Not a transcription of any file: shared vocabulary for the models. *)
Require Import ZArith List Lia Bool.
Require Import ZifyBool.
Import ListNotations.
Local Open Scope Z_scope.

(* option is used throughout for "this execution is defined": None stands for undefined
   behaviour or a failed assert. *)
Definition bind {A B} (x : option A) (f : A -> option B) : option B :=
  match x with Some a => f a | None => None end.
Notation "'let*' x ':=' e 'in' k" := (bind e (fun x => k))
  (at level 200, x pattern, e at level 100, k at level 200).

(* n iterations with index i, i+1, ... *)
Fixpoint iter_up {S} (n : nat) (i : Z) (body : Z -> S -> option S) (s : S) : option S :=
  match n with
  | O => Some s
  | Datatypes.S n' => let* s' := body i s in iter_up n' (i + 1) body s'
  end.

(* for (int i = lo; i < hi; ++i) *)
Definition for_up {S} (lo hi : Z) (body : Z -> S -> option S) (s : S) : option S :=
  iter_up (Z.to_nat (hi - lo)) lo body s.

(* n iterations with index i, i-1, ... *)
Fixpoint iter_down {S} (n : nat) (i : Z) (body : Z -> S -> option S) (s : S) : option S :=
  match n with
  | O => Some s
  | Datatypes.S n' => let* s' := body i s in iter_down n' (i - 1) body s'
  end.

(* for (int i = hi; i > lo; --i) *)
Definition for_down {S} (hi lo : Z) (body : Z -> S -> option S) (s : S) : option S :=
  iter_down (Z.to_nat (hi - lo)) hi body s.

Lemma iter_up_ind : forall S (P : Z -> S -> Prop) body n i s,
  P i s ->
  (forall j t, i <= j < i + Z.of_nat n -> P j t -> exists t', body j t = Some t' /\ P (j + 1) t') ->
  exists s', iter_up n i body s = Some s' /\ P (i + Z.of_nat n) s'.
Proof.
  intros S P body n; induction n as [|n IH]; intros i s Hi Hb.
  - exists s. split; [reflexivity|]. now rewrite Z.add_0_r.
  - destruct (Hb i s) as (t & Ht & HP); [lia|assumption|].
    cbn [iter_up]. unfold bind. rewrite Ht.
    destruct (IH (i + 1) t HP) as (s' & Hs' & HPs').
    + intros j u Hj Hu. apply Hb; [lia|assumption].
    + exists s'. split; [assumption|].
      replace (i + Z.of_nat (Datatypes.S n)) with (i + 1 + Z.of_nat n) by lia. assumption.
Qed.

Lemma for_up_ind : forall S (P : Z -> S -> Prop) body lo hi s,
  lo <= hi -> P lo s ->
  (forall j t, lo <= j < hi -> P j t -> exists t', body j t = Some t' /\ P (j + 1) t') ->
  exists s', for_up lo hi body s = Some s' /\ P hi s'.
Proof.
  intros S P body lo hi s Hle H0 Hb.
  unfold for_up.
  destruct (iter_up_ind S P body (Z.to_nat (hi - lo)) lo s H0) as (s' & E & HP).
  - intros j t Hj. apply Hb. lia.
  - exists s'. split; [assumption|].
    rewrite Z2Nat.id in HP by lia. now replace (lo + (hi - lo)) with hi in HP by lia.
Qed.

Lemma for_up_empty : forall S lo hi (body : Z -> S -> option S) s,
  hi <= lo -> for_up lo hi body s = Some s.
Proof.
  intros. unfold for_up. replace (Z.to_nat (hi - lo)) with O by lia. reflexivity.
Qed.

Lemma iter_down_ind : forall S (P : Z -> S -> Prop) body n i s,
  P i s ->
  (forall j t, i - Z.of_nat n < j <= i -> P j t -> exists t', body j t = Some t' /\ P (j - 1) t') ->
  exists s', iter_down n i body s = Some s' /\ P (i - Z.of_nat n) s'.
Proof.
  intros S P body n; induction n as [|n IH]; intros i s Hi Hb.
  - exists s. split; [reflexivity|]. now rewrite Z.sub_0_r.
  - destruct (Hb i s) as (t & Ht & HP); [lia|assumption|].
    cbn [iter_down]. unfold bind. rewrite Ht.
    destruct (IH (i - 1) t HP) as (s' & Hs' & HPs').
    + intros j u Hj Hu. apply Hb; [lia|assumption].
    + exists s'. split; [assumption|].
      replace (i - Z.of_nat (Datatypes.S n)) with (i - 1 - Z.of_nat n) by lia. assumption.
Qed.

Lemma for_down_ind : forall S (P : Z -> S -> Prop) body hi lo s,
  lo <= hi -> P hi s ->
  (forall j t, lo < j <= hi -> P j t -> exists t', body j t = Some t' /\ P (j - 1) t') ->
  exists s', for_down hi lo body s = Some s' /\ P lo s'.
Proof.
  intros S P body hi lo s Hle H0 Hb.
  unfold for_down.
  destruct (iter_down_ind S P body (Z.to_nat (hi - lo)) hi s H0) as (s' & E & HP).
  - intros j t Hj. apply Hb. lia.
  - exists s'. split; [assumption|].
    rewrite Z2Nat.id in HP by lia. now replace (hi - (hi - lo)) with lo in HP by lia.
Qed.

Lemma for_down_empty : forall S lo hi (body : Z -> S -> option S) s,
  hi <= lo -> for_down hi lo body s = Some s.
Proof.
  intros. unfold for_down. replace (Z.to_nat (hi - lo)) with O by lia. reflexivity.
Qed.

(* monadic left fold *)
Fixpoint foldM {A S} (f : A -> S -> option S) (l : list A) (s : S) : option S :=
  match l with
  | [] => Some s
  | a :: l' => let* s' := f a s in foldM f l' s'
  end.

Lemma foldM_ind : forall A S (P : list A -> S -> Prop) f l s,
  P [] s ->
  (forall done a t, In a l -> P done t -> exists t', f a t = Some t' /\ P (done ++ [a]) t') ->
  exists s', foldM f l s = Some s' /\ P l s'.
Proof.
  intros A S P f l.
  assert (G : forall l' done s, incl l' l -> P done s ->
     (forall done a t, In a l -> P done t -> exists t', f a t = Some t' /\ P (done ++ [a]) t') ->
     exists s', foldM f l' s = Some s' /\ P (done ++ l') s').
  { induction l' as [|a l' IH]; intros done s Hin HP Hstep.
    - exists s. rewrite app_nil_r. now split.
    - destruct (Hstep done a s) as (t & E & HP'); [apply Hin; now left|assumption|].
      cbn [foldM]. unfold bind. rewrite E.
      destruct (IH (done ++ [a]) t) as (s' & E' & HP''); [|assumption|assumption|].
      + intros x Hx. apply Hin. now right.
      + exists s'. split; [assumption|]. now rewrite <- app_assoc in HP''. }
  intros s H0 Hs. destruct (G l [] s (incl_refl l) H0 Hs) as (s' & E & HP).
  exists s'. now split.
Qed.

(* pointwise update of a total map *)
Definition upd {V} (f : Z -> V) (a : Z) (v : V) : Z -> V :=
  fun x => if x =? a then v else f x.
Lemma upd_same : forall V (f : Z -> V) a v, upd f a v a = v.
Proof. intros. unfold upd. now rewrite Z.eqb_refl. Qed.
Lemma upd_other : forall V (f : Z -> V) a v x, x <> a -> upd f a v x = f x.
Proof. intros. unfold upd. destruct (Z.eqb_spec x a); congruence. Qed.

(* integer sums: zsum lo n f = f lo + f (lo+1) + ... (n terms) *)
Fixpoint zsumn (n : nat) (lo : Z) (f : Z -> Z) : Z :=
  match n with O => 0 | S n' => f lo + zsumn n' (lo + 1) f end.
(* sum over lo <= k < hi *)
Definition zsum (lo hi : Z) (f : Z -> Z) : Z := zsumn (Z.to_nat (hi - lo)) lo f.

Lemma zsumn_snoc : forall n lo f, zsumn (S n) lo f = zsumn n lo f + f (lo + Z.of_nat n).
Proof.
  induction n as [|n IH]; intros lo f.
  - cbn. replace (lo + 0) with lo by lia. lia.
  - change (zsumn (S (S n)) lo f) with (f lo + zsumn (S n) (lo + 1) f).
    rewrite IH. cbn [zsumn]. replace (lo + 1 + Z.of_nat n) with (lo + Z.of_nat (S n)) by lia. lia.
Qed.

Lemma zsum_empty : forall lo hi f, hi <= lo -> zsum lo hi f = 0.
Proof. intros. unfold zsum. replace (Z.to_nat (hi - lo)) with O by lia. reflexivity. Qed.

Lemma zsum_snoc : forall lo hi f, lo <= hi -> zsum lo (hi + 1) f = zsum lo hi f + f hi.
Proof.
  intros. unfold zsum. replace (Z.to_nat (hi + 1 - lo)) with (S (Z.to_nat (hi - lo))) by lia.
  rewrite zsumn_snoc. now replace (lo + Z.of_nat (Z.to_nat (hi - lo))) with hi by lia.
Qed.

Lemma zsum_mono : forall lo a b f, lo <= a <= b -> (forall i, lo <= i < b -> 0 <= f i) ->
  zsum lo a f <= zsum lo b f.
Proof.
  intros lo a b f H Hf.
  assert (G : forall n, zsum lo a f <= zsum lo (a + Z.of_nat n) f \/ b < a + Z.of_nat n).
  { induction n as [|n IH].
    - left. rewrite Z.add_0_r. lia.
    - destruct IH as [IH|IH]; [|right; lia].
      destruct (Z_lt_le_dec (a + Z.of_nat n) b) as [L|L]; [left|right; lia].
      replace (a + Z.of_nat (S n)) with (a + Z.of_nat n + 1) by lia.
      rewrite zsum_snoc by lia. specialize (Hf (a + Z.of_nat n)). lia. }
  destruct (G (Z.to_nat (b - a))) as [L|L].
  - now replace (a + Z.of_nat (Z.to_nat (b - a))) with b in L by lia.
  - lia.
Qed.

Lemma Z_range_ind : forall (P : Z -> Prop) lo hi, lo <= hi -> P lo ->
  (forall i, lo <= i < hi -> P i -> P (i + 1)) -> P hi.
Proof.
  intros P lo hi H H0 Hs.
  assert (G : forall n, lo + Z.of_nat n <= hi -> P (lo + Z.of_nat n)).
  { induction n as [|n IH]; intros Hn.
    - now rewrite Z.add_0_r.
    - replace (lo + Z.of_nat (S n)) with (lo + Z.of_nat n + 1) by lia. apply Hs; [lia|]. apply IH. lia. }
  specialize (G (Z.to_nat (hi - lo))).
  replace (lo + Z.of_nat (Z.to_nat (hi - lo))) with hi in G by lia. apply G. lia.
Qed.

(* total counting fold: f (hi-1) (... (f lo s)) *)
Fixpoint foldn {S} (n : nat) (i : Z) (f : Z -> S -> S) (s : S) : S :=
  match n with O => s | Datatypes.S n' => foldn n' (i + 1) f (f i s) end.
Definition foldZ {S} (lo hi : Z) (f : Z -> S -> S) (s : S) : S := foldn (Z.to_nat (hi - lo)) lo f s.

Lemma foldn_snoc : forall S n i (f : Z -> S -> S) s,
  foldn (Datatypes.S n) i f s = f (i + Z.of_nat n) (foldn n i f s).
Proof.
  induction n as [|n IH]; intros i f s.
  - cbn. now rewrite Z.add_0_r.
  - change (foldn (Datatypes.S (Datatypes.S n)) i f s) with (foldn (Datatypes.S n) (i + 1) f (f i s)).
    rewrite IH. cbn [foldn]. f_equal. lia.
Qed.
Lemma foldZ_empty : forall S lo hi (f : Z -> S -> S) s, hi <= lo -> foldZ lo hi f s = s.
Proof. intros. unfold foldZ. replace (Z.to_nat (hi - lo)) with O by lia. reflexivity. Qed.
Lemma foldZ_snoc : forall S lo hi (f : Z -> S -> S) s, lo <= hi ->
  foldZ lo (hi + 1) f s = f hi (foldZ lo hi f s).
Proof.
  intros. unfold foldZ. replace (Z.to_nat (hi + 1 - lo)) with (Datatypes.S (Z.to_nat (hi - lo))) by lia.
  rewrite foldn_snoc. f_equal. lia.
Qed.
Lemma foldn_ext : forall S n i (f g : Z -> S -> S) s,
  (forall k t, i <= k < i + Z.of_nat n -> f k t = g k t) -> foldn n i f s = foldn n i g s.
Proof.
  induction n as [|n IH]; intros i f g s H; [reflexivity|]. cbn.
  rewrite (H i s) by lia. apply IH. intros; apply H; lia.
Qed.
Lemma foldZ_ext : forall S lo hi (f g : Z -> S -> S) s,
  (forall k t, lo <= k < hi -> f k t = g k t) -> foldZ lo hi f s = foldZ lo hi g s.
Proof. intros. unfold foldZ. apply foldn_ext. intros; apply H; lia. Qed.
(* a loop whose body is always defined is a fold *)
Lemma iter_up_total : forall S n i (b : Z -> S -> option S) f s,
  (forall k t, i <= k < i + Z.of_nat n -> b k t = Some (f k t)) -> iter_up n i b s = Some (foldn n i f s).
Proof.
  induction n as [|n IH]; intros i b f s H; [reflexivity|]. cbn.
  rewrite (H i s) by lia. cbn. apply IH. intros; apply H; lia.
Qed.
Lemma for_up_total : forall S lo hi (b : Z -> S -> option S) f s,
  (forall k t, lo <= k < hi -> b k t = Some (f k t)) -> for_up lo hi b s = Some (foldZ lo hi f s).
Proof. intros. unfold for_up, foldZ. apply iter_up_total. intros; apply H; lia. Qed.
