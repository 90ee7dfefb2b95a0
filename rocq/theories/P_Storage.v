(* C33, C34, C35, C53: integration formulas, step proposals, history, choice of method *)
Require Import ZArith QArith Qpower Qabs Qminmax Lqa Lia List Bool.
Require Import Verif.Qnum Verif.Loops Verif.Poly_Model Verif.P_Poly Verif.Storage_Model.
Import ListNotations.
Local Open Scope Q_scope.

(* ---------- C53: the choice of method ---------- *)

Definition only (m : method_t) : bool := match m with meEULERONLY | meTRAPONLY | meGEAR2ONLY => true | _ => false end.
Definition named (m : method_t) : METHOD :=
  match m with
  | meEULER | meEULERONLY => mEULER | meTRAP | meTRAPONLY => mTRAP | meGEAR2 | meGEAR2ONLY => mGEAR
  | meTRAPGEAR | meUNKNOWN => mTRAPGEAR | meTRAPEULER => mTRAPEULER
  end.

(* a forced method wins over one that is not; otherwise the local choice wins over the option *)
Theorem C53_method_choice : forall opt loc,
  (only loc = true -> method_select opt loc = named loc) /\
  (only loc = false -> only opt = true -> method_select opt loc = named opt) /\
  (only loc = false -> only opt = false -> loc <> meUNKNOWN -> method_select opt loc = named loc) /\
  (loc = meUNKNOWN -> method_select opt loc = named opt).
Proof.
  intros opt loc. destruct opt, loc; repeat split; intros; try discriminate; try reflexivity; congruence.
Qed.

(* ---------- shifting ---------- *)

Lemma shift_spec : forall A n (a : nat -> A) j,
  shift n a j = if Nat.leb 1 j && Nat.leb j n then a (j - 1)%nat else a j.
Proof.
  induction n as [|n IH]; intros a j; cbn [shift].
  - destruct (Nat.leb_spec 1 j), (Nat.leb_spec j 0); cbn; try reflexivity; lia.
  - rewrite IH.
    destruct (Nat.leb_spec 1 j), (Nat.leb_spec j n), (Nat.leb_spec j (S n)); cbn [andb]; try lia;
      destruct (Nat.eqb_spec j (S n)); destruct (Nat.eqb_spec (j - 1) (S n)); try lia; try reflexivity.
    subst. f_equal. lia.
Qed.

Lemma times_ordered_iff : forall n t, times_ordered n t = true <-> (forall i, (i < n)%nat -> t (S i) <= t i).
Proof.
  induction n as [|n IH]; intros t; cbn [times_ordered]; [split; [intros; lia|reflexivity]|].
  rewrite andb_true_iff, IH. split.
  - intros [H1 H2] i Hi. destruct (Nat.eq_dec i n) as [-> |]; [|apply H2; lia].
    destruct (qleb_spec (t (S n)) (t n)); [assumption|discriminate].
  - intros H. split; [|intros; apply H; lia]. destruct (qleb_spec (t (S n)) (t n)) as [|N]; [reflexivity|].
    exfalso. specialize (H n ltac:(lia)). lra.
Qed.

(* ---------- C35 ---------- *)

Section History.
  Variable V : Type.

  (* one attempt: the time, and what solving gives for voltages, state and current *)
  Record attempt := mkA { at_t : Q; at_v : V; at_y : FPOLY1; at_i : FPOLY1 }.
  (* a time step: the attempts that get rejected, then the accepted one *)
  Definition step : Type := list attempt * attempt.

  (* what the simulator does for one attempt *)
  Definition try_one (s : sim V) (a : attempt) : option (sim V) :=
    let* s1 := advance_time (at_t a) s in Some (solved (at_v a) (at_y a) (at_i a) s1).
  Fixpoint tries (s : sim V) (l : list attempt) : option (sim V) :=
    match l with [] => Some s | a :: r => let* s1 := try_one s a in tries s1 r end.
  Definition attempts (l : list step) : list attempt := flat_map (fun p => fst p ++ [snd p]) l.

  (* rejected attempts come back to earlier and earlier times, after the last accepted time *)
  Fixpoint backwards (last : Q) (from : option Q) (l : list attempt) : Prop :=
    match l with
    | [] => True
    | a :: r => last < at_t a /\ match from with Some f => at_t a <= f | None => True end /\
                backwards last (Some (at_t a)) r
    end.
  Fixpoint valid (last : Q) (l : list step) : Prop :=
    match l with
    | [] => True
    | p :: r => backwards last None (fst p ++ [snd p]) /\ valid (at_t (snd p)) r
    end.

  (* the accepted points, newest first *)
  Definition accepted (l : list step) : list attempt := rev (map snd l).

  (* the state at the end of the initial dc solution, at time 0 *)
  Definition at_zero (s : sim V) (a0 : attempt) : Prop :=
    s_last s = 0 /\ s_v0 s = at_v a0 /\ at_t a0 = 0 /\
    forall i, (i < keep)%nat -> e_time (s_el s) i = 0 /\
      e_y (s_el s) i = at_y a0 /\ e_i (s_el s) i = at_i a0.

  (* the arrays hold the points of [h], newest first, the initial one repeated at the end *)
  Definition holds (s : sim V) (h : list attempt) (a0 : attempt) : Prop :=
    forall i, (i < keep)%nat -> e_time (s_el s) i = at_t (nth i h a0) /\
      e_y (s_el s) i = at_y (nth i h a0) /\ e_i (s_el s) i = at_i (nth i h a0).

  Definition desc (h : list attempt) (a0 : attempt) : Prop :=
    forall i, (i < keep - 1)%nat -> at_t (nth (S i) h a0) <= at_t (nth i h a0).

  Lemma holds_ordered : forall s h a0, holds s h a0 -> desc h a0 -> times_ordered (keep - 1) (e_time (s_el s)) = true.
  Proof.
    intros s h a0 H D. apply times_ordered_iff. intros i Hi.
    rewrite (proj1 (H i ltac:(unfold keep in *; lia))), (proj1 (H (S i) ltac:(unfold keep in *; lia))). now apply D.
  Qed.

  Lemma desc_cons : forall a h a0, desc h a0 -> at_t (nth 0 h a0) <= at_t a -> desc (a :: h) a0.
  Proof.
    intros a h a0 D H [|i] Hi; cbn [nth]; [exact H|]. apply D. unfold keep in *; lia.
  Qed.

  (* first attempt of a step *)
  Lemma forward : forall s h a0 a, holds s h a0 -> desc h a0 -> s_last s = at_t (nth 0 h a0) ->
    0 <= s_last s -> s_last s < at_t a ->
    exists s1, advance_time (at_t a) s = Some s1 /\ s_v0 s1 = s_v0 s /\
    exists s', try_one s a = Some s' /\ holds s' (a :: h) a0 /\ s_last s' = at_t a /\
      s_v0 s' = at_v a /\ s_vt1 s' = s_v0 s /\ e_dt (s_el s') = Some (at_t a - s_last s).
  Proof.
    intros s h a0 a H D L P Lt. unfold try_one, advance_time.
    destruct (qltb_spec 0 (at_t a)) as [_|N]; [|lra].
    destruct (qltb_spec (s_last s) (at_t a)) as [_|N]; [|lra].
    unfold tr_advance.
    assert (T0 : e_time (s_el s) 0%nat = s_last s) by (rewrite L; apply (H 0%nat); unfold keep; lia).
    destruct (qltb_spec (e_time (s_el s) 0) (at_t a)) as [_|N]; [|rewrite T0 in N; lra].
    rewrite (holds_ordered s h a0 H D). cbn [andb bind].
    eexists. split; [reflexivity|]. split; [reflexivity|].
    eexists. split; [reflexivity|]. cbn [solved s_last s_v0 s_vt1 s_el e_time e_y e_i e_dt].
    split; [|repeat split; auto].
    - intros i Hi. cbn [solved s_el e_time e_y e_i].
      destruct i as [|i]; [cbn [Nat.eqb nth]; auto|].
      cbn [Nat.eqb nth]. rewrite !shift_spec.
      destruct (Nat.leb_spec 1 (S i)); [|lia]. destruct (Nat.leb_spec (S i) (keep - 1)); [|lia]. cbn [andb].
      replace (S i - 1)%nat with i by lia. apply H. lia.
    - cbn [Nat.eqb]. rewrite shift_spec. cbn [Nat.leb andb keep Nat.sub]. now rewrite T0.
  Qed.

  (* another attempt of the same step *)
  Lemma retry : forall s h a0 b a, holds s (b :: h) a0 -> desc (b :: h) a0 -> s_last s = at_t b ->
    0 <= at_t (nth 0 h a0) -> at_t (nth 0 h a0) < at_t a -> at_t a <= at_t b ->
    exists s1, advance_time (at_t a) s = Some s1 /\ s_v0 s1 = s_vt1 s /\
    exists s', try_one s a = Some s' /\ holds s' (a :: h) a0 /\ s_last s' = at_t a /\
      s_v0 s' = at_v a /\ s_vt1 s' = s_vt1 s /\ e_dt (s_el s') = Some (at_t a - at_t (nth 0 h a0)).
  Proof.
    intros s h a0 b a H D L P Lt Le. unfold try_one, advance_time.
    destruct (qltb_spec 0 (at_t a)) as [_|N]; [|lra].
    destruct (qltb_spec (s_last s) (at_t a)) as [N|_]; [rewrite L in N; lra|].
    unfold tr_regress.
    assert (T0 : e_time (s_el s) 0%nat = at_t b) by (apply (H 0%nat); unfold keep; lia).
    assert (T1 : e_time (s_el s) 1%nat = at_t (nth 0 h a0)) by (apply (H 1%nat); unfold keep; lia).
    destruct (qleb_spec (at_t a) (e_time (s_el s) 0)) as [_|N]; [|rewrite T0 in N; lra].
    destruct (qleb_spec (e_time (s_el s) 1) (at_t a)) as [_|N]; [|rewrite T1 in N; lra].
    rewrite (holds_ordered s _ a0 H D). cbn [andb bind].
    eexists. split; [reflexivity|]. split; [reflexivity|].
    eexists. split; [reflexivity|]. cbn [solved s_last s_v0 s_vt1 s_el e_time e_y e_i e_dt].
    split; [|repeat split; auto].
    - intros i Hi. cbn [solved s_el e_time e_y e_i].
      destruct i as [|i]; [cbn [Nat.eqb nth]; auto|]. cbn [Nat.eqb nth]. apply (H (S i) Hi).
    - cbn [Nat.eqb]. now rewrite T1.
  Qed.

  (* the attempts after the first one of a step *)
  Lemma retries : forall l s h a0 b, holds s (b :: h) a0 -> desc (b :: h) a0 -> s_last s = at_t b -> s_v0 s = at_v b ->
    0 <= at_t (nth 0 h a0) -> backwards (at_t (nth 0 h a0)) (Some (at_t b)) l ->
    exists s', tries s l = Some s' /\ holds s' (last l b :: h) a0 /\ s_last s' = at_t (last l b) /\
      s_v0 s' = at_v (last l b) /\ at_t (nth 0 h a0) <= at_t (last l b).
  Proof.
    induction l as [|a l IH]; intros s h a0 b H D L Lv P B; cbn [tries].
    - exists s. repeat split; auto; try (now apply H). specialize (D 0%nat ltac:(unfold keep; lia)). exact D.
    - cbn [backwards] in B. destruct B as (B1 & B2 & B3).
      destruct (retry s h a0 b a H D L P B1 B2) as (s1 & _ & _ & s' & E & H' & L' & V' & _ & _).
      rewrite E. cbn [bind].
      destruct (IH s' h a0 a) as (s2 & E2 & H2 & L2 & V2 & O2); auto.
      { intros [|i] Hi; cbn [nth]; [lra|]. apply (D (S i) Hi). }
      exists s2. rewrite E2. replace (last (a :: l) b) with (last l a); [auto|].
      clear. revert a b. induction l as [|c l IH]; intros a b; [reflexivity|]. cbn [last] in *.
      destruct l; [reflexivity|]. now rewrite <- (IH c a).
  Qed.

  Lemma tries_app : forall l1 l2 s, tries s (l1 ++ l2) = let* s1 := tries s l1 in tries s1 l2.
  Proof.
    induction l1 as [|a l1 IH]; intros l2 s; cbn [app tries bind]; [reflexivity|].
    destruct (try_one s a); cbn [bind]; auto.
  Qed.

  Lemma last_app1 : forall (l : list attempt) a d, last (l ++ [a]) d = a.
  Proof. induction l as [|b l IH]; intros a d; [reflexivity|]. cbn [app last]. destruct (l ++ [a]) eqn:E; [destruct l; discriminate|]. now rewrite <- E. Qed.

  Lemma one_step : forall p s h a0, holds s h a0 -> desc h a0 -> s_last s = at_t (nth 0 h a0) ->
    0 <= s_last s -> backwards (s_last s) None (fst p ++ [snd p]) ->
    exists s', tries s (fst p ++ [snd p]) = Some s' /\ holds s' (snd p :: h) a0 /\
      s_last s' = at_t (snd p) /\ s_v0 s' = at_v (snd p) /\ s_last s <= at_t (snd p).
  Proof.
    intros [rej acc] s h a0 H D L P B. cbn [fst snd] in *.
    destruct rej as [|a rej].
    - cbn [app backwards] in B. destruct B as (B1 & _ & _).
      destruct (forward s h a0 acc H D L P B1) as (s1 & _ & _ & s' & E & H' & L' & V' & _ & _).
      cbn [app tries]. rewrite E. cbn [bind]. exists s'. repeat split; auto; try (now apply H'). lra.
    - cbn [app backwards] in B. destruct B as (B1 & _ & B3).
      destruct (forward s h a0 a H D L P B1) as (s1 & _ & _ & s' & E & H' & L' & V' & _ & _).
      cbn [app tries]. rewrite E. cbn [bind].
      rewrite L in *.
      destruct (retries (rej ++ [acc]) s' h a0 a) as (s2 & E2 & H2 & L2 & V2 & O2); auto.
      { apply desc_cons; auto. lra. }
      rewrite last_app1 in *. exists s2. auto.
  Qed.

  Lemma attempts_app : forall l1 l2, attempts (l1 ++ l2) = attempts l1 ++ attempts l2.
  Proof. intros. unfold attempts. apply flat_map_app. Qed.

  Lemma run_steps : forall l s h a0, holds s h a0 -> desc h a0 -> s_last s = at_t (nth 0 h a0) ->
    s_v0 s = at_v (nth 0 h a0) -> 0 <= s_last s -> valid (s_last s) l ->
    exists s', tries s (attempts l) = Some s' /\ holds s' (accepted l ++ h) a0 /\ desc (accepted l ++ h) a0 /\
      s_last s' = at_t (nth 0 (accepted l ++ h) a0) /\ s_v0 s' = at_v (nth 0 (accepted l ++ h) a0) /\ 0 <= s_last s'.
  Proof.
    induction l as [|p l IH]; intros s h a0 H D L Lv P Va.
    - exists s. repeat split; auto; now apply H.
    - cbn [valid] in Va. destruct Va as [B Va].
      destruct (one_step p s h a0 H D L P B) as (s1 & E1 & H1 & L1 & V1 & O1).
      assert (D1 : desc (snd p :: h) a0) by (apply desc_cons; auto; rewrite <- L; exact O1).
      assert (P1 : 0 <= s_last s1) by (rewrite L1; lra).
      assert (Va1 : valid (s_last s1) l) by (rewrite L1; exact Va).
      destruct (IH s1 (snd p :: h) a0 H1 D1 L1 V1 P1 Va1) as (s' & E' & H').
      exists s'.
      assert (Q : accepted (p :: l) ++ h = accepted l ++ snd p :: h).
      { unfold accepted. cbn [map rev]. now rewrite <- app_assoc. }
      rewrite Q. split; [|exact H'].
      unfold attempts. cbn [flat_map]. rewrite tries_app, E1. exact E'.
  Qed.

  Lemma nil_history : forall s a0, at_zero s a0 -> holds s [] a0 /\ desc [] a0 /\
    s_last s = at_t (nth 0 [] a0) /\ s_v0 s = at_v (nth 0 [] a0) /\ 0 <= s_last s.
  Proof.
    intros s a0 (L & Lv & T0 & A). assert (Nn : forall i, nth i [] a0 = a0) by (now intros [|i]).
    repeat split; try rewrite Nn; try (rewrite T0); auto; try (now apply A).
    - intros i Hi. rewrite !Nn. lra.
    - rewrite L. lra.
  Qed.

  (* after any number of time steps, each with any number of rejected attempts, the element
     holds exactly the last accepted points *)
  Theorem C35_history : forall s a0 l, at_zero s a0 -> valid 0 l ->
    exists s', tries s (attempts l) = Some s' /\
    (forall i, (i < keep)%nat ->
      e_time (s_el s') i = at_t (nth i (accepted l) a0) /\
      e_y (s_el s') i = at_y (nth i (accepted l) a0) /\
      e_i (s_el s') i = at_i (nth i (accepted l) a0)).
  Proof.
    intros s a0 l Z Va. destruct (nil_history s a0 Z) as (H & D & L & Lv & P).
    assert (L0 : s_last s = 0) by apply Z.
    destruct (run_steps l s [] a0 H D L Lv P) as (s' & E & H' & _); [now rewrite L0|].
    rewrite app_nil_r in H'. exists s'. split; [exact E|]. exact H'.
  Qed.

  (* during a step, at every attempt: the iterations start from the voltages of the last
     accepted point, the arrays hold the new time and then the accepted points, and the step is
     measured from the last accepted time *)
  Theorem C35_attempt : forall s a0 l rej a, at_zero s a0 -> valid 0 l ->
    backwards (at_t (nth 0 (accepted l) a0)) None (rej ++ [a]) ->
    exists s1 s2, tries s (attempts l ++ rej) = Some s1 /\ advance_time (at_t a) s1 = Some s2 /\
      s_v0 s2 = at_v (nth 0 (accepted l) a0) /\
      e_time (s_el s2) 0%nat = at_t a /\ e_dt (s_el s2) = Some (at_t a - at_t (nth 0 (accepted l) a0)) /\
      (forall i, (i < keep - 1)%nat ->
        e_time (s_el s2) (S i) = at_t (nth i (accepted l) a0) /\
        e_y (s_el s2) (S i) = at_y (nth i (accepted l) a0) /\
        e_i (s_el s2) (S i) = at_i (nth i (accepted l) a0)).
  Proof.
    intros s a0 l rej a Z Va B. destruct (nil_history s a0 Z) as (H & D & L & Lv & P).
    assert (L0 : s_last s = 0) by apply Z.
    destruct (run_steps l s [] a0 H D L Lv P) as (s' & E & H' & D' & L' & V' & P'); [now rewrite L0|].
    rewrite app_nil_r in *. rewrite tries_app, E. cbn [bind].
    set (h := accepted l) in *.
    (* the rejected attempts *)
    assert (G : forall rej from, backwards (at_t (nth 0 h a0)) from (rej ++ [a]) ->
      forall s' b, (match from with
        | None => holds s' h a0 /\ s_last s' = at_t (nth 0 h a0) /\ s_v0 s' = at_v (nth 0 h a0)
        | Some f => f = at_t b /\ holds s' (b :: h) a0 /\ desc (b :: h) a0 /\ s_last s' = at_t b /\ s_vt1 s' = at_v (nth 0 h a0)
        end) ->
      exists s1 s2, tries s' rej = Some s1 /\ advance_time (at_t a) s1 = Some s2 /\
        s_v0 s2 = at_v (nth 0 h a0) /\ exists s3, try_one s1 a = Some s3 /\ holds s3 (a :: h) a0 /\
        e_dt (s_el s3) = Some (at_t a - at_t (nth 0 h a0))).
    { clear rej B s' E H' L' V' P'.
      assert (P' : 0 <= at_t (nth 0 h a0)).
      { destruct (run_steps l s [] a0 H D L Lv P) as (s' & _ & _ & _ & L' & _ & P'); [now rewrite L0|].
        rewrite app_nil_r in L'. fold h in L'. rewrite L' in P'. exact P'. }
      induction rej as [|r rej IH]; intros from B s' b S'.
      - cbn [app backwards] in B. destruct B as (B1 & B2 & _). destruct from as [f|].
        + destruct S' as (F & H' & D1 & L' & V'). subst f.
          destruct (retry s' h a0 b a H' D1 L' P' B1 B2) as (s1 & E1 & W1 & s3 & E3 & H3 & _ & _ & _ & T3).
          exists s', s1. cbn [tries]. repeat split; auto; [congruence|]. exists s3. auto.
        + destruct S' as (H' & L' & V').
          destruct (forward s' h a0 a H' D' L' ltac:(rewrite L'; exact P') ltac:(rewrite L'; exact B1))
            as (s1 & E1 & W1 & s3 & E3 & H3 & _ & _ & _ & T3).
          exists s', s1. cbn [tries]. repeat split; auto; [congruence|]. exists s3. rewrite L' in T3. auto.
      - cbn [app backwards] in B. destruct B as (B1 & B2 & B3). cbn [tries]. destruct from as [f|].
        + destruct S' as (F & H' & D1 & L' & V'). subst f.
          destruct (retry s' h a0 b r H' D1 L' P' B1 B2) as (s1 & E1 & W1 & s3 & E3 & H3 & L3 & _ & U3 & T3).
          rewrite E3. cbn [bind]. apply (IH _ B3 s3 r). repeat split; auto; try (now apply H3); [|congruence].
          apply desc_cons; auto; lra.
        + destruct S' as (H' & L' & V').
          destruct (forward s' h a0 r H' D' L' ltac:(rewrite L'; exact P') ltac:(rewrite L'; exact B1))
            as (s1 & E1 & W1 & s3 & E3 & H3 & L3 & _ & U3 & T3).
          rewrite E3. cbn [bind]. apply (IH _ B3 s3 r). repeat split; auto; try (now apply H3); [|congruence].
          apply desc_cons; auto; lra. }
    destruct (G rej None B s' a0 (conj H' (conj L' V'))) as (s1 & s2 & E1 & E2 & W2 & s3 & E3 & H3 & T3).
    exists s1, s2. rewrite E1. repeat split; auto.
    - unfold try_one in E3. rewrite E2 in E3. cbn [bind] in E3. inversion E3; subst s3.
      exact (proj1 (H3 0%nat ltac:(unfold keep; lia))).
    - unfold try_one in E3. rewrite E2 in E3. cbn [bind] in E3. inversion E3; subst s3. exact T3.
    - unfold try_one in E3. rewrite E2 in E3. cbn [bind] in E3. inversion E3; subst s3.
      exact (proj1 (H3 (S i) ltac:(lia))).
    - unfold try_one in E3. rewrite E2 in E3. cbn [bind] in E3. inversion E3; subst s3.
      exact (proj1 (proj2 (H3 (S i) ltac:(lia)))).
    - unfold try_one in E3. rewrite E2 in E3. cbn [bind] in E3. inversion E3; subst s3.
      exact (proj2 (proj2 (H3 (S i) ltac:(lia)))).
  Qed.
End History.

Arguments mkA {V}. Arguments at_t {V}. Arguments at_v {V}. Arguments at_y {V}. Arguments at_i {V}.

(* ---------- C33 ---------- *)

(* charges on the straight line A + B t *)
Definition on_ramp (A B t : Q) (p : FPOLY1) : Prop := F_f0 p == A + B * t.

Lemma ramp_exact : forall A B m (q i : nat -> FPOLY1) (t : nat -> Q) r,
  t 1%nat < t 0%nat ->
  on_ramp A B (t 0%nat) (q 0%nat) -> on_ramp A B (t 1%nat) (q 1%nat) -> on_ramp A B (t 2%nat) (q 2%nat) ->
  (t 1%nat == t 2%nat \/ F_f0 (i 1%nat) == B) ->
  differentiate Dynamic q i t m = Some r -> F_f0 r == B.
Proof.
  intros A B m q i t r Lt Q0 Q1 Q2 C E. unfold on_ramp in *. unfold differentiate in E.
  destruct (qltb_spec 0 (t 0%nat - t 1%nat)) as [L|L]; [|discriminate].
  assert (Nz : ~ t 0%nat - t 1%nat == 0) by lra.
  destruct (qeqb_spec (t 1%nat) (t 2%nat)) as [Eq|Ne].
  - inversion E; subst r; cbn [F_f0]. rewrite Q0, Q1. field. exact Nz.
  - destruct C as [C|C]; [contradiction|]. assert (Nz2 : ~ t 1%nat - t 2%nat == 0) by (intro X; apply Ne; lra).
    inversion E; subst r; destruct m; cbn [F_f0]; rewrite ?Q0, ?Q1, ?Q2, ?C; field; auto.
Qed.

Section Ramp.
  Variable V : Type.
  Variable m : METHOD.

  (* the current stored at each attempt is the one the code computes from the arrays *)
  Fixpoint integrated (s : sim V) (l : list (attempt V)) : Prop :=
    match l with
    | [] => True
    | a :: r => exists s', try_one V s a = Some s' /\
        differentiate Dynamic (e_y (s_el s')) (e_i (s_el s')) (e_time (s_el s')) m = Some (at_i a) /\
        integrated s' r
    end.

  Variables A B : Q.
  Definition ramp (a : attempt V) : Prop := on_ramp A B (at_t a) (at_y a).

  Lemma attempt_exact : forall s' a h a0, holds V s' (a :: h) a0 -> at_t (nth 0 h a0) < at_t a ->
    ramp a -> ramp a0 -> Forall ramp h -> Forall (fun x => F_f0 (at_i x) == B) h ->
    differentiate Dynamic (e_y (s_el s')) (e_i (s_el s')) (e_time (s_el s')) m = Some (at_i a) ->
    F_f0 (at_i a) == B.
  Proof.
    intros s' a h a0 H Lt Ra R0 Rh Ih E.
    destruct (H 0%nat ltac:(unfold keep; lia)) as (T0 & Y0 & _).
    destruct (H 1%nat ltac:(unfold keep; lia)) as (T1 & Y1 & I1).
    destruct (H 2%nat ltac:(unfold keep; lia)) as (T2 & Y2 & _). cbn [nth] in *.
    assert (Rn : forall k, ramp (nth k h a0)).
    { intros k. destruct (Nat.lt_ge_cases k (length h)) as [L|L].
      - rewrite Forall_forall in Rh. apply Rh, nth_In, L.
      - rewrite nth_overflow by exact L. exact R0. }
    apply (ramp_exact A B m _ _ _ _) with (6 := E); try (rewrite ?T0, ?T1, ?T2, ?Y0, ?Y1, ?Y2).
    - exact Lt.
    - exact Ra.
    - exact (Rn 0%nat).
    - exact (Rn 1%nat).
    - destruct h as [|b h]; [left; reflexivity|]. right. rewrite I1. now inversion Ih.
  Qed.

  Lemma retries_exact : forall l s h a0 b, holds V s (b :: h) a0 -> desc V (b :: h) a0 -> s_last s = at_t b ->
    0 <= at_t (nth 0 h a0) -> backwards V (at_t (nth 0 h a0)) (Some (at_t b)) l ->
    Forall ramp l -> ramp a0 -> Forall ramp h -> Forall (fun x => F_f0 (at_i x) == B) h ->
    integrated s l -> Forall (fun x => F_f0 (at_i x) == B) l.
  Proof.
    induction l as [|a l IH]; intros s h a0 b H D L P Bk Rl R0 Rh Ih Ig; [constructor|].
    cbn [backwards] in Bk. destruct Bk as (B1 & B2 & B3).
    destruct (retry V s h a0 b a H D L P B1 B2) as (s1 & _ & _ & s' & E & H' & L' & _ & _ & _).
    cbn [integrated] in Ig. destruct Ig as (s'' & E' & Df & Ig). rewrite E in E'. inversion E'; subst s''.
    inversion Rl; subst. constructor.
    - eapply attempt_exact; eauto.
    - eapply (IH s' h a0 a); eauto. intros [|i] Hi; cbn [nth]; [lra|]. apply (D (S i) Hi).
  Qed.

  Lemma step_exact : forall p s h a0, holds V s h a0 -> desc V h a0 -> s_last s = at_t (nth 0 h a0) ->
    0 <= s_last s -> backwards V (s_last s) None (fst p ++ [snd p]) ->
    Forall ramp (fst p ++ [snd p]) -> ramp a0 -> Forall ramp h -> Forall (fun x => F_f0 (at_i x) == B) h ->
    integrated s (fst p ++ [snd p]) -> Forall (fun x => F_f0 (at_i x) == B) (fst p ++ [snd p]).
  Proof.
    intros p s h a0 H D L P Bk Rl R0 Rh Ih Ig. remember (fst p ++ [snd p]) as l eqn:El. clear El.
    destruct l as [|a l]; [constructor|].
    cbn [backwards] in Bk. destruct Bk as (B1 & _ & B3).
    destruct (forward V s h a0 a H D L P B1) as (s1 & _ & _ & s' & E & H' & L' & _ & _ & _).
    cbn [integrated] in Ig. destruct Ig as (s'' & E' & Df & Ig). rewrite E in E'. inversion E'; subst s''.
    inversion Rl; subst. rewrite L in *. constructor.
    - eapply attempt_exact; eauto.
    - eapply (retries_exact l s' h a0 a); eauto. apply desc_cons; auto. lra.
  Qed.

  Lemma integrated_app : forall l1 l2 s s1, tries V s l1 = Some s1 -> integrated s (l1 ++ l2) ->
    integrated s l1 /\ integrated s1 l2.
  Proof.
    induction l1 as [|a l1 IH]; intros l2 s s1 E Ig; cbn [tries app integrated] in *.
    - inversion E; subst. auto.
    - destruct Ig as (s' & E' & Df & Ig). rewrite E' in E. cbn [bind] in E.
      destruct (IH l2 s' s1 E Ig). split; [exists s'; auto|assumption].
  Qed.

  Lemma run_exact : forall l s h a0, holds V s h a0 -> desc V h a0 -> s_last s = at_t (nth 0 h a0) ->
    0 <= s_last s -> valid V (s_last s) l -> Forall ramp (attempts V l) -> ramp a0 -> Forall ramp h ->
    Forall (fun x => F_f0 (at_i x) == B) h -> integrated s (attempts V l) ->
    Forall (fun x => F_f0 (at_i x) == B) (attempts V l).
  Proof.
    induction l as [|p l IH]; intros s h a0 H D L P Va Rl R0 Rh Ih Ig; [constructor|].
    cbn [valid] in Va. destruct Va as [Bk Va].
    change (attempts V (p :: l)) with ((fst p ++ [snd p]) ++ attempts V l) in *.
    apply Forall_app in Rl. destruct Rl as [R1 R2].
    destruct (one_step V p s h a0 H D L P Bk) as (s1 & E1 & H1 & L1 & _ & O1).
    destruct (integrated_app _ _ _ _ E1 Ig) as [G1 G2].
    pose proof (step_exact p s h a0 H D L P Bk R1 R0 Rh Ih G1) as X.
    apply Forall_app. split; [exact X|].
    apply (IH s1 (snd p :: h) a0); auto.
    - apply desc_cons; auto. rewrite <- L. exact O1.
    - rewrite L1. lra.
    - now rewrite L1.
    - constructor; [|assumption]. apply Forall_app in R1. destruct R1 as [_ R1]. now inversion R1.
    - constructor; [|assumption]. apply Forall_app in X. destruct X as [_ X]. now inversion X.
  Qed.

  (* charge proportional to time: at every attempt of every step of a transient, with any
     method, the current is exact *)
  Theorem C33_linear : forall s a0 l, at_zero V s a0 -> valid V 0 l -> ramp a0 ->
    Forall ramp (attempts V l) -> integrated s (attempts V l) ->
    Forall (fun a => F_f0 (at_i a) == B) (attempts V l).
  Proof.
    intros s a0 l Z Va R0 Rl Ig. destruct (nil_history V s a0 Z) as (H & D & L & _ & P).
    assert (L0 : s_last s = 0) by apply Z.
    apply (run_exact l s [] a0); auto. now rewrite L0.
  Qed.
End Ramp.

(* charge quadratic in time, a + b t + c t^2: the error of the trapezoidal current is that of
   the previous current with the opposite sign, so it is exact if that was *)
Theorem C33_trapezoidal : forall a b c (q i : nat -> FPOLY1) (t : nat -> Q),
  t 1%nat < t 0%nat -> ~ t 1%nat == t 2%nat ->
  (forall k, (k < 3)%nat -> F_f0 (q k) == peval [a; b; c] (t k)) ->
  exists r, differentiate Dynamic q i t mTRAP = Some r /\
    F_f0 r - peval (pderiv [a; b; c]) (t 0%nat) == - (F_f0 (i 1%nat) - peval (pderiv [a; b; c]) (t 1%nat)).
Proof.
  intros a b c q i t Lt Ne Hq. unfold differentiate.
  destruct (qeqb_spec (t 1%nat) (t 2%nat)) as [X|_]; [contradiction|].
  destruct (qltb_spec 0 (t 0%nat - t 1%nat)) as [L|L]; [|lra].
  eexists. split; [reflexivity|]. cbn [F_f0]. rewrite (Hq 0%nat), (Hq 1%nat) by lia.
  unfold peval, pderiv; cbn [psum dcoef Z.of_nat Pos.of_succ_nat Qpower Qpower_positive Pos.succ pow_pos inject_Z].
  unfold Qpower_positive; cbn. field. lra.
Qed.

(* Gear on equal steps is exact for quadratics *)
Theorem C33_gear : forall a b c (q i : nat -> FPOLY1) (t : nat -> Q) m, m = mGEAR \/ m = mTRAPGEAR ->
  t 1%nat < t 0%nat -> t 0%nat - t 1%nat == t 1%nat - t 2%nat ->
  (forall k, (k < 3)%nat -> F_f0 (q k) == peval [a; b; c] (t k)) ->
  exists r, differentiate Dynamic q i t m = Some r /\ F_f0 r == peval (pderiv [a; b; c]) (t 0%nat).
Proof.
  intros a b c q i t m Hm Lt Eq Hq. unfold differentiate.
  destruct (qeqb_spec (t 1%nat) (t 2%nat)) as [X|_]; [lra|].
  destruct (qltb_spec 0 (t 0%nat - t 1%nat)) as [L|L]; [|lra].
  assert (E1 : t 1%nat == (t 0%nat + t 2%nat) / 2) by (apply (Qmult_inj_r _ _ 2); [discriminate|]; field_simplify; lra).
  eexists. split; [reflexivity|].
  assert (G : F_f0 (mkF (F_x (q 0%nat)) ((3#2) * (F_f0 (q 0%nat) - F_f0 (q 1%nat)) / (t 0%nat - t 1%nat) -
      (1#2) * (F_f0 (q 1%nat) - F_f0 (q 2%nat)) / (t 1%nat - t 2%nat)) (F_f1 (q 0%nat) * (3#2) / (t 0%nat - t 1%nat)))
      == peval (pderiv [a; b; c]) (t 0%nat)).
  { cbn [F_f0]. rewrite <- Eq. rewrite (Hq 0%nat), (Hq 1%nat), (Hq 2%nat) by lia.
    set (d := t 0%nat - t 1%nat) in *. assert (T1 : t 1%nat == t 0%nat - d) by (unfold d; ring).
    assert (T2 : t 2%nat == t 0%nat - 2 * d) by (rewrite Eq in T1 |- *; lra).
    unfold peval, pderiv; cbn [psum dcoef Z.of_nat Pos.of_succ_nat]. 
    unfold Qpower, Qpower_positive; cbn. rewrite T1, T2. field. lra. }
  destruct Hm as [-> | ->]; exact G.
Qed.

(* on unequal steps it is not *)
Theorem C33_gear_unequal_refuted : exists (q i : nat -> FPOLY1) (t : nat -> Q) r,
  t 2%nat < t 1%nat /\ t 1%nat < t 0%nat /\ (forall k, F_f0 (q k) == peval [0; 0; 1] (t k)) /\
  differentiate Dynamic q i t mGEAR = Some r /\ ~ F_f0 r == peval (pderiv [0; 0; 1]) (t 0%nat).
Proof.
  pose (t := fun k => nth k [3; 2; 0] 0).
  exists (fun k => mkF 0 (peval [0; 0; 1] (t k)) 0), (fun _ => mkF 0 0 0), t.
  eexists. split; [reflexivity|]. split; [reflexivity|]. split; [reflexivity|]. split; [reflexivity|].
  vm_compute. discriminate.
Qed.

(* the conductance put in the matrix is the change of current per change of the newest charge,
   and the slope returned with the current is the conductance of the slope of the charge.  The
   hypotheses on the times hold at every attempt (C35_attempt): either no point after time 0
   has been accepted, or the last accepted time is positive and later than the one before. *)
Theorem C33_conductance : forall e m q0' dq,
  e_time e 1%nat < e_time e 0%nat -> e_dt e = Some (e_time e 0%nat - e_time e 1%nat) ->
  (e_time e 1%nat == 0 /\ e_time e 2%nat == 0 \/ 0 < e_time e 1%nat /\ e_time e 2%nat < e_time e 1%nat) ->
  F_f0 q0' == F_f0 (e_y e 0%nat) + dq ->
  exists r r' g g1,
    differentiate Dynamic (e_y e) (e_i e) (e_time e) m = Some r /\
    differentiate Dynamic (fun k => if Nat.eqb k 0 then q0' else e_y e k) (e_i e) (e_time e) m = Some r' /\
    (forall g0, tr_c_to_g Dynamic e m dq g0 = Some g) /\ F_f0 r' - F_f0 r == g /\
    (forall g0, tr_c_to_g Dynamic e m (F_f1 (e_y e 0%nat)) g0 = Some g1) /\ F_f1 r == g1.
Proof.
  intros e m q0' dq Lt Dt Ht Hq. unfold differentiate, tr_c_to_g. rewrite Dt. cbn [Nat.eqb].
  destruct (qltb_spec 0 (e_time e 0%nat - e_time e 1%nat)) as [L|L]; [|lra].
  assert (Nz : ~ e_time e 0%nat - e_time e 1%nat == 0) by lra.
  destruct (qeqb_spec (e_time e 1%nat) (e_time e 2%nat)) as [E|N];
    (destruct (qeqb_spec (e_time e 1%nat) 0) as [E0|N0]; [try (exfalso; lra)|try (exfalso; lra)]); cbn [bind].
  - do 4 eexists. split; [reflexivity|]. split; [reflexivity|]. split; [reflexivity|]. split; [|split; [reflexivity|]].
    + cbn [F_f0]. rewrite Hq. field. exact Nz.
    + reflexivity.
  - assert (Nz2 : ~ e_time e 1%nat - e_time e 2%nat == 0) by (intro X; apply N; lra).
    destruct m; (do 4 eexists; split; [reflexivity|]; split; [reflexivity|]; split; [reflexivity|];
      split; [|split; [reflexivity|]]; cbn [F_f0 F_f1]; rewrite ?Hq; field; auto).
Qed.

(* before the transient no current flows *)
Theorem C33_static : forall q i t m, t 0%nat == 0 ->
  exists r, differentiate Static q i t m = Some r /\ F_f0 r == 0 /\ F_f1 r == 0.
Proof.
  intros q i t m E. unfold differentiate. destruct (qeqb_spec (t 0%nat) 0); [|contradiction].
  eexists. split; [reflexivity|]. split; reflexivity.
Qed.

(* ---------- C34 ---------- *)

Lemma lower_deriv_spec : forall t i ed, (i <= ed)%nat ->
  let r := lower_deriv i t ed in
  (forall k, (k < i)%nat -> (k < r)%nat -> t (S k) < t k) /\
  ((r = ed /\ (forall k, (k < i)%nat -> t (S k) < t k)) \/ ((r < i)%nat /\ t r <= t (S r))).
Proof.
  intros t; induction i as [|i IH]; intros ed Hi; cbn [lower_deriv].
  - split; [intros; lia|]. left. split; [reflexivity|]. intros; lia.
  - destruct (qleb_spec (t i) (t (S i))) as [Le|Gt].
    + destruct (IH i (Nat.le_refl i)) as [A C]. cbn zeta in *. set (r := lower_deriv i t i) in *.
      split.
      * intros k Hk Hr. apply A; [|assumption]. destruct C as [[-> _]|[C _]]; lia.
      * destruct C as [[-> C]|[C1 C2]]; right; [split; [lia|exact Le]|split; [lia|exact C2]].
    + destruct (IH ed ltac:(lia)) as [A C]. cbn zeta in *. set (r := lower_deriv i t ed) in *.
      assert (Gt' : t (S i) < t i) by lra.
      split.
      * intros k Hk Hr. destruct (Nat.eq_dec k i) as [-> |]; [exact Gt'|]. apply A; lia.
      * destruct C as [[-> C]|[C1 C2]].
        -- left. split; [reflexivity|]. intros k Hk. destruct (Nat.eq_dec k i) as [-> |]; [exact Gt'|]. apply C; lia.
        -- right. split; [lia|exact C2].
Qed.

(* the derivative used is the highest one, up to one more than the order of the method, that
   the distinct times allow *)
Theorem C34_derivative : forall m t, t 1%nat < t 0%nat ->
  let ed := error_deriv (order m) t in
  (1 <= ed <= order m + 1)%nat /\ (forall k, (k < ed)%nat -> t (S k) < t k) /\
  (ed = (order m + 1)%nat \/ t ed <= t (S ed)).
Proof.
  intros m t Lt. cbv zeta. unfold error_deriv.
  assert (E : first_error_deriv (order m) = (order m + 1)%nat) by (destruct m; reflexivity).
  rewrite E. set (n := (order m + 1)%nat).
  destruct (lower_deriv_spec t n n (Nat.le_refl n)) as [A C]. cbn zeta in *. set (r := lower_deriv n t n) in *.
  assert (Hn : (2 <= n)%nat) by (unfold n; destruct m; cbn; lia).
  assert (R1 : (1 <= r)%nat).
  { destruct C as [[-> _]|[_ C]]; [lia|]. destruct r; [exfalso; lra|lia]. }
  split; [destruct C as [[-> _]|[C _]]; lia|]. split.
  - intros k Hk. apply A; [|exact Hk]. destruct C as [[-> _]|[C _]]; lia.
  - destruct C as [[-> _]|[_ C]]; auto.
Qed.

Lemma order_le : forall m, (order m <= 2)%nat.
Proof. destruct m; cbn; lia. Qed.

Section TruncP.
  Variable root : nat -> Q -> Q.
  Definition sane (o : topt) : Prop := 0 < chgtol o /\ 0 <= reltol o /\ 0 < trtol o.

  Lemma review_unfold : forall o m q t, sane o -> 0 < t 0%nat -> t 1%nat < t 0%nat ->
    let ed := error_deriv (order m) t in
    let d := derivatives (fun i => F_f0 (q i)) keep t ed in
    let tol := trtol o * Qmax (chgtol o) (reltol o * Qmax (Qabs (F_f0 (q 0%nat))) (Qabs (F_f0 (q 1%nat)))) in
    let x := tol / (error_factor m * Qabs d) in
    (d == 0 -> tr_review_trunc_error root o m q t = Some None) /\
    (~ d == 0 -> 0 < tol /\ 0 < error_factor m * Qabs d /\ 0 < x /\
      forall ts, ts = (if Nat.eqb ed 1 then x else root ed x) -> 0 < ts ->
      tr_review_trunc_error root o m q t = Some (Some ts)).
  Proof.
    intros o m q t (S1 & S2 & S3) T0 Lt ed d tol x. unfold tr_review_trunc_error.
    destruct (qleb_spec (t 0%nat) 0) as [X|_]; [lra|].
    destruct (C34_derivative m t Lt) as ((D1 & D2) & D3 & _). fold ed in D1, D2, D3 |- *. fold d. fold tol. fold x.
    destruct (Nat.ltb_spec 0 ed) as [_|X]; [|lia].
    destruct (Nat.ltb_spec ed keep) as [_|X]; [|unfold keep in X; pose proof (order_le m); lia].
    assert (Fb : forallb (fun i => qltb (t (S i)) (t i)) (seq 0 ed) = true).
    { apply forallb_forall. intros z Hz. apply in_seq in Hz. destruct (qltb_spec (t (S z)) (t z)) as [|N]; [reflexivity|].
      exfalso. specialize (D3 z ltac:(lia)). lra. }
    rewrite Fb. cbn [andb].
    split; intros N; [destruct (qeqb_spec d 0); [reflexivity|contradiction]|].
    destruct (qeqb_spec d 0) as [E|_]; [contradiction|].
    assert (Tp : 0 < tol).
    { unfold tol. apply Qmult_lt_0_compat; [assumption|]. eapply Qlt_le_trans; [exact S1|]. apply Q.le_max_l. }
    assert (Dp : 0 < Qabs d).
    { pose proof (Qabs_nonneg d). destruct (Qlt_le_dec 0 (Qabs d)) as [|Z0]; [assumption|]. exfalso. apply N.
      assert (A : Qabs d == 0) by lra. destruct (Qlt_le_dec d 0).
      - rewrite Qabs_neg in A by lra. lra.
      - rewrite Qabs_pos in A by lra. lra. }
    assert (Fp : 0 < error_factor m) by (destruct m; reflexivity).
    assert (Np : 0 < error_factor m * Qabs d) by (now apply Qmult_lt_0_compat).
    destruct (qltb_spec 0 tol) as [_|]; [|contradiction].
    destruct (qltb_spec 0 (error_factor m * Qabs d)) as [_|]; [|contradiction]. cbn [andb].
    assert (Rp : 0 < x).
    { unfold x, Qdiv. apply Qmult_lt_0_compat; [assumption|]. now apply Qinv_lt_0_compat. }
    split; [exact Tp|]. split; [exact Np|]. split; [exact Rp|]. intros ts -> P.
    destruct (qltb_spec 0 (if Nat.eqb ed 1 then x else root ed x)) as [_|]; [reflexivity|contradiction].
  Qed.

  (* The review never fails.  No limit is given exactly when the derivative is 0; otherwise the
     step makes the estimated error, which is the error factor times the derivative times the
     power of the step, equal to the tolerance, up to the relative accuracy [eps] of the root. *)
  Theorem C34_error_is_tolerance : forall o m q t eps, sane o -> 0 < t 0%nat -> t 1%nat < t 0%nat -> 0 <= eps ->
    let ed := error_deriv (order m) t in
    let d := derivatives (fun i => F_f0 (q i)) keep t ed in
    let tol := trtol o * Qmax (chgtol o) (reltol o * Qmax (Qabs (F_f0 (q 0%nat))) (Qabs (F_f0 (q 1%nat)))) in
    let x := tol / (error_factor m * Qabs d) in
    (0 < x -> 0 < root ed x /\ (1 - eps) * x <= root ed x ^ Z.of_nat ed <= (1 + eps) * x) ->
    exists r, tr_review_trunc_error root o m q t = Some r /\
    match r with
    | None => d == 0
    | Some ts => 0 < ts /\
        (1 - eps) * tol <= error_factor m * Qabs d * ts ^ Z.of_nat ed <= (1 + eps) * tol
    end.
  Proof.
    intros o m q t eps Ho T0 Lt Ep ed d tol x Rt.
    destruct (review_unfold o m q t Ho T0 Lt) as [A B]. fold ed in A, B. fold d in A, B. fold tol in B. fold x in B.
    destruct (Qeq_dec d 0) as [E|N]; [exists None; split; [apply A, E|exact E]|].
    destruct (B N) as (Tp & Np & Xp & U). destruct (Rt Xp) as (R0 & R1 & R2).
    set (ts := if Nat.eqb ed 1 then x else root ed x).
    assert (P : 0 < ts /\ (1 - eps) * x <= ts ^ Z.of_nat ed <= (1 + eps) * x).
    { unfold ts. destruct (Nat.eqb_spec ed 1) as [E1|].
      - rewrite E1. split; [exact Xp|]. cbn. assert (0 <= eps * x) by (apply Qmult_le_0_compat; lra). lra.
      - split; [exact R0|]. split; assumption. }
    destruct P as (P0 & P1 & P2). exists (Some ts). split; [now apply U|]. split; [exact P0|].
    set (w := error_factor m * Qabs d) in *. assert (Wx : w * x == tol) by (unfold x; field; lra).
    set (y := ts ^ Z.of_nat ed) in *.
    assert (M1 : w * ((1 - eps) * x) <= w * y) by (apply Qmult_le_l; assumption).
    assert (M2 : w * y <= w * ((1 + eps) * x)) by (apply Qmult_le_l; assumption).
    assert (Z1 : w * ((1 - eps) * x) == (1 - eps) * tol) by (rewrite <- Wx; ring).
    assert (Z2 : w * ((1 + eps) * x) == (1 + eps) * tol) by (rewrite <- Wx; ring).
    rewrite Z1 in M1. rewrite Z2 in M2. split; assumption.
  Qed.

  (* data from a polynomial of degree less than the derivative used gives no limit *)
  Theorem C34_no_limit : forall o m q t a, sane o -> 0 < t 0%nat -> t 1%nat < t 0%nat ->
    (length a <= error_deriv (order m) t)%nat -> (forall i, F_f0 (q i) = peval a (t i)) ->
    tr_review_trunc_error root o m q t = Some None.
  Proof.
    intros o m q t a Ho T0 Lt Hl Hq.
    apply (review_unfold o m q t Ho T0 Lt).
    set (ed := error_deriv (order m) t) in *.
    destruct (C34_derivative m t Lt) as ((D1 & D2) & D3 & _). fold ed in D1, D2, D3.
    rewrite (C31_uses_first_points keep keep t t _ (fun i => peval a (t i)) ed); auto;
        try (unfold keep; pose proof (order_le m); lia).
      rewrite (C31_derivatives_exact keep t a ed 0); [|unfold keep; pose proof (order_le m); lia|lia|].
      - rewrite pderivs_const by lia. rewrite nth_overflow by lia. ring.
      - assert (Lw : forall k p, (k < p)%nat -> (p <= ed)%nat -> t p < t k).
        { intros k p Hk. induction p as [|p IH]; intros Hp; [lia|].
          destruct (Nat.eq_dec k p) as [-> |]; [apply D3; lia|].
          assert (t p < t k) by (apply IH; lia). assert (t (S p) < t p) by (apply D3; lia). lra. }
        intros p p' H1 H2 E'. pose proof (Lw p p' H1 H2). lra.
  Qed.
End TruncP.

(* the proposed time: at least a minimum step after the last accepted time; before the present
   time exactly when the step is rejected, and then at a step below the ratio; otherwise at
   least a minimum step after the present time *)
Theorem C34_proposal : forall o e ts dt, e_dt e = Some dt -> e_time e 0%nat == e_time e 1%nat + dt ->
  0 <= e_time e 1%nat -> 0 < dt -> 0 < o_dtmin o -> 0 < trreject o <= 1 ->
  let need := Qmax ts (o_dtmin o) in
  exists f, tr_review_check_and_convert o e (Some ts) = Some (Some f) /\
    e_time e 1%nat + o_dtmin o <= f /\
    (f < e_time e 0%nat <-> need < dt * trreject o) /\
    (need < dt * trreject o -> f == e_time e 1%nat + need) /\
    (~ need < dt * trreject o -> f == e_time e 0%nat + need).
Proof.
  intros o e ts dt Ed T0 T1 Dp Mp (R0 & R1) need. unfold tr_review_check_and_convert. rewrite Ed. cbn [bind].
  set (n := if qltb ts (o_dtmin o) then o_dtmin o else ts).
  assert (N : n == need).
  { unfold n, need. destruct (qltb_spec ts (o_dtmin o)); [rewrite Q.max_r by lra|rewrite Q.max_l by lra]; reflexivity. }
  assert (Nm : o_dtmin o <= n) by (rewrite N; apply Q.le_max_r).
  assert (Rd : dt * trreject o <= dt * 1) by (apply Qmult_le_l; assumption).
  destruct (qltb_spec n (dt * trreject o)) as [L|L].
  - destruct (qltb_spec 0 (e_time e 1%nat + n)) as [_|X]; [|lra].
    destruct (qltb_spec (e_time e 1%nat) (e_time e 1%nat + n)) as [_|X]; [|lra]. cbn [andb].
    eexists. split; [reflexivity|]. clearbody n need. repeat split; intros; rewrite ?N in *; try lra; exfalso; auto.
  - destruct (qltb_spec 0 (e_time e 0%nat + n)) as [_|X]; [|lra].
    destruct (qltb_spec (e_time e 1%nat) (e_time e 0%nat + n)) as [_|X]; [|lra]. cbn [andb].
    eexists. split; [reflexivity|]. clearbody n need. repeat split; intros; rewrite ?N in *; try lra; exfalso; auto.
Qed.

(* no step limit from Euler *)
Theorem C34_euler : forall root o e, tr_review root o mEULER e = Some None.
Proof. reflexivity. Qed.

(* ---------- cases ---------- *)

Definition z0 : attempt unit := mkA 0 tt (mkF 0 5 1) (mkF 0 0 0).
Definition s0 : sim unit := mkS 0 tt tt (mkE (fun _ => 0) (fun _ => mkF 0 5 1) (fun _ => mkF 0 0 0) None).
Definition pt (t : Q) : attempt unit := mkA t tt (mkF 0 (5 + 2 * t) 1) (mkF 0 2 7).
Definition steps3 : list (step unit) := [([pt 4; pt 3], pt 1); ([], pt 3); ([pt 9], pt 5)].

Example C35_case : at_zero unit s0 z0 /\ valid unit 0 steps3 /\
  match tries unit s0 (attempts unit steps3) with
  | Some s' => map (fun k => Qred (e_time (s_el s') k)) [0; 1; 2; 3]%nat = [5; 3; 1; 0]
  | None => False end.
Proof.
  split; [repeat split; intros; reflexivity|]. split; [cbn; repeat split; try lra; reflexivity|].
  vm_compute. reflexivity.
Qed.

(* a ramp of slope 2, trapezoidal, with rejected attempts *)
Definition fpt (t i1 : Q) : attempt unit := mkA t tt (mkF 0 (5 + 2 * t) 1) (mkF 0 2 i1).
Example C33_case : exists l : list (step unit), valid unit 0 l /\ length (attempts unit l) = 3%nat /\
  Forall (ramp unit 5 2) (attempts unit l) /\ integrated unit mTRAP s0 (attempts unit l).
Proof.
  exists [([mkA 4 tt (mkF 0 13 1) (mkF 0 (8#4) (1#4))], mkA 1 tt (mkF 0 7 1) (mkF 0 (2#1) (1#1)));
          ([], mkA 3 tt (mkF 0 11 1) (mkF 0 (4#2) (2#2)))].
  split; [cbn; repeat split; try lra|]. split; [reflexivity|].
  split; [repeat constructor|].
  cbn [attempts flat_map fst snd app integrated].
  eexists. split; [reflexivity|]. split; [reflexivity|].
  eexists. split; [reflexivity|]. split; [reflexivity|].
  eexists. split; [reflexivity|]. split; [reflexivity|]. exact I.
Qed.

Definition opts1 : topt := mkO (1#100) (1#1000) 7 (1#2) (1#1000).
Example C34_case : sane opts1 /\
  error_deriv (order mTRAP) (fun k => nth k [3; 2; 1; 0; 0] 0) = 3%nat /\
  error_deriv (order mTRAP) (fun k => nth k [3; 2; 0; 0; 0] 0) = 2%nat /\
  exists r, tr_review (fun _ _ => 1#10) opts1 mTRAP
    (mkE (fun k => nth k [3; 2; 1; 0; 0] 0) (fun k => mkF 0 (nth k [27; 8; 1; 0; 0] 0) 0) (fun _ => mkF 0 0 0) (Some 1)) = Some (Some r)
    /\ r == 2 + (1#10).
Proof.
  split; [repeat split; try reflexivity; discriminate|]. split; [reflexivity|]. split; [reflexivity|].
  eexists. split; [vm_compute; reflexivity|]. reflexivity.
Qed.

Example C53_case : method_select meTRAPONLY meGEAR2 = mTRAP /\ method_select meTRAP meGEAR2 = mGEAR /\
  method_select meUNKNOWN meUNKNOWN = mTRAPGEAR.
Proof. repeat split. Qed.

Print Assumptions C53_method_choice.
Print Assumptions C35_history.
Print Assumptions C35_attempt.
Print Assumptions C33_linear.
Print Assumptions C33_trapezoidal.
Print Assumptions C33_gear.
Print Assumptions C33_gear_unequal_refuted.
Print Assumptions C33_conductance.
Print Assumptions C33_static.
Print Assumptions C34_derivative.
Print Assumptions C34_error_is_tolerance.
Print Assumptions C34_no_limit.
Print Assumptions C34_proposal.
Print Assumptions C34_euler.
