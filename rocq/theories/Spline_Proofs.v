(* Invariants of the construction loops of lib/m_spline.cc in exact arithmetic. *)
Require Import ZArith QArith Qabs List Bool Lia Lqa Field.
Require Import ZifyBool.
Require Import Verif.Loops Verif.Qnum Verif.Spline_Model.
Import ListNotations.
Local Open Scope Z_scope.

Section Exact.
Variable r : Q.
Notation N := (SQ r).
Notation arr := (arr N).

(* the number in a cell *)
Definition val (a : arr) (i : Z) : Q := match a i with Some v => v | None => 0%Q end.
(* the cell has been written *)
Definition has (a : arr) (i : Z) : Prop := a i <> None.

Lemma rd_has : forall n a i, 0 <= i <= n -> has a i -> rd N n a i = Some (val a i).
Proof.
  intros n a i H h. unfold rd, has, val in *.
  replace ((0 <=? i) && (i <=? n)) with true by lia. destruct (a i); [reflexivity|now destruct h].
Qed.

Lemma rd_some : forall n a i v, rd N n a i = Some v -> 0 <= i <= n /\ has a i /\ v = val a i.
Proof.
  intros n a i v H. unfold rd, has, val in *.
  destruct ((0 <=? i) && (i <=? n)) eqn:E; [|discriminate].
  rewrite H. split; [lia|]. split; congruence.
Qed.

Definition put (a : arr) (i : Z) (v : Q) : arr := fun j => if j =? i then Some v else a j.

Lemma wr_in : forall n a i v, 0 <= i <= n -> wr N n a i v = Some (put a i v).
Proof.
  intros n a i v H. unfold wr. replace ((0 <=? i) && (i <=? n)) with true by lia. reflexivity.
Qed.

Lemma put_here : forall a i v, val (put a i v) i = v.
Proof. intros. unfold val, put. now rewrite Z.eqb_refl. Qed.
Lemma put_there : forall a i j v, j <> i -> val (put a i v) j = val a j.
Proof. intros. unfold val, put. now rewrite (proj2 (Z.eqb_neq j i)). Qed.
Lemma has_put : forall a i j v, has a j \/ j = i -> has (put a i v) j.
Proof. intros a i j v H. unfold has, put in *. destruct (j =? i) eqn:E; [discriminate|]. destruct H; [assumption|lia]. Qed.
Lemma has_here : forall a i v, has (put a i v) i.
Proof. intros. apply has_put. now right. Qed.

Ltac hp := repeat (apply has_put; left); first [apply has_here | assumption | idtac].
Ltac pv := repeat first [rewrite put_here | rewrite put_there by lia].

(* the differences of the points *)
Lemma steps_ok : forall n x, 0 <= n -> (forall i, 0 <= i <= n -> has x i) ->
  (forall i, 0 <= i < n -> (val x i < val x (i + 1))%Q) ->
  exists h, steps N n x = Some (Some h) /\ (forall i, 0 <= i <= n -> has h i) /\
    (forall i, 0 <= i < n -> val h i = (val x (i + 1) - val x i)%Q) /\ val h n = sNV N.
Proof.
  intros n x Hn Hx Hlt. unfold steps.
  match goal with |- context [for_up 0 n ?b ?s0] =>
    destruct (for_up_ind (option arr) (fun k st => exists h, st = Some h /\
      (forall i, 0 <= i < k -> has h i) /\
      (forall i, 0 <= i < k -> val h i = (val x (i + 1) - val x i)%Q)) b 0 n s0)
      as (st & E & h & -> & Hh & Hv)
  end.
  - assumption.
  - exists (alloc N). split; [reflexivity|]. split; intros; lia.
  - intros j t Hj (h & -> & Hh & Hv).
    rewrite (rd_has n x (j + 1)), (rd_has n x j) by (try apply Hx; lia).
    cbn [bind]. rewrite wr_in by lia. cbn [bind].
    rewrite rd_has by (try apply has_here; lia). cbn [bind]. rewrite put_here.
    cbn [ssub SQ]. 
    assert (Z0 : seqb N (val x (j + 1) - val x j)%Q (sint N 0) = false).
    { cbn. destruct (qeqb_spec (val x (j + 1) - val x j)%Q (inject_Z 0)) as [e|]; [|reflexivity].
      exfalso. specialize (Hlt j Hj). unfold inject_Z in e. lra. }
    rewrite Z0. eexists. split; [reflexivity|]. eexists. split; [reflexivity|]. split.
    + intros i Hi. destruct (Z.eq_dec i j) as [->|]; [apply has_here|].
      apply has_put. left. apply Hh. lia.
    + intros i Hi. destruct (Z.eq_dec i j) as [->|]; [apply put_here|].
      rewrite put_there by assumption. apply Hv. lia.
  - rewrite E. cbn [bind]. rewrite wr_in by lia. cbn [bind].
    eexists. split; [reflexivity|]. split; [|split].
    + intros i Hi. destruct (Z.eq_dec i n) as [->|]; [apply has_here|].
      apply has_put. left. apply Hh. lia.
    + intros i Hi. rewrite put_there by lia. apply Hv. lia.
    + apply put_here.
Qed.

(* a repeated point is refused, and a refusal means a repeated point *)
Lemma steps_dup : forall n x, 0 <= n -> (forall i, 0 <= i <= n -> has x i) ->
  (exists i, 0 <= i < n /\ (val x (i + 1) == val x i)%Q) -> steps N n x = Some None.
Proof.
  intros n x Hn Hx (i & Hi & e). unfold steps.
  match goal with |- context [for_up 0 n ?b ?s0] =>
    destruct (for_up_ind (option arr) (fun k st =>
      if i <? k then st = None else st = None \/ exists h, st = Some h) b 0 n s0) as (st & E & P)
  end.
  - assumption.
  - replace (i <? 0) with false by lia. right. eexists. reflexivity.
  - intros j t Hj P. destruct t as [h|].
    + rewrite (rd_has n x (j + 1)), (rd_has n x j) by (try apply Hx; lia).
      cbn [bind]. rewrite wr_in by lia. cbn [bind].
      rewrite rd_has by (try apply has_here; lia). cbn [bind]. rewrite put_here.
      eexists. split; [reflexivity|].
      destruct (i <? j) eqn:L; [discriminate|].
      destruct (i <? j + 1) eqn:L1.
      * replace j with i by lia. cbn.
        destruct (qeqb_spec (val x (i + 1) - val x i)%Q (inject_Z 0)) as [e1|ne]; [reflexivity|].
        exfalso. apply ne. unfold inject_Z. lra.
      * match goal with |- context [if ?b then _ else _] => destruct b end; [now left|right].
        eexists. reflexivity.
    + exists None. split; [reflexivity|]. destruct (i <? j + 1); auto.
  - rewrite E. cbn [bind]. replace (i <? n) with true in P by lia. now rewrite P.
Qed.

Lemma rise_ok : forall n f0 h i, 0 <= i < n -> has f0 (i + 1) -> has f0 i -> has h i ->
  rise N n f0 h i = Some ((val f0 (i + 1) - val f0 i) / val h i)%Q.
Proof.
  intros n f0 h i Hi A B C. unfold rise.
  rewrite !rd_has by (assumption || lia). reflexivity.
Qed.

Lemma twice_ok : forall n f0 h i, 0 <= i < n -> has f0 (i + 1) -> has f0 i -> has h i ->
  twice_rise N n f0 h i = Some (inject_Z 2 * (val f0 (i + 1) - val f0 i) / val h i)%Q.
Proof.
  intros n f0 h i Hi A B C. unfold twice_rise.
  rewrite !rd_has by (assumption || lia). reflexivity.
Qed.

(* What is known when a construct_order_ function runs. *)
Section Build.
Variables (n : Z) (x f0 h : arr).
Hypothesis n1 : 1 <= n.
Hypothesis hx : forall i, 0 <= i <= n -> has x i.
Hypothesis hf : forall i, 0 <= i <= n -> has f0 i.
Hypothesis hh : forall i, 0 <= i <= n -> has h i.
Hypothesis hv : forall i, 0 <= i < n -> val h i = (val x (i + 1) - val x i)%Q.
Hypothesis asc : forall i, 0 <= i < n -> (val x i < val x (i + 1))%Q.

Lemma h_pos : forall i, 0 <= i < n -> (0 < val h i)%Q.
Proof. intros i Hi. rewrite hv by assumption. pose proof (asc i Hi). lra. Qed.

Lemma order_1_ok : forall d0 dn, exists s, order_1 N n x f0 h d0 dn = Some s /\
  sn N s = n /\ sx N s = x /\ sf0 N s = f0 /\ sorder N s = 1 /\
  (forall i, 0 <= i <= n -> has (sf1 N s) i) /\
  (forall i, 0 <= i < n -> (val (sf1 N s) i = (val f0 (i + 1) - val f0 i) / val h i)%Q) /\
  val (sf1 N s) n = (if natural N dn then val (sf1 N s) (n - 1) else dn) /\
  sd0 N s = Some (if natural N d0 then val (sf1 N s) 0 else d0).
Proof.
  intros d0 dn. unfold order_1.
  match goal with |- context [for_up 0 n ?b ?s0] =>
    destruct (for_up_ind arr (fun k f1 => (forall i, 0 <= i <= n -> has f1 i) /\
      (forall i, 0 <= i < k -> (val f1 i = (val f0 (i + 1) - val f0 i) / val h i)%Q) /\
      (forall i, k <= i <= n -> val f1 i = val h i)) b 0 n s0) as (f1 & E & H1 & V1 & W1)
  end.
  - lia.
  - split; [assumption|]. split; [intros; lia|]. reflexivity.
  - intros j f1 Hj (H1 & V1 & W1).
    rewrite rise_ok by (try apply hf; try apply H1; lia). cbn [bind].
    rewrite wr_in by lia. eexists. split; [reflexivity|]. split; [|split].
    + intros i Hi. apply has_put. left. now apply H1.
    + intros i Hi. destruct (Z.eq_dec i j) as [->|].
      * rewrite put_here, W1 by lia. reflexivity.
      * rewrite put_there by assumption. apply V1. lia.
    + intros i Hi. rewrite put_there by lia. apply W1. lia.
  - rewrite E. cbn [bind].
    assert (L : (if natural N d0 then rd N n f1 0 else Some d0)
                = Some (if natural N d0 then val f1 0 else d0)).
    { destruct (natural N d0); [|reflexivity]. apply rd_has; [lia|apply H1; lia]. }
    rewrite L. cbn [bind].
    assert (L2 : (if natural N dn then let* v := rd N n f1 (n - 1) in wr N n f1 n v else wr N n f1 n dn)
                = Some (put f1 n (if natural N dn then val f1 (n - 1) else dn))).
    { destruct (natural N dn); [|apply wr_in; lia].
      rewrite rd_has by (try apply H1; lia). cbn [bind]. apply wr_in. lia. }
    rewrite L2. cbn [bind]. eexists. split; [reflexivity|].
    cbn [sn sx sf0 sf1 sorder sd0]. repeat (split; [reflexivity|]).
    split; [|split; [|split]].
    + intros i Hi. apply has_put. left. now apply H1.
    + intros i Hi. rewrite put_there by lia. now apply V1.
    + rewrite put_here, put_there by lia. reflexivity.
    + rewrite put_there by lia. reflexivity.
Qed.

Lemma order_2_ok : forall d0 dn, exists s, order_2 N n x f0 h d0 dn = Some s /\
  sn N s = n /\ sx N s = x /\ sf0 N s = f0 /\ sorder N s = 2 /\
  (forall i, 0 <= i <= n -> has (sf1 N s) i) /\
  (forall i, 0 <= i <= n -> has (sf2 N s) i) /\
  (forall i, 0 <= i < n ->
     (val (sf1 N s) i + val (sf1 N s) (i + 1) == 2 * (val f0 (i + 1) - val f0 i) / val h i)%Q) /\
  (forall i, 0 <= i < n ->
     (val (sf2 N s) i = (1 # 2) * (val (sf1 N s) (i + 1) - val (sf1 N s) i) / val h i)%Q) /\
  val (sf2 N s) n = 0%Q /\
  (natural N dn = false -> val (sf1 N s) n = dn) /\
  (natural N d0 = false -> natural N dn = true -> val (sf1 N s) 0 = d0) /\
  (natural N d0 = true -> natural N dn = true -> (val (sf2 N s) (n - 1) == 0)%Q) /\
  sd0 N s = Some (if natural N d0 then val (sf1 N s) 0 else d0).
Proof.
  intros d0 dn. unfold order_2.
  match goal with |- context [bind ?e _] =>
    assert (S1 : exists f1 lo, e = Some (f1, lo) /\
      (forall i, 0 <= i <= n -> has f1 i) /\
      (forall i, 0 <= i < n -> (val f1 i + val f1 (i + 1) == 2 * (val f0 (i + 1) - val f0 i) / val h i)%Q) /\
      (natural N dn = false -> val f1 n = dn) /\
      (natural N d0 = false -> natural N dn = true -> val f1 0 = d0) /\
      (natural N d0 = true -> natural N dn = true ->
         val f1 n = ((val f0 n - val f0 (n - 1)) / val h (n - 1))%Q) /\
      lo = if natural N d0 then val f1 0 else d0)
  end.
  { destruct (negb (natural N d0) && natural N dn) eqn:B.
    - apply andb_prop in B. destruct B as [B0 Bn]. apply negb_true_iff in B0.
      rewrite wr_in by lia. cbn [bind].
      match goal with |- context [for_up 0 n ?b ?s0] =>
        destruct (for_up_ind arr (fun k f1 => (forall i, 0 <= i <= k -> has f1 i) /\
          (forall i, 0 <= i < k -> (val f1 i + val f1 (i + 1) == 2 * (val f0 (i + 1) - val f0 i) / val h i)%Q) /\
          val f1 0 = d0) b 0 n s0) as (f1 & E & H1 & V1 & W1)
      end.
      + lia.
      + split; [|split; [intros; lia|apply put_here]].
        intros i Hi. replace i with 0 by lia. apply has_here.
      + intros j f1 Hj (H1 & V1 & W1).
        rewrite twice_ok by (try apply hf; try apply hh; lia). cbn [bind].
        rewrite rd_has by (try apply H1; lia). cbn [bind].
        rewrite wr_in by lia. eexists. split; [reflexivity|]. split; [|split].
        * intros i Hi. destruct (Z.eq_dec i (j + 1)) as [->|]; [apply has_here|].
          apply has_put. left. apply H1. lia.
        * intros i Hi. rewrite (put_there f1 (j + 1) i) by lia.
          destruct (Z.eq_dec i j) as [->|].
          -- rewrite put_here. cbn [ssub SQ]. unfold inject_Z. ring.
          -- rewrite put_there by lia. apply V1. lia.
        * rewrite put_there by lia. assumption.
      + rewrite E. cbn [bind]. exists f1, d0. split; [reflexivity|].
        split; [assumption|]. split; [assumption|].
        split; [congruence|]. split; [auto|]. split; [congruence|]. now rewrite B0.
    - assert (Q1 : exists w, (if natural N dn then let* v := rise N n f0 h (n - 1) in wr N n (alloc N) n v
                   else wr N n (alloc N) n dn) = Some (put (alloc N) n w) /\
                  (natural N dn = false -> w = dn) /\
                  (natural N dn = true -> w = ((val f0 n - val f0 (n - 1)) / val h (n - 1))%Q)).
      { destruct (natural N dn).
        - rewrite rise_ok by (try apply hf; try apply hh; lia). cbn [bind].
          rewrite wr_in by lia. eexists. split; [reflexivity|]. split; [discriminate|].
          intros _. now replace (n - 1 + 1) with n by lia.
        - rewrite wr_in by lia. eexists. split; [reflexivity|]. split; [reflexivity|discriminate]. }
      destruct Q1 as (w & -> & Wd & Wn). cbn [bind].
      match goal with |- context [for_down (n - 1) (-1) ?b ?s0] =>
        destruct (for_down_ind arr (fun k f1 => (forall i, k < i <= n -> has f1 i) /\
          (forall i, k < i < n -> (val f1 i + val f1 (i + 1) == 2 * (val f0 (i + 1) - val f0 i) / val h i)%Q) /\
          val f1 n = w) b (n - 1) (-1) s0) as (f1 & E & H1 & V1 & W1)
      end.
      + lia.
      + split; [|split; [intros; lia|apply put_here]].
        intros i Hi. replace i with n by lia. apply has_here.
      + intros j f1 Hj (H1 & V1 & W1).
        rewrite twice_ok by (try apply hf; try apply hh; lia). cbn [bind].
        rewrite rd_has by (try apply H1; lia). cbn [bind].
        rewrite wr_in by lia. eexists. split; [reflexivity|]. split; [|split].
        * intros i Hi. destruct (Z.eq_dec i j) as [->|]; [apply has_here|].
          apply has_put. left. apply H1. lia.
        * intros i Hi. rewrite (put_there f1 j (i + 1)) by lia.
          destruct (Z.eq_dec i j) as [->|].
          -- rewrite put_here. cbn [ssub SQ]. unfold inject_Z. ring.
          -- rewrite put_there by lia. apply V1. lia.
        * rewrite put_there by lia. assumption.
      + rewrite E. cbn [bind].
        assert (L : (if natural N d0 then rd N n f1 0 else Some d0)
                    = Some (if natural N d0 then val f1 0 else d0)).
        { destruct (natural N d0); [|reflexivity]. apply rd_has; [lia|apply H1; lia]. }
        rewrite L. cbn [bind]. eexists f1, _. split; [reflexivity|].
        split; [intros; apply H1; lia|]. split; [intros; apply V1; lia|].
        split; [intros X; rewrite W1; auto|].
        split; [intros X Y; rewrite X, Y in B; discriminate|].
        split; [intros X Y; rewrite W1; auto|reflexivity]. }
  destruct S1 as (f1 & lo & -> & H1 & V1 & Bn & B0 & Bf & ->). cbn [bind].
  match goal with |- context [for_up 0 n ?b ?s0] =>
    destruct (for_up_ind arr (fun k f2 => (forall i, 0 <= i <= n -> has f2 i) /\
      (forall i, 0 <= i < k -> (val f2 i = (1 # 2) * (val f1 (i + 1) - val f1 i) / val h i)%Q) /\
      (forall i, k <= i <= n -> val f2 i = val h i)) b 0 n s0) as (f2 & E & H2 & V2 & W2)
  end.
  - lia.
  - split; [assumption|]. split; [intros; lia|reflexivity].
  - intros j f2 Hj (H2 & V2 & W2).
    rewrite (rd_has n f1 (j + 1)), (rd_has n f1 j), (rd_has n f2 j) by (try apply H1; try apply H2; lia).
    cbn [bind]. rewrite wr_in by lia. eexists. split; [reflexivity|]. split; [|split].
    + intros i Hi. apply has_put. left. now apply H2.
    + intros i Hi. destruct (Z.eq_dec i j) as [->|].
      * rewrite put_here, W2 by lia. reflexivity.
      * rewrite put_there by assumption. apply V2. lia.
    + intros i Hi. rewrite put_there by lia. apply W2. lia.
  - rewrite E. cbn [bind]. rewrite wr_in by lia. cbn [bind].
    eexists. split; [reflexivity|].
    cbn [sn sx sf0 sf1 sf2 sorder sd0]. repeat (split; [reflexivity|]).
    split; [assumption|]. split; [intros i Hi; apply has_put; left; now apply H2|].
    split; [assumption|]. split; [intros i Hi; rewrite put_there by lia; now apply V2|].
    split; [apply put_here|]. split; [assumption|]. split; [assumption|]. split; [|reflexivity].
    intros X Y. rewrite put_there by lia. rewrite V2 by lia.
    pose proof (h_pos (n - 1) ltac:(lia)) as hp. pose proof (V1 (n - 1) ltac:(lia)) as e.
    replace (n - 1 + 1) with n in * by lia. rewrite (Bf X Y) in e.
    set (g := val h (n - 1)) in *. clearbody g.
    assert (e1 : (val f1 (n - 1) == (val f0 n - val f0 (n - 1)) / g)%Q).
    { rewrite <- (Qplus_inj_r _ _ ((val f0 n - val f0 (n - 1)) / g)%Q). rewrite e. field. lra. }
    rewrite e1, (Bf X Y). field. lra.
Qed.

(* the slope of the chord from point i *)
Definition chord (i : Z) : Q := ((val f0 (i + 1) - val f0 i) / val h i)%Q.

Lemma right_side_ok : forall d0 dn, exists b, right_side N n f0 h d0 dn = Some b /\
  (forall i, 0 <= i <= n -> has b i) /\
  (forall i, 1 <= i < n -> (val b i == 3 * (chord i - chord (i - 1)))%Q) /\
  (natural N d0 = false -> (val b 0 == 3 * (chord 0 - d0))%Q) /\
  (natural N dn = false -> (val b n == 3 * (dn - chord (n - 1)))%Q).
Proof.
  intros d0 dn. unfold right_side.
  match goal with |- context [for_up 1 n ?bd ?s0] =>
    destruct (for_up_ind arr (fun k b => (forall i, 1 <= i < k -> has b i) /\
      (forall i, 1 <= i < k -> (val b i == 3 * (chord i - chord (i - 1)))%Q)) bd 1 n s0)
      as (b & E & H1 & V1)
  end.
  - lia.
  - split; intros; lia.
  - intros j b Hj (H1 & V1).
    rewrite (rd_has n f0 (j + 1)), (rd_has n f0 (j - 1)), (rd_has n f0 j), (rd_has n h (j - 1)), (rd_has n h j)
      by (try apply hf; try apply hh; lia).
    cbn [bind]. rewrite wr_in by lia. eexists. split; [reflexivity|]. split.
    + intros i Hi. destruct (Z.eq_dec i j) as [->|]; [apply has_here|].
      apply has_put. left. apply H1. lia.
    + intros i Hi. destruct (Z.eq_dec i j) as [->|].
      * rewrite put_here. cbn [sadd ssub smul sdiv sint SQ]. unfold chord.
        replace (j - 1 + 1) with j by lia.
        pose proof (h_pos j ltac:(lia)). pose proof (h_pos (j - 1) ltac:(lia)).
        unfold inject_Z. field. split; lra.
      * rewrite put_there by assumption. apply V1. lia.
  - rewrite E. cbn [bind].
    match goal with |- context [bind ?e _] =>
      assert (S1 : exists b', e = Some b' /\ has b' 0 /\
        (forall i, 1 <= i -> has b i -> has b' i) /\
        (forall i, 1 <= i -> val b' i = val b i) /\
        (natural N d0 = false -> (val b' 0 == 3 * (chord 0 - d0))%Q))
    end.
    { destruct (natural N d0).
      - rewrite wr_in by lia. eexists. split; [reflexivity|]. split; [apply has_here|].
        split; [intros; apply has_put; now left|]. split; [intros; apply put_there; lia|discriminate].
      - rewrite rise_ok by (try apply hf; try apply hh; lia). cbn [bind].
        rewrite wr_in by lia. eexists. split; [reflexivity|]. split; [apply has_here|].
        split; [intros; apply has_put; now left|]. split; [intros; apply put_there; lia|].
        intros _. rewrite put_here. cbn. unfold chord, inject_Z. reflexivity. }
    destruct S1 as (b' & -> & Z0 & Zh & Zv & Zd). cbn [bind].
    assert (S2 : exists w, (if natural N dn then wr N n b' n (sint N 0)
       else let* r0 := rise N n f0 h (n - 1) in wr N n b' n (smul N (sint N 3) (ssub N dn r0)))
       = Some (put b' n w) /\ (natural N dn = false -> (w == 3 * (dn - chord (n - 1)))%Q)).
    { destruct (natural N dn).
      - rewrite wr_in by lia. eexists. split; [reflexivity|discriminate].
      - rewrite rise_ok by (try apply hf; try apply hh; lia). cbn [bind].
        rewrite wr_in by lia. eexists. split; [reflexivity|]. intros _. cbn. unfold chord, inject_Z.
        reflexivity. }
    destruct S2 as (w & -> & Wn). eexists. split; [reflexivity|]. split; [|split; [|split]].
    + intros i Hi. destruct (Z.eq_dec i n) as [->|]; [apply has_here|].
      apply has_put. left. destruct (Z.eq_dec i 0) as [->|]; [assumption|].
      apply Zh; [lia|]. apply H1. lia.
    + intros i Hi. rewrite put_there by lia. rewrite Zv by lia. apply V1. lia.
    + intros X. rewrite put_there by lia. auto.
    + intros X. rewrite put_here. auto.
Qed.

Lemma forward_ok : forall b d0 dn, (forall i, 0 <= i <= n -> has b i) ->
  exists u z, forward N n h b d0 dn = Some (u, z) /\
  (forall i, 0 <= i <= n -> has u i) /\ (forall i, 0 <= i <= n -> has z i) /\
  (if natural N d0 then val u 0 = 0%Q /\ val z 0 = 0%Q
   else val u 0 = (1 # 2)%Q /\ (val z 0 * (2 * val h 0) == val b 0)%Q) /\
  (forall i, 1 <= i < n ->
     (val u i * (2 * (val h i + val h (i - 1)) - val h (i - 1) * val u (i - 1)) == val h i)%Q /\
     (val z i * (2 * (val h i + val h (i - 1)) - val h (i - 1) * val u (i - 1))
       == val b i - val z (i - 1) * val h (i - 1))%Q) /\
  (if natural N dn then val z n = 0%Q
   else (val z n * (val h (n - 1) * (2 - val u (n - 1))) == val b n - val z (n - 1) * val h (n - 1))%Q) /\
  val u n = sNV N.
Proof.
  intros b d0 dn hb. unfold forward.
  match goal with |- context [bind ?e _] =>
    assert (S1 : exists u0 z0, e = Some (put (alloc N) 0 u0, put b 0 z0) /\
      (0 <= u0 /\ u0 <= 1 # 2)%Q /\
      (if natural N d0 then u0 = 0%Q /\ z0 = 0%Q
       else u0 = (1 # 2)%Q /\ (z0 * (2 * val h 0) == val b 0)%Q))
  end.
  { destruct (natural N d0).
    - rewrite !wr_in by lia. cbn [bind]. eexists _, _. split; [reflexivity|].
      cbn. unfold inject_Z. split; [lra|split; reflexivity].
    - rewrite wr_in by lia. cbn [bind].
      rewrite (rd_has n b 0), (rd_has n h 0) by (try apply hb; try apply hh; lia). cbn [bind].
      rewrite wr_in by lia. cbn [bind]. eexists _, _. split; [reflexivity|].
      cbn. unfold inject_Z. split; [lra|split; [reflexivity|]].
      pose proof (h_pos 0 ltac:(lia)). field. lra. }
  destruct S1 as (u0 & z0 & -> & Hu0 & B0). cbn [bind].
  match goal with |- context [for_up 1 n ?bd ?s0] =>
    destruct (for_up_ind (arr * arr) (fun k uz => exists u z, uz = (u, z) /\
      (forall i, 0 <= i < k -> has u i) /\ (forall i, 0 <= i <= n -> has z i) /\
      (forall i, 0 <= i < k -> (0 <= val u i /\ val u i <= 1 # 2)%Q) /\
      val u 0 = u0 /\ val z 0 = z0 /\
      (forall i, 1 <= i < k ->
       (val u i * (2 * (val h i + val h (i - 1)) - val h (i - 1) * val u (i - 1)) == val h i)%Q /\
       (val z i * (2 * (val h i + val h (i - 1)) - val h (i - 1) * val u (i - 1))
         == val b i - val z (i - 1) * val h (i - 1))%Q) /\
      (forall i, k <= i <= n -> val z i = val b i)) bd 1 n s0)
      as (uz & E & u & z & -> & Hu & Hz & Bu & U0 & Z0 & Q & W)
  end.
  - lia.
  - eexists _, _. split; [reflexivity|]. repeat split.
    + intros i Hi. replace i with 0 by lia. apply has_here.
    + intros i Hi. apply has_put. left. now apply hb.
    + replace i with 0 by lia. rewrite put_here. tauto.
    + replace i with 0 by lia. rewrite put_here. tauto.
    + lia.
    + lia.
    + intros i Hi. apply put_there. lia.
  - intros j t Hj (u & z & -> & Hu & Hz & Bu & U0 & Z0 & Q & W).
    rewrite (rd_has n h j), (rd_has n h (j - 1)), (rd_has n u (j - 1))
      by (try apply hh; try apply Hu; lia). cbn [bind].
    rewrite wr_in by lia. cbn [bind].
    rewrite (rd_has n z j), (rd_has n z (j - 1)) by (try apply Hz; lia). cbn [bind].
    rewrite wr_in by lia. cbn [bind]. eexists. split; [reflexivity|].
    eexists _, _. split; [reflexivity|].
    cbn [sadd ssub smul sdiv sint SQ]. 
    pose proof (h_pos j ltac:(lia)) as hj. pose proof (h_pos (j - 1) ltac:(lia)) as hj1.
    destruct (Bu (j - 1) ltac:(lia)) as [ua ub].
    set (k := val h j) in *. set (g := val h (j - 1)) in *. set (v := val u (j - 1)) in *.
    assert (gv : (0 <= g * v /\ g * v <= g * (1 # 2))%Q).
    { split; [apply Qmult_le_0_compat; lra|]. rewrite !(Qmult_comm g). apply Qmult_le_compat_r; lra. }
    assert (pp : (2 * k < inject_Z 2 * (k + g) - g * v)%Q) by (unfold inject_Z; lra).
    set (pv := (inject_Z 2 * (k + g) - g * v)%Q) in *.
    assert (pe : (pv == 2 * (k + g) - g * v)%Q) by (subst pv; unfold inject_Z; reflexivity).
    clearbody pv.
    repeat match goal with |- _ /\ _ => split end.
    + intros i Hi. destruct (Z.eq_dec i j) as [->|]; [apply has_here|].
      apply has_put. left. apply Hu. lia.
    + intros i Hi. apply has_put. left. now apply Hz.
    + intros i Hi. destruct (Z.eq_dec i j) as [->|].
      * rewrite put_here. split.
        -- apply Qle_shift_div_l; lra.
        -- apply Qle_shift_div_r; lra.
      * rewrite put_there by assumption. apply Bu. lia.
    + rewrite put_there by lia. assumption.
    + rewrite put_there by lia. assumption.
    + intros i Hi. rewrite (put_there u j (i - 1)), (put_there z j (i - 1)) by lia.
      destruct (Z.eq_dec i j) as [->|].
      * rewrite !put_here. fold k g v. rewrite <- pe. rewrite (W j) by lia.
        split; field; lra.
      * rewrite !put_there by assumption. apply Q. lia.
    + intros i Hi. rewrite put_there by lia. apply W. lia.
  - rewrite E. cbn [bind].
    match goal with |- context [bind (if natural N dn then ?p else ?q) _] =>
      assert (S2 : exists w, (if natural N dn then p else q) = Some (put z n w) /\
       (if natural N dn then w = 0%Q
        else (w * (val h (n - 1) * (2 - val u (n - 1))) == val b n - val z (n - 1) * val h (n - 1))%Q))
    end.
    { destruct (natural N dn).
      - rewrite wr_in by lia. eexists. split; reflexivity.
      - rewrite (rd_has n h (n - 1)), (rd_has n u (n - 1)), (rd_has n z n), (rd_has n z (n - 1))
          by (try apply hh; try apply Hu; try apply Hz; lia). cbn [bind].
        rewrite wr_in by lia. eexists. split; [reflexivity|]. cbn. unfold inject_Z.
        rewrite (W n) by lia. pose proof (h_pos (n - 1) ltac:(lia)) as hp.
        destruct (Bu (n - 1) ltac:(lia)) as [ua ub].
        field. split; [lra|]. lra. }
    destruct S2 as (w & -> & Bn). cbn [bind]. rewrite wr_in by lia. cbn [bind].
    eexists _, _. split; [reflexivity|].
    repeat match goal with |- _ /\ _ => split end.
    + intros i Hi. destruct (Z.eq_dec i n) as [->|]; [apply has_here|].
      apply has_put. left. apply Hu. lia.
    + intros i Hi. apply has_put. left. now apply Hz.
    + rewrite !put_there by lia. rewrite U0, Z0. assumption.
    + intros i Hi. rewrite !put_there by lia. apply Q. lia.
    + rewrite put_here, !put_there by lia. assumption.
    + apply put_here.
Qed.

Lemma backward_ok : forall u z, (forall i, 0 <= i <= n -> has u i) -> (forall i, 0 <= i <= n -> has z i) ->
  exists f1 f2 f3, backward N n f0 u z h = Some (f1, f2, f3) /\
  (forall i, 0 <= i <= n -> has f1 i /\ has f2 i /\ has f3 i) /\
  val f2 n = val z n /\ val f1 n = val u n /\
  (forall i, 0 <= i < n -> (val f2 i == val z i - val u i * val f2 (i + 1))%Q /\
     (val f1 i == chord i - val h i * (val f2 (i + 1) + 2 * val f2 i) / 3)%Q /\
     (val f3 i == (val f2 (i + 1) - val f2 i) / (3 * val h i))%Q).
Proof.
  intros u z Hu Hz. unfold backward.
  rewrite rd_has by (try apply Hz; lia). cbn [bind]. rewrite !wr_in by lia. cbn [bind].
  match goal with |- context [for_down (n - 1) (-1) ?bd ?s0] =>
    destruct (for_down_ind (arr * arr * arr) (fun k a => exists f1 f2 f3, a = (f1, f2, f3) /\
      (forall i, 0 <= i <= n -> has f1 i /\ has f2 i /\ has f3 i) /\
      val f2 n = val z n /\ val f1 n = val u n /\
      (forall i, 0 <= i <= k -> val f1 i = val u i /\ val f2 i = val z i /\ val f3 i = val h i) /\
      (forall i, k < i < n -> (val f2 i == val z i - val u i * val f2 (i + 1))%Q /\
       (val f1 i == chord i - val h i * (val f2 (i + 1) + 2 * val f2 i) / 3)%Q /\
       (val f3 i == (val f2 (i + 1) - val f2 i) / (3 * val h i))%Q)) bd (n - 1) (-1) s0)
      as (a & E & f1 & f2 & f3 & -> & HH & A & B & _ & Q)
  end.
  - lia.
  - eexists _, _, _. split; [reflexivity|]. repeat match goal with |- _ /\ _ => split end.
    + intros i Hi. repeat split; [now apply Hu| |]; apply has_put; left; [now apply Hz|now apply hh].
    + apply put_here.
    + reflexivity.
    + intros i Hi. rewrite !put_there by lia. repeat split; reflexivity.
    + intros; lia.
  - intros j t Hj (f1 & f2 & f3 & -> & HH & A & B & W & Q).
    destruct (HH j ltac:(lia)) as (G1 & G2 & G3). destruct (HH (j + 1) ltac:(lia)) as (K1 & K2 & K3).
    rewrite (rd_has n f2 j), (rd_has n f1 j), (rd_has n f2 (j + 1)) by (assumption || lia). cbn [bind].
    rewrite wr_in by lia. cbn [bind].
    rewrite rise_ok by (try apply hf; assumption || lia). cbn [bind].
    rewrite (rd_has n f3 j) by (assumption || lia). cbn [bind].
    rewrite rd_has by (try apply has_here; lia). cbn [bind].
    rewrite !wr_in by lia. cbn [bind]. eexists. split; [reflexivity|].
    eexists _, _, _. split; [reflexivity|].
    destruct (W j ltac:(lia)) as (w1 & w2 & w3). rewrite !put_here, w1, w2, w3.
    cbn [sadd ssub smul sdiv sint SQ].
    repeat match goal with |- _ /\ _ => split end.
    + intros i Hi. destruct (HH i Hi) as (? & ? & ?). repeat split; apply has_put; now left.
    + rewrite put_there by lia. assumption.
    + rewrite put_there by lia. assumption.
    + intros i Hi. rewrite !put_there by lia. apply W. lia.
    + intros i Hi. rewrite (put_there f2 j (i + 1)) by lia.
      destruct (Z.eq_dec i j) as [->|].
      * rewrite !put_here. unfold chord, inject_Z. repeat split; reflexivity.
      * rewrite !put_there by assumption. apply Q. lia.
  - rewrite E. exists f1, f2, f3. split; [reflexivity|]. split; [assumption|].
    split; [assumption|]. split; [assumption|]. intros i Hi. apply Q. lia.
Qed.

Lemma order_3_ok : forall d0 dn : Q, exists s M lo,
  order_3 N n x f0 h d0 dn = (if natural N d0 || seqb N lo d0 then Some s else None) /\
  sn N s = n /\ sx N s = x /\ sf0 N s = f0 /\ sorder N s = 3 /\ sd0 N s = Some lo /\
  lo = fixzero N (val (sf1 N s) 0) (if n =? 1 then sNV N else val (sf1 N s) 1) /\
  (forall i, 0 <= i <= n -> has (sf1 N s) i /\ has (sf2 N s) i /\ has (sf3 N s) i) /\
  (forall i, 0 <= i < n -> (val (sf2 N s) i == M i)%Q /\
     (val (sf1 N s) i == chord i - val h i * (M (i + 1)%Z + 2 * M i) / 3)%Q /\
     (val (sf3 N s) i * (3 * val h i) == M (i + 1)%Z - M i)%Q) /\
  (if natural N d0 then M 0%Z == 0 else val (sf1 N s) 0 == d0)%Q /\
  (forall i, 1 <= i < n ->
     (val h (i - 1) * M (i - 1)%Z + 2 * (val h (i - 1) + val h i) * M i + val h i * M (i + 1)%Z
      == 3 * (chord i - chord (i - 1)))%Q) /\
  (if natural N dn then M n == 0
   else val h (n - 1) * M (n - 1)%Z + 2 * val h (n - 1) * M n == 3 * (dn - chord (n - 1)))%Q /\
  (val (sf1 N s) n == if natural N dn then val (sf1 N s) (n - 1) + val h (n - 1) * M (n - 1)%Z else dn)%Q /\
  val (sf2 N s) n = 0%Q /\ val (sf3 N s) n = 0%Q.
Proof.
  intros d0 dn. unfold order_3.
  destruct (right_side_ok d0 dn) as (b & -> & Hb & Vb & b0 & bn). cbn [bind].
  destruct (forward_ok b d0 dn Hb) as (u & z & -> & Hu & Hz & B0 & Q & Bn & Un). cbn [bind].
  destruct (backward_ok u z Hu Hz) as (f1 & f2 & f3 & -> & HH & Zn & Fn & V). cbn [bind].
  rewrite (rd_has n f1 0), (rd_has n f1 1) by (try apply HH; lia). cbn [bind].
  set (lo := fixzero N (val f1 0) (val f1 1)).
  assert (S1 : exists w, (if natural N dn then
       let* s := rd N n f1 (n - 1) in let* xn := rd N n x n in let* xm := rd N n x (n - 1) in
       let* c := rd N n f2 (n - 1) in wr N n f1 n (sadd N s (smul N (ssub N xn xm) c))
     else wr N n f1 n dn) = Some (put f1 n w) /\
     (w == if natural N dn then val f1 (n - 1) + val h (n - 1) * val f2 (n - 1) else dn)%Q).
  { destruct (natural N dn).
    - rewrite (rd_has n f1 (n - 1)), (rd_has n x n), (rd_has n x (n - 1)), (rd_has n f2 (n - 1))
        by (try apply hx; try apply HH; lia). cbn [bind].
      rewrite wr_in by lia. eexists. split; [reflexivity|]. rewrite (hv (n - 1)) by lia.
      replace (n - 1 + 1) with n by lia. reflexivity.
    - rewrite wr_in by lia. eexists. split; reflexivity. }
  destruct S1 as (w & -> & Ew). cbn [bind]. rewrite !wr_in by lia. cbn [bind].
  eexists (mksp N n x f0 (put f1 n w) (put f2 n _) (put f3 n _) 3 (Some lo)), (val f2), lo.
  split; [reflexivity|]. cbn [sn sx sf0 sf1 sf2 sf3 sorder sd0].
  repeat (split; [reflexivity|]).
  assert (P0 : forall i, 1 <= i < n ->
     (val h (i - 1) * val f2 (i - 1) + 2 * (val h (i - 1) + val h i) * val f2 i + val h i * val f2 (i + 1)
      == 3 * (chord i - chord (i - 1)))%Q).
  { intros i Hi. destruct (Q i Hi) as [q1 q2]. destruct (V i ltac:(lia)) as (v1 & _).
    destruct (V (i - 1) ltac:(lia)) as (v2 & _). replace (i - 1 + 1) with i in v2 by lia.
    rewrite <- (Vb i Hi).
    assert (zb : (val b i == val z i * (2 * (val h i + val h (i - 1)) - val h (i - 1) * val u (i - 1))
                  + val z (i - 1) * val h (i - 1))%Q) by (rewrite q2; ring).
    assert (za : (val z (i - 1) == val f2 (i - 1) + val u (i - 1) * val f2 i)%Q) by (rewrite v2; ring).
    assert (zc : (val z i == val f2 i + val u i * val f2 (i + 1))%Q) by (rewrite v1; ring).
    rewrite zb, zc, za.
    assert (q3 : (val u i * (2 * (val h i + val h (i - 1)) - val h (i - 1) * val u (i - 1)) * val f2 (i + 1)
            == val h i * val f2 (i + 1))%Q) by (rewrite q1; reflexivity).
    rewrite <- q3. ring. }
  repeat match goal with |- _ /\ _ => split end.
  - unfold lo. rewrite !put_there by lia. destruct (n =? 1) eqn:E1.
    + replace n with 1 in * by lia. now rewrite Fn, Un.
    + rewrite put_there by lia. reflexivity.
  - intros i Hi. destruct (HH i Hi) as (? & ? & ?). repeat split; apply has_put; now left.
  - intros i Hi. rewrite !put_there by lia. destruct (V i Hi) as (v1 & v2 & v3).
    split; [reflexivity|]. split; [assumption|]. rewrite v3. pose proof (h_pos i Hi). field. lra.
  - destruct (natural N d0).
    + destruct B0 as [e1 e2]. destruct (V 0 ltac:(lia)) as (v1 & _). rewrite v1, e1, e2. ring.
    + rewrite put_there by lia. destruct B0 as [e1 e2]. destruct (V 0 ltac:(lia)) as (v1 & v2 & _).
      rewrite v2. rewrite b0 in e2 by reflexivity.
      assert (zc : (val z 0 == val f2 0 + (1 # 2) * val f2 (0 + 1))%Q) by (rewrite v1, e1; ring).
      rewrite zc in e2.
      assert (e3 : (val h 0 * (val f2 (0 + 1) + 2 * val f2 0) == 3 * (chord 0 - d0))%Q)
        by (rewrite <- e2; ring).
      rewrite e3. field.
  - assumption.
  - destruct (natural N dn).
    + now rewrite Zn, Bn.
    + destruct (V (n - 1) ltac:(lia)) as (v1 & _). replace (n - 1 + 1) with n in v1 by lia.
      rewrite <- bn by reflexivity. rewrite Zn in *.
      assert (za : (val z (n - 1) == val f2 (n - 1) + val u (n - 1) * val z n)%Q) by (rewrite v1; ring).
      assert (zb : (val b n == val z n * (val h (n - 1) * (2 - val u (n - 1))) + val z (n - 1) * val h (n - 1))%Q)
        by (rewrite Bn; ring).
      rewrite zb, za. ring.
  - rewrite put_here. destruct (natural N dn); [rewrite put_there by lia|]; exact Ew.
  - apply put_here.
  - apply put_here.
Qed.
End Build.

(* ---- finding the piece ---- *)
Lemma first_above_ok : forall n x v k i m, 0 <= i -> i <= m <= i + Z.of_nat k -> i + Z.of_nat k <= n + 1 ->
  (forall j, i <= j < i + Z.of_nat k -> has x j) ->
  (forall j, i <= j < m -> (val x j <= v)%Q) ->
  (m < i + Z.of_nat k -> (v < val x m)%Q) ->
  first_above N n x k i v = Some m.
Proof.
  intros n x v k. induction k as [|k IH]; intros i m Hi Hm Hn Hx Hle Hlt; cbn [first_above].
  - f_equal. lia.
  - rewrite rd_has by (try apply Hx; lia). cbn [bind].
    change (sltb N v (val x i)) with (qltb v (val x i)).
    destruct (qltb_spec v (val x i)) as [L|G].
    + f_equal. destruct (Z.eq_dec i m) as [|ne]; [assumption|].
      exfalso. assert (val x i <= v)%Q by (apply Hle; lia). lra.
    + destruct (Z.eq_dec i m) as [->|ne].
      * exfalso. apply G, Hlt. lia.
      * apply IH; try lia.
        -- intros j Hj. apply Hx. lia.
        -- intros j Hj. apply Hle. lia.
        -- intros. apply Hlt. lia.
Qed.

Lemma all_above_ok : forall n x v k i, 0 <= i -> i + Z.of_nat k <= n + 1 ->
  (forall j, i <= j < i + Z.of_nat k -> has x j /\ (v < val x j)%Q) ->
  all_above N n x k i v = Some true.
Proof.
  intros n x v k. induction k as [|k IH]; intros i Hi Hn Hx; cbn [all_above]; [reflexivity|].
  destruct (Hx i ltac:(lia)) as [h1 h2].
  rewrite rd_has by (assumption || lia). cbn [bind].
  rewrite IH; [|lia|lia|intros; apply Hx; lia]. cbn [bind].
  change (sltb N v (val x i)) with (qltb v (val x i)).
  destruct (qltb_spec v (val x i)); [reflexivity|contradiction].
Qed.

Section Find.
Variables (n : Z) (x : arr).
Hypothesis n0 : 0 <= n.
Hypothesis hx : forall i, 0 <= i <= n -> has x i.
Hypothesis asc : forall i, 0 <= i < n -> (val x i < val x (i + 1))%Q.

Lemma asc_le : forall i j, 0 <= i -> i <= j -> j <= n -> (val x i <= val x j)%Q.
Proof.
  intros i j Hi Hij Hj. replace j with (i + Z.of_nat (Z.to_nat (j - i))) by lia.
  assert (Hb : i + Z.of_nat (Z.to_nat (j - i)) <= n) by lia.
  revert Hb. generalize (Z.to_nat (j - i)). intros k. induction k as [|k IH]; intros Hb.
  - replace (i + Z.of_nat 0) with i by lia. lra.
  - replace (i + Z.of_nat (S k)) with (i + Z.of_nat k + 1) by lia.
    pose proof (asc (i + Z.of_nat k) ltac:(lia)). specialize (IH ltac:(lia)). lra.
Qed.

Lemma upper_below : forall v, (v < val x 0)%Q -> upper_bound N n x v = Some 0.
Proof.
  intros v H. unfold upper_bound.
  rewrite (first_above_ok n x v _ 0 0); try lia.
  - cbn [bind]. rewrite all_above_ok; [reflexivity|lia|lia|].
    intros j Hj. split; [apply hx; lia|]. pose proof (asc_le 0 j ltac:(lia) ltac:(lia) ltac:(lia)). lra.
  - intros j Hj. apply hx. lia.
  - intros; assumption.
Qed.

Lemma upper_at : forall i v, 0 <= i <= n -> (val x i <= v)%Q -> (i < n -> (v < val x (i + 1))%Q) ->
  upper_bound N n x v = Some (i + 1).
Proof.
  intros i v Hi Hle Hlt. unfold upper_bound.
  rewrite (first_above_ok n x v _ 0 (i + 1)); try lia.
  - cbn [bind]. rewrite all_above_ok; [reflexivity|lia|lia|].
    intros j Hj. split; [apply hx; lia|].
    pose proof (asc_le (i + 1) j ltac:(lia) ltac:(lia) ltac:(lia)). specialize (Hlt ltac:(lia)). lra.
  - intros j Hj. apply hx. lia.
  - intros j Hj. pose proof (asc_le j i ltac:(lia) ltac:(lia) ltac:(lia)). lra.
  - intros. apply Hlt. lia.
Qed.

(* every number is below the first point or in exactly one piece *)
Lemma somewhere : forall v, (v < val x 0)%Q \/
  exists i, 0 <= i <= n /\ (val x i <= v)%Q /\ (i < n -> (v < val x (i + 1))%Q).
Proof.
  intros v. destruct (Qlt_le_dec v (val x 0)) as [L|G]; [now left|right].
  assert (H : forall k, (k <= Z.to_nat n)%nat ->
    (exists i, 0 <= i < Z.of_nat k /\ (val x i <= v)%Q /\ (v < val x (i + 1))%Q) \/ (val x (Z.of_nat k) <= v)%Q).
  { induction k as [|k IH]; intros Hk; [now right|].
    destruct (IH ltac:(lia)) as [(i & Hi & A & B)|C].
    - left. exists i. split; [lia|now split].
    - destruct (Qlt_le_dec v (val x (Z.of_nat k + 1))) as [L1|G1].
      + left. exists (Z.of_nat k). split; [lia|now split].
      + right. replace (Z.of_nat (S k)) with (Z.of_nat k + 1) by lia. assumption. }
  destruct (H (Z.to_nat n) (le_n _)) as [(i & Hi & A & B)|C].
  - exists i. split; [lia|]. split; [assumption|]. auto.
  - exists n. replace (Z.of_nat (Z.to_nat n)) with n in C by lia.
    split; [lia|]. split; [assumption|]. lia.
Qed.
End Find.

(* ---- a spline as a list of cubics ---- *)
Definition shows (s : spline N) (v a d : Q) : Prop :=
  exists a' d', at_ N s v = Some (v, a', d') /\ (a' == a)%Q /\ (d' == d)%Q.

Record pieces (s : spline N) (n : Z) (x f0 : arr) (c1 c2 c3 : Z -> Q) (lo : Q) : Prop := mkpieces {
  pc_below : forall v, (v < val x 0)%Q -> shows s v (val f0 0 + (v - val x 0) * lo)%Q lo;
  pc_at : forall i v, 0 <= i <= n -> (val x i <= v)%Q -> (i < n -> (v < val x (i + 1))%Q) ->
    shows s v (val f0 i + (v - val x i) * (c1 i + (v - val x i) * (c2 i + (v - val x i) * c3 i)))%Q
              (c1 i + (v - val x i) * (2 * c2 i + 3 * (v - val x i) * c3 i))%Q }.

Section Show.
Variables (s : spline N) (n : Z) (x f0 : arr).
Hypothesis n0 : 0 <= n.
Hypothesis hx : forall i, 0 <= i <= n -> has x i.
Hypothesis hf : forall i, 0 <= i <= n -> has f0 i.
Hypothesis asc : forall i, 0 <= i < n -> (val x i < val x (i + 1))%Q.
Hypothesis en : sn N s = n.
Hypothesis ex : sx N s = x.
Hypothesis ef : sf0 N s = f0.

Lemma show_0 : sorder N s = 0 -> pieces s n x f0 (fun _ => 0%Q) (fun _ => 0%Q) (fun _ => 0%Q) 0%Q.
Proof.
  intros eo. constructor.
  - intros v H. unfold shows, at_. rewrite en, ex, ef, eo.
    rewrite upper_below by assumption. cbn [bind Z.eqb].
    rewrite rd_has by (try apply hf; lia). cbn [bind].
    eexists _, _. split; [reflexivity|]. cbn. unfold inject_Z. split; [ring|reflexivity].
  - intros i v Hi H1 H2. unfold shows, at_. rewrite en, ex, ef, eo.
    rewrite (upper_at n x n0 hx asc i) by assumption. cbn [bind].
    replace (i + 1 =? 0) with false by lia. replace (i + 1 - 1) with i by lia.
    rewrite !rd_has by (try apply hf; try apply hx; lia). cbn [bind].
    cbn [Z.eqb]. eexists _, _. split; [reflexivity|]. cbn. unfold inject_Z. split; ring.
Qed.

Lemma show_1 : forall lo, sorder N s = 1 -> sd0 N s = Some lo -> (forall i, 0 <= i <= n -> has (sf1 N s) i) ->
  pieces s n x f0 (val (sf1 N s)) (fun _ => 0%Q) (fun _ => 0%Q) lo.
Proof.
  intros lo eo el h1. constructor.
  - intros v H. unfold shows, at_. rewrite en, ex, ef, eo.
    rewrite upper_below by assumption. cbn [bind Z.eqb].
    rewrite !rd_has by (try apply hf; try apply hx; lia). cbn [bind]. rewrite el. cbn [bind].
    eexists _, _. split; [reflexivity|]. split; reflexivity.
  - intros i v Hi H1 H2. unfold shows, at_. rewrite en, ex, ef, eo.
    rewrite (upper_at n x n0 hx asc i) by assumption. cbn [bind].
    replace (i + 1 =? 0) with false by lia. replace (i + 1 - 1) with i by lia.
    rewrite !rd_has by (try apply hf; try apply hx; try apply h1; lia). cbn [bind].
    cbn [Z.eqb Pos.eqb]. eexists _, _. split; [reflexivity|]. cbn. split; ring.
Qed.

Lemma show_2 : forall lo, sorder N s = 2 -> sd0 N s = Some lo -> (forall i, 0 <= i <= n -> has (sf1 N s) i) ->
  (forall i, 0 <= i <= n -> has (sf2 N s) i) ->
  pieces s n x f0 (val (sf1 N s)) (val (sf2 N s)) (fun _ => 0%Q) lo.
Proof.
  intros lo eo el h1 h2. constructor.
  - intros v H. unfold shows, at_. rewrite en, ex, ef, eo.
    rewrite upper_below by assumption. cbn [bind Z.eqb].
    rewrite !rd_has by (try apply hf; try apply hx; lia). cbn [bind]. rewrite el. cbn [bind].
    eexists _, _. split; [reflexivity|]. split; reflexivity.
  - intros i v Hi H1 H2. unfold shows, at_. rewrite en, ex, ef, eo.
    rewrite (upper_at n x n0 hx asc i) by assumption. cbn [bind].
    replace (i + 1 =? 0) with false by lia. replace (i + 1 - 1) with i by lia.
    rewrite !rd_has by (try apply hf; try apply hx; try apply h1; try apply h2; lia). cbn [bind].
    cbn [Z.eqb Pos.eqb]. eexists _, _. split; [reflexivity|]. cbn. unfold inject_Z. split; ring.
Qed.

Lemma show_3 : forall lo, sorder N s = 3 -> sd0 N s = Some lo ->
  (forall i, 0 <= i <= n -> has (sf1 N s) i /\ has (sf2 N s) i /\ has (sf3 N s) i) ->
  pieces s n x f0 (val (sf1 N s)) (val (sf2 N s)) (val (sf3 N s)) lo.
Proof.
  intros lo eo el h1. constructor.
  - intros v H. unfold shows, at_. rewrite en, ex, ef, eo.
    rewrite upper_below by assumption. cbn [bind Z.eqb].
    rewrite !rd_has by (try apply hf; try apply hx; lia). cbn [bind]. rewrite el. cbn [bind].
    eexists _, _. split; [reflexivity|]. split; reflexivity.
  - intros i v Hi H1 H2. unfold shows, at_. rewrite en, ex, ef, eo.
    rewrite (upper_at n x n0 hx asc i) by assumption. cbn [bind].
    replace (i + 1 =? 0) with false by lia. replace (i + 1 - 1) with i by lia.
    rewrite !rd_has by (try apply hf; try apply hx; try apply h1; lia). cbn [bind].
    cbn [Z.eqb Pos.eqb]. eexists _, _. split; [reflexivity|]. cbn. unfold inject_Z. split; ring.
Qed.
End Show.

(* ---- the whole construction ---- *)
Lemma column_has : forall f (t : list (Q * Q)) i, 0 <= i < Z.of_nat (length t) -> has (column N f t) i.
Proof.
  intros f t i H. unfold has, column. replace (i <? 0) with false by lia.
  change (T N) with Q in *. destruct (nth_error t (Z.to_nat i)) eqn:E; [discriminate|].
  apply nth_error_None in E. lia.
Qed.

Lemma column_val : forall (f : Q * Q -> Q) (l : list (Q * Q)) p l', val (column N f (l ++ p :: l')) (Z.of_nat (length l)) = f p.
Proof.
  intros f l p l'. unfold val, column. replace (Z.of_nat (length l) <? 0) with false by lia.
  rewrite Nat2Z.id, nth_error_app2, Nat.sub_diag by lia. reflexivity.
Qed.

(* consecutive points of the table *)
Definition next_to (t : list (Q * Q)) (a b : Q * Q) : Prop := exists l l', t = l ++ a :: b :: l'.

Lemma next_index : forall (t : list (Q * Q)) i, 0 <= i < Z.of_nat (length t) - 1 ->
  exists a b : Q * Q, next_to t a b /\ val (column N fst t) i = fst a /\ val (column N fst t) (i + 1) = fst b /\
    val (column N snd t) i = snd a /\ val (column N snd t) (i + 1) = snd b.
Proof.
  intros t i Hi.
  destruct (nth_error t (Z.to_nat i)) as [a|] eqn:E1; [|apply nth_error_None in E1; lia].
  destruct (nth_error_split t (Z.to_nat i) E1) as (l & l1 & -> & El).
  destruct l1 as [|b l']; [rewrite app_length in Hi; cbn in Hi; lia|].
  exists a, b. split; [now exists l, l'|].
  replace i with (Z.of_nat (length l)) by lia.
  rewrite !column_val. split; [reflexivity|]. split; [|split; [reflexivity|]];
    (replace (l ++ a :: b :: l') with ((l ++ [a]) ++ b :: l') by (rewrite <- app_assoc; reflexivity));
    replace (Z.of_nat (length l) + 1) with (Z.of_nat (length (l ++ [a])))
      by (rewrite app_length; cbn; lia); apply column_val.
Qed.

Lemma next_at : forall (l : list (Q * Q)) (a b : Q * Q) l', let t := l ++ a :: b :: l' in let i := Z.of_nat (length l) in
  0 <= i < Z.of_nat (length t) - 1 /\
  val (column N fst t) i = fst a /\ val (column N fst t) (i + 1) = fst b /\
  val (column N snd t) i = snd a /\ val (column N snd t) (i + 1) = snd b.
Proof.
  intros l a b l' t i. subst t i. split; [rewrite app_length; cbn; lia|].
  rewrite !column_val. split; [reflexivity|]. split; [|split; [reflexivity|]];
    (replace (l ++ a :: b :: l') with ((l ++ [a]) ++ b :: l') by (rewrite <- app_assoc; reflexivity));
    replace (Z.of_nat (length l) + 1) with (Z.of_nat (length (l ++ [a])))
      by (rewrite app_length; cbn; lia); apply column_val.
Qed.

Lemma in_turn_next : forall t last, in_turn N last t = true ->
  forall a b, next_to t a b -> (fst a <= fst b)%Q.
Proof.
  induction t as [|p t IH]; intros last H a b (l & l' & E).
  - destruct l; discriminate.
  - cbn [in_turn] in H. apply andb_prop in H. destruct H as [_ H].
    destruct l as [|c l]; cbn in E; injection E as -> ->.
    + cbn [in_turn] in H. apply andb_prop in H. destruct H as [H _].
      cbn in H. apply negb_true_iff in H. destruct (qltb_spec (fst b) (fst a)); [discriminate|].
      destruct (Qlt_le_dec (fst b) (fst a)); [contradiction|assumption].
    + apply (IH _ H). now exists l, l'.
Qed.

Lemma next_in_turn : forall t last, (forall p t', t = p :: t' -> (last <= fst p)%Q) ->
  (forall a b, next_to t a b -> (fst a <= fst b)%Q) -> in_turn N last t = true.
Proof.
  induction t as [|p t IH]; intros last H0 H; cbn [in_turn]; [reflexivity|].
  apply andb_true_intro. split.
  - cbn. specialize (H0 p t eq_refl). destruct (qltb_spec (fst p) last); [exfalso; lra|reflexivity].
  - apply IH.
    + intros q t' ->. apply H. now exists [], t'.
    + intros a b (l & l' & ->). apply H. now exists (p :: l), l'.
Qed.

(* What fit builds from two or more points. *)
Record built (t : list (Q * Q)) (below above : Q) (order : Z) (s : spline N)
    (c1 c2 c3 : Z -> Q) (lo : Q) : Prop := mkbuilt {
  b_pieces : pieces s (Z.of_nat (length t) - 1) (column N fst t) (column N snd t) c1 c2 c3 lo;
  b_zero : order = 0 -> (forall i, c1 i == 0)%Q /\ (forall i, c2 i == 0)%Q /\ (forall i, c3 i == 0)%Q /\ (lo == 0)%Q;
  b_value : 1 <= order -> forall i, 0 <= i < Z.of_nat (length t) - 1 ->
    let h := (val (column N fst t) (i + 1) - val (column N fst t) i)%Q in
    (val (column N snd t) (i + 1) == val (column N snd t) i + h * (c1 i + h * (c2 i + h * c3 i)))%Q;
  b_slope : 2 <= order -> forall i, 0 <= i < Z.of_nat (length t) - 1 ->
    let h := (val (column N fst t) (i + 1) - val (column N fst t) i)%Q in
    (c1 (i + 1)%Z == c1 i + h * (2 * c2 i + 3 * h * c3 i))%Q;
  b_bend : order = 3 -> forall i, 1 <= i < Z.of_nat (length t) - 1 ->
    let h := (val (column N fst t) i - val (column N fst t) (i - 1))%Q in
    (c2 i == c2 (i - 1)%Z + 3 * h * c3 (i - 1)%Z)%Q;
  b_line : order = 1 -> (forall i, c2 i == 0)%Q;
  b_quad : order <= 2 -> (forall i, c3 i == 0)%Q;
  b_last : (c2 (Z.of_nat (length t) - 1)%Z == 0)%Q /\ (c3 (Z.of_nat (length t) - 1)%Z == 0)%Q;
  b_nat0 : order = 3 -> (below == sNI N)%Q -> (c2 0%Z == 0)%Q;
  b_natn : order = 3 -> (above == sNI N)%Q ->
    let n := Z.of_nat (length t) - 1 in
    let h := (val (column N fst t) n - val (column N fst t) (n - 1))%Q in
    (c2 (n - 1)%Z + 3 * h * c3 (n - 1)%Z == 0)%Q;
  b_d0 : ~ (below == sNI N)%Q -> order = 3 \/ order = 2 /\ (above == sNI N)%Q -> (c1 0%Z == below)%Q;
  b_dn : 1 <= order -> ~ (above == sNI N)%Q -> (c1 (Z.of_nat (length t) - 1)%Z == above)%Q;
  b_dn1 : order = 1 -> (above == sNI N)%Q ->
    (c1 (Z.of_nat (length t) - 1)%Z == c1 (Z.of_nat (length t) - 1 - 1)%Z)%Q;
  b_end2 : order = 2 -> (below == sNI N)%Q -> (above == sNI N)%Q -> (c2 (Z.of_nat (length t) - 1 - 1)%Z == 0)%Q;
  b_lo : 1 <= order -> ~ (below == sNI N)%Q -> (lo == below)%Q;
  b_lo1 : 1 <= order <= 2 -> (below == sNI N)%Q -> (lo == c1 0%Z)%Q;
  b_lo3 : order = 3 -> (below == sNI N)%Q ->
    lo = fixzero N (c1 0%Z) (if Z.of_nat (length t) - 1 =? 1 then sNV N else c1 1%Z) }.

Lemma nat_spec : forall d, reflect (d == sNI N)%Q (natural N d).
Proof. intros d. unfold natural. apply qeqb_spec. Qed.

Lemma construct_ok : forall (t : list (Q * Q)) (below above : Q) (order : Z), 2 <= Z.of_nat (length t) -> 0 <= order <= 3 ->
  (forall a b, next_to t a b -> (fst a < fst b)%Q) ->
  (forall s, construct N t below above order = Some (Done _ s) ->
     exists c1 c2 c3 lo, built t below above order s c1 c2 c3 lo) /\
  (construct N t below above order <> Some (Thrown _)) /\
  (order = 3 -> (below == sNI N)%Q \/ (below == 0)%Q ->
     exists s, construct N t below above order = Some (Done _ s)) /\
  (order <= 2 -> exists s, construct N t below above order = Some (Done _ s)).
Proof.
  intros t below above order Ht Ho Hlt. unfold construct.
  set (n := Z.of_nat (length t) - 1) in *. cbv zeta.
  change (Z.of_nat (@length (T N * T N) t) - 1) with n.
  assert (lt_n : Z.of_nat (length t) = n + 1) by (unfold n; lia).
  replace (n <? 0) with false by lia.
  set (x := column N fst t) in *. set (f0 := column N snd t) in *.
  assert (hx : forall i, 0 <= i <= n -> has x i) by (intros; apply column_has; lia).
  assert (hf : forall i, 0 <= i <= n -> has f0 i) by (intros; apply column_has; lia).
  assert (asc : forall i, 0 <= i < n -> (val x i < val x (i + 1))%Q).
  { intros i Hi. destruct (next_index t i Hi) as (a & b & Hn & e1 & e2 & _).
    fold x in e1, e2. rewrite e1, e2. now apply Hlt. }
  destruct (steps_ok n x ltac:(lia) hx asc) as (h & -> & hh & hv & _). cbn [bind].
  assert (n1 : 1 <= n) by lia.
  assert (hp := h_pos n x h hv asc).
  assert (O : order = 0 \/ order = 1 \/ order = 2 \/ order = 3) by lia.
  destruct O as [ -> | [ -> | [ -> | -> ]]]; cbn [Z.eqb Pos.eqb].
  - split; [|split; [discriminate|split; [lia|intros; eexists; reflexivity]]].
    intros s E. injection E as <-.
    exists (fun _ => 0%Q), (fun _ => 0%Q), (fun _ => 0%Q), 0%Q.
    constructor; try lia; try (intros; reflexivity); try (split; reflexivity).
    + apply show_0; try reflexivity; try assumption. lia.
    + intros _. repeat split; intros; reflexivity.
  - destruct (order_1_ok n x f0 h n1 hf hh below above) as (s0 & -> & e1 & e2 & e3 & e4 & h1 & v1 & en & el).
    cbn [bind]. split; [|split; [discriminate|split; [lia|intros; eexists; reflexivity]]].
    intros s E. injection E as <-.
    exists (val (sf1 N s0)), (fun _ => 0%Q), (fun _ => 0%Q), (if natural N below then val (sf1 N s0) 0 else below).
    constructor; try lia; try (intros; reflexivity); try (split; reflexivity).
    + apply (show_1 s0 n x f0); try assumption; try eassumption. lia.
    + intros _ i Hi. fold n in Hi. cbv zeta. fold x f0. rewrite (v1 i Hi), <- (hv i Hi).
      pose proof (hp i Hi). field. lra.
    + intros _ D1. fold n. rewrite en. destruct (nat_spec above); [contradiction|reflexivity].
    + intros _ D1. fold n. rewrite en. destruct (nat_spec above); [reflexivity|contradiction].
    + intros _ D1. destruct (nat_spec below); [contradiction|reflexivity].
    + intros _ D1. destruct (nat_spec below); [reflexivity|contradiction].
  - destruct (order_2_ok n x f0 h n1 hf hh hv asc below above)
      as (s0 & -> & e1 & e2 & e3 & e4 & h1 & h2 & v1 & v2 & z2 & bn & b0 & bf & el).
    cbn [bind]. split; [|split; [discriminate|split; [lia|intros; eexists; reflexivity]]].
    intros s E. injection E as <-.
    exists (val (sf1 N s0)), (val (sf2 N s0)), (fun _ => 0%Q), (if natural N below then val (sf1 N s0) 0 else below).
    constructor; try lia; try (intros; reflexivity); try (split; reflexivity).
    + apply (show_2 s0 n x f0); try assumption; try eassumption. lia.
    + intros _ i Hi. fold n in Hi. cbv zeta. fold x f0. rewrite <- (hv i Hi), (v2 i Hi).
      pose proof (hp i Hi) as g. specialize (v1 i Hi).
      assert (w : (val (sf1 N s0) i == 2 * (val f0 (i + 1) - val f0 i) / val h i - val (sf1 N s0) (i + 1))%Q)
        by (rewrite <- v1; ring).
      rewrite w. field. lra.
    + intros _ i Hi. fold n in Hi. cbv zeta. fold x f0. rewrite <- (hv i Hi), (v2 i Hi).
      pose proof (hp i Hi) as g. field. lra.
    + fold n. rewrite z2. split; reflexivity.
    + intros D1 [D2|[_ D2]]; [lia|]. rewrite b0; [reflexivity| |].
      * destruct (nat_spec below); [contradiction|reflexivity].
      * destruct (nat_spec above); [reflexivity|contradiction].
    + intros _ D1. fold n. rewrite bn; [reflexivity|]. destruct (nat_spec above); [contradiction|reflexivity].
    + intros _ D1 D2. fold n. apply bf.
      * destruct (nat_spec below); [reflexivity|contradiction].
      * destruct (nat_spec above); [reflexivity|contradiction].
    + intros _ D1. destruct (nat_spec below); [contradiction|reflexivity].
    + intros _ D1. destruct (nat_spec below); [reflexivity|contradiction].
  - destruct (order_3_ok n x f0 h n1 hx hf hh hv asc below above)
      as (s0 & M & lo & -> & e1 & e2 & e3 & e4 & el & elo & H & V & D0 & Q & Dn & En & z2 & z3).
    split; [|split; [|split; [|lia]]].
    + intros s E.
      destruct (natural N below || seqb N lo below) eqn:OK; [|discriminate]. cbn [bind] in E.
      injection E as <-. exists (val (sf1 N s0)), (val (sf2 N s0)), (val (sf3 N s0)), lo.
     
      constructor; try lia; try (intros; reflexivity); try (split; reflexivity).
      * apply (show_3 s0 n x f0); try assumption; try eassumption. lia.
      * intros _ i Hi. fold n in Hi. cbv zeta. fold x f0. rewrite <- (hv i Hi).
        destruct (V i Hi) as (a1 & a2 & a3). pose proof (hp i Hi) as g.
        assert (w : (val (sf3 N s0) i == (M (i + 1)%Z - M i) / (3 * val h i))%Q)
          by (rewrite <- a3; field; lra).
        rewrite w, a1, a2. unfold chord. field. lra.
      * intros _ i Hi. fold n in Hi. cbv zeta. fold x f0. rewrite <- (hv i Hi).
        destruct (V i Hi) as (a1 & a2 & a3). pose proof (hp i Hi) as g.
        assert (w : (val (sf3 N s0) i == (M (i + 1)%Z - M i) / (3 * val h i))%Q)
          by (rewrite <- a3; field; lra).
        assert (R : (val (sf1 N s0) (i + 1) == chord f0 h i + val h i * (2 * M (i + 1)%Z + M i) / 3)%Q).
        { destruct (Z.eq_dec (i + 1) n) as [en|ne].
          - rewrite en in *. rewrite En. replace (n - 1) with i in * by lia.
            destruct (natural N above).
            + rewrite a2, Dn. field.
            + assert (q : (above == (val h i * M i + 2 * val h i * M n) / 3 + chord f0 h i)%Q)
                by (rewrite Dn; field).
              rewrite q. field.
          - destruct (V (i + 1) ltac:(lia)) as (c1 & c2 & c3). rewrite c2.
            specialize (Q (i + 1) ltac:(lia)). replace (i + 1 - 1) with i in Q by lia.
            assert (q : (chord f0 h (i + 1) == chord f0 h i + (val h i * M i +
              2 * (val h i + val h (i + 1)) * M (i + 1)%Z + val h (i + 1) * M (i + 1 + 1)%Z) / 3)%Q)
              by (rewrite Q; field).
            rewrite q. field. }
        rewrite R, w, a1, a2. field. lra.
      * intros _ i Hi. fold n in Hi. cbv zeta. fold x f0.
        replace (val x i) with (val x (i - 1 + 1)) by (f_equal; lia).
        rewrite <- (hv (i - 1)) by lia.
        destruct (V (i - 1) ltac:(lia)) as (a1 & a2 & a3). destruct (V i ltac:(lia)) as (c1 & _).
        replace (i - 1 + 1) with i in a3 by lia. rewrite a1, c1.
        assert (w : (3 * val h (i - 1) * val (sf3 N s0) (i - 1) == M i - M (i - 1)%Z)%Q)
          by (rewrite <- a3; ring).
        rewrite w. ring.
      * fold n. rewrite z2, z3. split; reflexivity.
      * intros _ D1. destruct (nat_spec below); [|contradiction].
        destruct (V 0 ltac:(lia)) as (a1 & _). now rewrite a1.
      * intros _ D1. cbv zeta. fold n x. destruct (nat_spec above); [|contradiction].
        replace (val x n) with (val x (n - 1 + 1)) by (f_equal; lia).
        rewrite <- (hv (n - 1)) by lia.
        destruct (V (n - 1) ltac:(lia)) as (a1 & a2 & a3). replace (n - 1 + 1) with n in a3 by lia.
        assert (w : (3 * val h (n - 1) * val (sf3 N s0) (n - 1) == M n - M (n - 1)%Z)%Q)
          by (rewrite <- a3; ring).
        rewrite w, a1, Dn. ring.
      * intros D1 _. destruct (nat_spec below); [contradiction|assumption].
      * intros _ D1. fold n. rewrite En. destruct (nat_spec above); [contradiction|reflexivity].
      * intros _ D1. destruct (nat_spec below); [contradiction|]. cbn in OK.
        destruct (qeqb_spec lo below); [assumption|discriminate].
      * intros _ _. exact elo.
    + destruct (natural N below || seqb N lo below); discriminate.
    + intros _ D1.
      assert (OK : natural N below || seqb N lo below = true).
      { destruct D1 as [D1|D1].
        - destruct (nat_spec below); [reflexivity|contradiction].
        - destruct (nat_spec below); [reflexivity|]. cbn.
          destruct (qeqb_spec lo below) as [|ne]; [reflexivity|]. exfalso. apply ne.
          rewrite elo. unfold fixzero.
          match goal with |- context [if sltb ?a ?b ?c then _ else _] => destruct (sltb a b c) end.
          + cbn. rewrite D1. reflexivity.
          + assumption. }
      rewrite OK. eexists. reflexivity.
Qed.
End Exact.
