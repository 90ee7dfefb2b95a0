(* LU decomposition: what the code computes, as a recurrence, for any arithmetic whatever. *)
Require Import ZArith List Lia Bool.
Require Import ZifyBool.
Require Import Verif.Loops Verif.Matrix_Model Verif.Matrix_Layout.
Import ListNotations.
Local Open Scope Z_scope.

Section LU.
Variable A : arith.
Notation T := (num A).
Notation data := (data A).
Notation mat := (mat A).

(* D' is D with entry (r,c) replaced by v *)
Definition sets (D D' : data) (r c : Z) (v : T) : Prop :=
  shape D D' /\ ent D' r c = v /\
  forall r' c', env D r' c' -> (r', c') <> (r, c) -> ent D' r' c' = ent D r' c'.

Lemma sets_put : forall D r c v, wf D -> env D r c -> sets D (put D r c v) r c v.
Proof.
  intros D r c v Hw He. split; [apply shape_put|]. split; [apply ent_put|].
  intros r' c' He' N. apply ent_put_other; try assumption. congruence.
Qed.
Lemma sets_sets : forall D D' D'' r c v w, sets D D' r c v -> sets D' D'' r c w -> sets D D'' r c w.
Proof.
  intros D D' D'' r c v w (S1 & E1 & O1) (S2 & E2 & O2). split; [now apply shape_trans with D'|].
  split; [assumption|]. intros r' c' He N. rewrite O2; [now apply O1| |assumption].
  apply (shape_env A _ _ r' c' S1). assumption.
Qed.

(* the dot product of row r of L and column c of U, k = kk..dd-1 *)
Definition wdot (D : data) (r c kk dd : Z) : wide A :=
  foldZ kk dd (fun k acc => wacc A acc (nmul A (ent D r k) (ent D k c))) (w0 A).

Lemma dot_wdot : forall D r c kk dd, wf D -> env D r c -> low D r <= kk -> low D c <= kk -> dd <= Z.min r c ->
  dot A D r c kk dd = Some (wdot D r c kk dd).
Proof.
  intros D r c kk dd Hw He L1 L2 L3. unfold dot, wdot. apply for_up_total.
  intros k t Hk. destruct He as (Hr & Hc & He). destruct Hw as (Hs & H0 & Hl).
  assert (Hw : wf D) by (split; [|split]; assumption).
  pose proof (Hl r Hr). pose proof (Hl c Hc).
  rewrite rd_l; [|assumption| |lia].
  2:{ repeat split; try lia. rewrite Z.max_l, Z.min_r by lia. lia. }
  rewrite rd_u; [|assumption| |lia].
  2:{ repeat split; try lia. rewrite Z.max_r, Z.min_l by lia. lia. }
  reflexivity.
Qed.

(* one elimination step: the source entry less the products to its left/above.
   The first entry of a row/column is used as it is (m_matrix_solver.h:201, 206, 220). *)
Definition red (src D : data) (r c : Z) : T :=
  if Z.min r c =? low D (Z.max r c) then ent src r c
  else wsub A (ent src r c) (wdot D r c (Z.max (low D r) (low D c)) (Z.min r c)).
Definition piv (mp x : T) : T := if nzero A x then mp else x.
Definition val (src : data) (mp : T) (D : data) (r c : Z) : T :=
  if r <? c then ndiv A (red src D r c) (ent D r r)
  else if c <? r then red src D r c
  else piv mp (red src D r c).
Definition rec1 src mp D r c : Prop := ent D r c = val src mp D r c.

(* entries val D r c depends on *)
Definition dep (r c r' c' : Z) : Prop :=
  (r' = r /\ c' < Z.min r c) \/ (c' = c /\ r' < Z.min r c) \/ (r' = r /\ c' = r /\ r < c).

Lemma val_cong : forall src mp D D' r c, wf D -> env D r c -> shape D D' ->
  (forall r' c', env D r' c' -> dep r c r' c' -> ent D' r' c' = ent D r' c') ->
  val src mp D' r c = val src mp D r c.
Proof.
  intros src mp D D' r c Hw He (Es & El) Hd.
  pose proof He as (Hr & Hc & Hlo). destruct Hw as (Hs & H0 & Hl).
  assert (Hw : wf D) by (split; [|split]; assumption).
  pose proof (Hl r Hr). pose proof (Hl c Hc).
  assert (R : red src D' r c = red src D r c).
  { unfold red. rewrite El. destruct (Z.min r c =? low D (Z.max r c)); [reflexivity|].
    f_equal. unfold wdot. apply foldZ_ext. intros k t Hk.
    rewrite (Hd r k), (Hd k c).
    - reflexivity.
    - repeat split; try lia. rewrite Z.max_r, Z.min_l by lia. lia.
    - right; left; lia.
    - repeat split; try lia. rewrite Z.max_l, Z.min_r by lia. lia.
    - left; lia. }
  unfold val. rewrite R. destruct (Z.ltb_spec r c) as [L|L]; [|reflexivity].
  rewrite (Hd r r); [reflexivity|now apply env_diag|right; right; lia].
Qed.

Lemma rec_set : forall src mp D D' r c, wf D -> env D r c ->
  sets D D' r c (val src mp D r c) -> rec1 src mp D' r c.
Proof.
  intros src mp D D' r c Hw He (S1 & E1 & O1). unfold rec1. rewrite E1. symmetry.
  apply val_cong; try assumption. intros r' c' He' Hd. apply O1; [assumption|].
  intros E; inversion E; subst. unfold dep in Hd. lia.
Qed.
Lemma rec_keep : forall src mp D D' r c v r' c', wf D -> env D r' c' -> sets D D' r c v ->
  (r', c') <> (r, c) -> ~ dep r' c' r c -> rec1 src mp D r' c' -> rec1 src mp D' r' c'.
Proof.
  intros src mp D D' r c v r' c' Hw He (S1 & E1 & O1) N Nd Hrec. unfold rec1 in *.
  rewrite O1 by assumption. rewrite Hrec. symmetry. apply val_cong; try assumption.
  intros r2 c2 He2 Hd2. apply O1; [assumption|]. intros E; inversion E; subst. contradiction.
Qed.

(* all the entries of block mm satisfy the recurrence *)
Definition rec_block src mp D mm : Prop :=
  forall r c, env D r c -> Z.max r c = mm -> rec1 src mp D r c.
Definition LUrec src mp D : Prop := forall r c, env D r c -> rec1 src mp D r c.

Lemma sdp_spec : forall rr cc inp D, wf D -> env D rr cc ->
  exists D', subtract_dot_product A rr cc (Z.min rr cc) inp D =
             Some (wsub A inp (wdot D rr cc (Z.max (low D rr) (low D cc)) (Z.min rr cc)), D')
    /\ sets D D' rr cc (wsub A inp (wdot D rr cc (Z.max (low D rr) (low D cc)) (Z.min rr cc))).
Proof.
  intros rr cc inp D Hw He. unfold subtract_dot_product, bind.
  rewrite dot_wdot by (try assumption; lia).
  rewrite wr_m by assumption.
  eexists. split; [reflexivity|]. now apply sets_put.
Qed.

Lemma env_u : forall (D : data) mm ii, wf D -> 1 <= mm <= size D -> low D mm <= ii <= mm -> env D ii mm.
Proof.
  intros D mm ii (Hs & H0 & Hl) Hm Hi. specialize (Hl mm Hm). repeat split; try lia.
  rewrite Z.max_r, Z.min_l by lia. lia.
Qed.
Lemma env_l : forall (D : data) mm ii, wf D -> 1 <= mm <= size D -> low D mm <= ii <= mm -> env D mm ii.
Proof. intros. apply in_env_sym. now apply env_u. Qed.

Lemma env_low : forall (D : data) r c, env D r c -> low D (Z.max r c) <= Z.min r c.
Proof. now intros D r c (_ & _ & H). Qed.

(* the loop invariant inside a block: everything of the other blocks is as it was *)
Definition others_same (D0 D : data) (mm : Z) : Prop :=
  forall r c, env D0 r c -> Z.max r c <> mm -> ent D r c = ent D0 r c.

Lemma others_sets : forall D0 D D' mm r c v, shape D0 D -> others_same D0 D mm -> Z.max r c = mm ->
  sets D D' r c v -> others_same D0 D' mm.
Proof.
  intros D0 D D' mm r c v Hs Ho Hm (S1 & E1 & O1) r' c' He N.
  rewrite O1; [now apply Ho|now apply (shape_env A D0 D)|]. intros E; inversion E; subst; contradiction.
Qed.

Lemma src_rd : forall (src D : data) r c, wf D -> shape D src -> env D r c -> wf src /\ env src r c.
Proof.
  intros src D r c Hw Hs He. split; [now apply (shape_wf A D)|now apply (shape_env A D)].
Qed.

Lemma lu_block_spec : forall src mp mm D, wf D -> shape D src -> 1 <= mm <= size D ->
  exists D', lu_block A src mp mm D = Some D' /\ shape D D' /\ others_same D D' mm
    /\ rec_block src mp D' mm.
Proof.
  intros src mp mm D Hw Hsh Hmm. unfold lu_block.
  pose proof (proj2 (proj2 Hw) mm Hmm) as Hlow. fold (low D mm) in Hlow.
  set (bn := low D mm) in *.
  destruct (Z.ltb_spec bn mm) as [Hlt|Hge].
  - (* first u entry *)
    assert (Eb : env D bn mm) by (apply env_u; [assumption|assumption|fold bn; lia]).
    destruct (src_rd src D bn mm Hw Hsh Eb) as (Hws & Ebs).
    unfold bind at 1. rewrite rd_u by (assumption || lia).
    unfold bind at 1. rewrite rd_d by (assumption || lia).
    unfold bind at 1. rewrite wr_u by (assumption || lia).
    set (D1 := put D bn mm (ndiv A (ent src bn mm) (ent D bn bn))).
    assert (S1 : sets D D1 bn mm (val src mp D bn mm)).
    { pose proof (sets_put D bn mm (val src mp D bn mm) Hw Eb) as P.
      unfold val in P at 1. unfold red in P at 1.
      replace (bn <? mm) with true in P by lia.
      replace (Z.min bn mm =? low D (Z.max bn mm)) with true in P
        by (rewrite Z.max_r, Z.min_l by lia; unfold bn; lia).
      exact P. }
    pose proof (proj1 S1) as Sh1.
    assert (Hw1 : wf D1) by now apply (shape_wf A D).
    (* u loop *)
    destruct (for_up_ind data (fun ii D' => shape D D' /\ others_same D D' mm /\
        (forall r, bn <= r < ii -> rec1 src mp D' r mm))
      (fun ii D' =>
        let* a := load_ A src (addr_u A src ii mm) in
        let* rD := subtract_dot_product A ii mm ii a D' in
        let* p := load_ A (snd rD) (addr_d A (snd rD) ii) in
        store_ A (snd rD) (addr_m A (snd rD) ii mm) (ndiv A (fst rD) p)) (bn + 1) mm D1)
      as (D2 & E2 & Sh2 & O2 & R2).
    { lia. }
    { split; [assumption|]. split.
      - apply others_sets with D bn mm (val src mp D bn mm); [apply shape_refl| |lia|assumption].
        intros r c _ _. reflexivity.
      - intros r Hr. replace r with bn by lia. now apply rec_set with D. }
    { intros ii Di Hii (Shi & Oi & Ri).
      assert (Hwi : wf Di) by now apply (shape_wf A D).
      assert (Ei0 : env D ii mm) by (apply env_u; try assumption; fold bn; lia).
      assert (Ei : env Di ii mm) by now apply (shape_env A D).
      assert (Eis : env src ii mm) by now apply (shape_env A D).
      unfold bind at 1. rewrite rd_u by (assumption || lia).
      destruct (sdp_spec ii mm (ent src ii mm) Di Hwi Ei) as (Dj & Ej & Sj).
      replace (Z.min ii mm) with ii in * by lia.
      unfold bind at 1. rewrite Ej. cbn [fst snd].
      pose proof (proj1 Sj) as Shj.
      assert (Hwj : wf Dj) by now apply (shape_wf A Di).
      assert (Szj : size Dj = size D). { destruct Shj, Shi. congruence. }
      unfold bind at 1. rewrite rd_d by (try assumption; lia).
      assert (Ejm : env Dj ii mm) by now apply (shape_env A Di).
      rewrite wr_m by assumption.
      eexists. split; [reflexivity|].
      pose proof (sets_put Dj ii mm (ndiv A (wsub A (ent src ii mm) (wdot Di ii mm (Z.max (low Di ii) (low Di mm)) ii)) (ent Dj ii ii)) Hwj Ejm) as Sk.
      pose proof (sets_sets _ _ _ _ _ _ _ Sj Sk) as S.
      assert (Edd : ent Dj ii ii = ent Di ii ii).
      { apply (proj2 (proj2 Sj)). apply env_diag; [assumption|]. destruct Shi; lia. intros E; inversion E; lia. }
      rewrite Edd in S.
      assert (V : val src mp Di ii mm = ndiv A (wsub A (ent src ii mm) (wdot Di ii mm (Z.max (low Di ii) (low Di mm)) ii)) (ent Di ii ii)).
      { unfold val, red. replace (ii <? mm) with true by lia.
        rewrite Z.max_r, Z.min_l by lia.
        replace (ii =? low Di mm) with false. reflexivity.
        destruct Shi as (_ & ->). fold bn. lia. }
      rewrite <- V in S. rewrite Edd. rewrite <- V.
      split; [|split].
      - apply shape_trans with Di; [assumption|]. apply S.
      - eapply others_sets; [exact Shi|exact Oi| |exact S]. lia.
      - intros r Hr. destruct (Z.eq_dec r ii) as [->|N].
        + now apply rec_set with Di.
        + eapply rec_keep; [exact Hwi| |exact S| | |apply Ri; lia].
          * apply (shape_env A D); [assumption|]. apply env_u; try assumption. fold bn; lia.
          * congruence.
          * unfold dep. lia. }
    unfold bind at 1. rewrite E2.
    assert (Hw2 : wf D2) by now apply (shape_wf A D).
    (* l entries *)
    assert (Elb : env D mm bn) by now apply in_env_sym.
    assert (Elbs : env src mm bn) by now apply (shape_env A D).
    assert (Elb2 : env D2 mm bn) by now apply (shape_env A D).
    unfold bind at 1. rewrite rd_l by (assumption || lia).
    unfold bind at 1. rewrite wr_l by (assumption || lia).
    set (D3 := put D2 mm bn (ent src mm bn)).
    assert (L2 : low D2 = low D) by apply Sh2.
    assert (S3 : sets D2 D3 mm bn (val src mp D2 mm bn)).
    { assert (V : val src mp D2 mm bn = ent src mm bn).
      { unfold val, red. replace (mm <? bn) with false by lia.
        replace (bn <? mm) with true by lia.
        replace (Z.min mm bn =? low D2 (Z.max mm bn)) with true; [reflexivity|].
        rewrite L2, Z.max_l, Z.min_r by lia. unfold bn; lia. }
      rewrite V. now apply sets_put. }
    destruct (for_up_ind data (fun jj D' => shape D D' /\ others_same D D' mm /\
        (forall r, bn <= r < mm -> rec1 src mp D' r mm) /\
        (forall c, bn <= c < jj -> rec1 src mp D' mm c))
      (fun jj D' =>
        let* a := load_ A src (addr_l A src mm jj) in
        let* rD := subtract_dot_product A mm jj jj a D' in
        Some (snd rD)) (bn + 1) mm D3)
      as (D4 & E4 & Sh4 & O4 & R4 & Q4).
    { lia. }
    { split; [apply shape_trans with D2; [assumption|apply S3]|]. split; [|split].
      - eapply others_sets; [exact Sh2|exact O2| |exact S3]. lia.
      - intros r Hr. eapply rec_keep; [exact Hw2| |exact S3| | |apply R2; lia].
        + apply (shape_env A D); [assumption|]. apply env_u; try assumption; fold bn; lia.
        + intros E; inversion E; lia.
        + unfold dep. lia.
      - intros c Hc. replace c with bn by lia. now apply rec_set with D2. }
    { intros jj Dj Hjj (Shj & Oj & Rj & Qj).
      assert (Hwj : wf Dj) by now apply (shape_wf A D).
      assert (Ej0 : env D mm jj) by (apply env_l; try assumption; fold bn; lia).
      assert (Ej : env Dj mm jj) by now apply (shape_env A D).
      assert (Ejs : env src mm jj) by now apply (shape_env A D).
      unfold bind at 1. rewrite rd_l by (assumption || lia).
      destruct (sdp_spec mm jj (ent src mm jj) Dj Hwj Ej) as (Dk & Ek & Sk).
      replace (Z.min mm jj) with jj in * by lia.
      unfold bind at 1. rewrite Ek. cbn [fst snd].
      eexists. split; [reflexivity|].
      assert (V : val src mp Dj mm jj = wsub A (ent src mm jj) (wdot Dj mm jj (Z.max (low Dj mm) (low Dj jj)) jj)).
      { unfold val, red. replace (mm <? jj) with false by lia. replace (jj <? mm) with true by lia.
        rewrite Z.max_l, Z.min_r by lia.
        replace (jj =? low Dj mm) with false. reflexivity.
        destruct Shj as (_ & ->). fold bn. lia. }
      rewrite <- V in Sk.
      split; [|split; [|split]].
      - apply shape_trans with Dj; [assumption|]. apply Sk.
      - eapply others_sets; [exact Shj|exact Oj| |exact Sk]. lia.
      - intros r Hr. eapply rec_keep; [exact Hwj| |exact Sk| | |apply Rj; lia].
        + apply (shape_env A D); [assumption|]. apply env_u; try assumption; fold bn; lia.
        + intros E; inversion E; lia.
        + unfold dep. lia.
      - intros c Hc. destruct (Z.eq_dec c jj) as [->|N].
        + now apply rec_set with Dj.
        + eapply rec_keep; [exact Hwj| |exact Sk| | |apply Qj; lia].
          * apply (shape_env A D); [assumption|]. apply env_l; try assumption; fold bn; lia.
          * congruence.
          * unfold dep. lia. }
    unfold bind at 1. rewrite E4.
    (* the diagonal *)
    assert (Hw4 : wf D4) by now apply (shape_wf A D).
    assert (Edg : env D mm mm) by now apply env_diag.
    assert (Edg4 : env D4 mm mm) by now apply (shape_env A D).
    assert (Szs : size src = size D) by apply Hsh.
    unfold bind at 1. rewrite rd_d by (assumption || lia).
    destruct (sdp_spec mm mm (ent src mm mm) D4 Hw4 Edg4) as (D5 & E5 & S5).
    rewrite Z.min_id in *.
    unfold bind at 1. rewrite E5. cbn [fst snd].
    set (x := wsub A (ent src mm mm) _) in *.
    assert (V : val src mp D4 mm mm = piv mp x).
    { unfold val, red. replace (mm <? mm) with false by lia.
      rewrite Z.max_id, Z.min_id. replace (mm =? low D4 mm) with false. reflexivity.
      destruct Sh4 as (_ & ->). fold bn. lia. }
    assert (G : exists D', (if nzero A x then store_ A D5 (addr_d A D5 mm) mp else Some D5) = Some D'
                  /\ sets D4 D' mm mm (piv mp x)).
    { pose proof (proj1 S5) as Sh5.
      assert (Hw5 : wf D5) by now apply (shape_wf A D4).
      assert (Sz5 : size D5 = size D). { destruct Sh5, Sh4. congruence. }
      unfold piv. destruct (nzero A x).
      - rewrite wr_d by (assumption || lia). eexists. split; [reflexivity|].
        eapply sets_sets; [exact S5|]. apply sets_put; [assumption|]. now apply (shape_env A D4).
      - exists D5. now split. }
    destruct G as (D' & -> & S'). exists D'. split; [reflexivity|].
    rewrite <- V in S'.
    split; [apply shape_trans with D4; [assumption|apply S']|]. split.
    + eapply others_sets; [exact Sh4|exact O4| |exact S']. lia.
    + intros r c He Hmx.
      assert (He0 : env D r c).
      { apply (shape_env A D D'); [|assumption]. apply shape_trans with D4; [assumption|apply S']. }
      assert (He4 : env D4 r c) by now apply (shape_env A D).
      pose proof (env_low _ _ _ He0) as HL. rewrite Hmx in HL. fold bn in HL.
      destruct (Z.lt_trichotomy r c) as [L|[L|L]].
      * assert (c = mm) by lia. subst c.
        eapply rec_keep; [exact Hw4|exact He4|exact S'| | |apply R4; lia].
        -- intros E; inversion E; lia.
        -- unfold dep. lia.
      * assert (r = mm) by lia. assert (c = mm) by lia. subst r c. now apply rec_set with D4.
      * assert (r = mm) by lia. subst r.
        eapply rec_keep; [exact Hw4|exact He4|exact S'| | |apply Q4; lia].
        -- intros E; inversion E; lia.
        -- unfold dep. lia.
  - (* single diagonal entry *)
    assert (Edg : env D mm mm) by now apply env_diag.
    assert (Szs : size src = size D) by apply Hsh.
    assert (Hws : wf src) by now apply (shape_wf A D).
    unfold bind at 1. rewrite rd_d by (assumption || lia).
    unfold bind at 1. rewrite wr_d by (assumption || lia).
    set (x := ent src mm mm).
    assert (V : val src mp D mm mm = piv mp x).
    { unfold val, red. replace (mm <? mm) with false by lia.
      rewrite Z.max_id, Z.min_id. replace (mm =? low D mm) with true by (fold bn; lia). reflexivity. }
    assert (G : exists D', (if nzero A x then store_ A (put D mm mm x) (addr_d A (put D mm mm x) mm) mp else Some (put D mm mm x)) = Some D'
                  /\ sets D D' mm mm (piv mp x)).
    { assert (Sp : sets D (put D mm mm x) mm mm x) by now apply sets_put.
      pose proof (proj1 Sp) as Shp.
      assert (Hwp : wf (put D mm mm x)) by now apply (shape_wf A D).
      unfold piv. destruct (nzero A x).
      - rewrite wr_d by (assumption || (cbn; lia)). eexists. split; [reflexivity|].
        eapply sets_sets; [exact Sp|]. apply sets_put; [assumption|]. now apply (shape_env A D).
      - eexists. split; [reflexivity|assumption]. }
    destruct G as (D' & -> & S'). exists D'. split; [reflexivity|].
    rewrite <- V in S'. split; [apply S'|]. split.
    + eapply others_sets; [apply shape_refl| | |exact S']; [|lia]. intros r c _ _. reflexivity.
    + intros r c He Hmx. assert (He0 : env D r c) by (apply (shape_env A D D'); [apply S'|assumption]).
      pose proof (env_low _ _ _ He0) as HL. rewrite Hmx in HL. fold bn in HL.
      assert (r = mm) by lia. assert (c = mm) by lia. subst r c. now apply rec_set with D.
Qed.

(* the recurrence determines the factors *)
Lemma LUrec_unique : forall src mp D D', wf D -> shape D D' -> LUrec src mp D -> LUrec src mp D' ->
  forall r c, env D r c -> ent D' r c = ent D r c.
Proof.
  intros src mp D D' Hw Hs R R'.
  assert (G : forall n r c, Z.max r c <= Z.of_nat n -> forall m, Z.min r c <= Z.of_nat m -> env D r c -> ent D' r c = ent D r c).
  { induction n as [|n IHn].
    - intros r c H m Hm (He & _). lia.
    - intros r c H m. revert r c H. induction m as [|m IHm]; intros r c H Hm He.
      + destruct He; lia.
      + rewrite (R r c He). rewrite (R' r c) by (now apply (shape_env A D)).
        apply val_cong; try assumption. intros r' c' He' Hd.
        destruct He as (Hr & Hc & _). destruct He' as (Hr' & Hc' & X). unfold dep in Hd.
        assert (C : Z.max r' c' <= Z.of_nat n \/ (Z.max r' c' <= Z.of_nat (S n) /\ Z.min r' c' <= Z.of_nat m)) by lia.
        destruct C as [C|(C1 & C2)].
        * apply (IHn r' c' C (Z.to_nat (Z.min r' c'))); [lia|]. repeat split; assumption || lia.
        * apply (IHm r' c' C1 C2). repeat split; assumption || lia. }
  intros r c He. pose proof He as (Hr & Hc & _). apply (G (Z.to_nat (Z.max r c)) r c ltac:(lia) (Z.to_nat (Z.min r c)) ltac:(lia) He).
Qed.

(* recurrences with sources that agree on the relevant block *)
Lemma val_src : forall src src' mp D r c, ent src' r c = ent src r c -> val src' mp D r c = val src mp D r c.
Proof. intros src src' mp D r c E. unfold val, red. now rewrite E. Qed.

Definition mwf (M : mat) : Prop := wf (aa M) /\ shape (aa M) (lu M).

(* the state is in sync: the factors are those of some matrix which differs from the current one
   only in entries with a marked row or column *)
Definition sync (M : mat) : Prop :=
  exists src0, shape (aa M) src0 /\ LUrec src0 (min_pivot M) (lu M) /\
    forall r c, env (aa M) r c -> changed M r = false -> changed M c = false -> ent (aa M) r c = ent src0 r c.

Lemma lu_decomp_spec : forall b M, mwf M -> (b = true -> sync M) ->
  exists M', lu_decomp A b M = Some M' /\ aa M' = aa M /\ min_pivot M' = min_pivot M /\ mwf M' /\
    LUrec (aa M) (min_pivot M) (lu M') /\ sync M'.
Proof.
  intros b M (Hw & Hsh) Hsync.
  assert (Hwl : wf (lu M)) by now apply (shape_wf A (aa M)).
  set (mp := min_pivot M) in *. set (src := aa M) in *.
  assert (Hsrc : exists src0, shape src src0 /\ (b = true -> LUrec src0 mp (lu M) /\
    forall r c, env src r c -> changed M r = false -> changed M c = false -> ent src r c = ent src0 r c)).
  { destruct b.
    - destruct (Hsync eq_refl) as (s0 & S0 & R0 & C0). exists s0. split; [assumption|]. intros _. now split.
    - exists src. split; [apply shape_refl|]. discriminate. }
  destruct Hsrc as (src0 & Hs0 & Hb).
  unfold lu_decomp.
  destruct (for_up_ind (mat * Z) (fun mm st => let (M', prop) := st in
      aa M' = src /\ min_pivot M' = mp /\ shape src (lu M') /\ 0 <= prop < mm /\
      (forall i, mm <= i -> changed M' i = changed M i) /\
      (forall r c, env src r c -> Z.max r c < mm -> rec1 src mp (lu M') r c) /\
      (b = true -> (forall i, prop < i < mm -> changed M i = false)) /\
      (forall i, prop < i < mm -> b = true) /\
      (forall r c, env src r c -> prop < Z.max r c < mm -> ent (lu M') r c = ent (lu M) r c) /\
      (forall r c, env src r c -> mm <= Z.max r c -> ent (lu M') r c = ent (lu M) r c) /\
      (forall i, 1 <= i < mm -> changed M' i = false))
    (fun mm (st : mat * Z) =>
      let (M', prop) := st in
      let bn := low (lu M') mm in
      if negb b || changed M' mm || (bn <=? prop) then
        let* D := lu_block A (aa M') (min_pivot M') mm (lu M') in
        Some (mkmat (aa M') D (upd (changed M') mm false) (min_pivot M'), mm)
      else Some st) 1 (size src + 1) (M, 0)) as ((M' & p') & E & HI).
  - destruct Hw as (? & _). lia.
  - split; [reflexivity|]. split; [reflexivity|]. split; [assumption|]. split; [lia|].
    split; [reflexivity|]. split.
    { intros r c (Hr & _). lia. }
    split; [intros; lia|]. split; [intros; lia|]. split; [intros; lia|].
    split; [reflexivity|]. intros; lia.
  - intros mm (M' & prop) Hmm (Ea & Em & Shl & Hp & Hch & Hrec & Hnc & Hbt & Hsk & Hfut & Hcl).
    assert (Hwl' : wf (lu M')) by now apply (shape_wf A src).
    cbv zeta. rewrite Ea, Em.
    destruct (negb b || changed M' mm || (low (lu M') mm <=? prop)) eqn:Ec.
    + destruct (lu_block_spec src mp mm (lu M')) as (D' & ED & ShD & OD & RD).
      { assumption. }
      { destruct Shl; split; congruence. }
      { destruct Shl. lia. }
      unfold bind. rewrite ED. eexists. split; [reflexivity|]. cbn [aa lu changed min_pivot].
      split; [reflexivity|]. split; [reflexivity|]. split; [now apply shape_trans with (lu M')|].
      split; [lia|]. split.
      { intros i Hi. rewrite upd_other by lia. apply Hch; lia. }
      split.
      { intros r c He Hlt. assert (He' : env (lu M') r c) by now apply (shape_env A src).
        destruct (Z.eq_dec (Z.max r c) mm) as [Eq|Ne].
        - apply RD; [|assumption]. now apply (shape_env A (lu M')).
        - unfold rec1. rewrite OD by assumption. rewrite Hrec by (assumption || lia). symmetry.
          apply val_cong; try assumption. intros r' c' He2 Hd. apply OD; [assumption|].
          destruct He as (? & ? & _). unfold dep in Hd. lia. }
      split; [intros; lia|]. split; [intros; lia|]. split; [intros; lia|]. split.
      { intros r c He Hge. rewrite OD; [|now apply (shape_env A src)|lia]. apply Hfut; [assumption|lia]. }
      intros i Hi. unfold upd. destruct (Z.eqb_spec i mm); [reflexivity|]. apply Hcl; lia.
    + assert (Cb : b = true /\ changed M mm = false /\ prop < low (lu M') mm).
      { rewrite (Hch mm) in Ec by lia. destruct b; cbn in Ec; [|discriminate].
        apply orb_false_elim in Ec. destruct Ec. split; [reflexivity|]. split; [assumption|lia]. }
      destruct Cb as (-> & Cmm & Hbn). destruct (Hb eq_refl) as (HL & Hdiff).
      eexists. split; [reflexivity|].
      split; [assumption|]. split; [assumption|]. split; [assumption|]. split; [lia|].
      split; [intros; apply Hch; lia|]. split.
      { intros r c He Hlt. destruct (Z.eq_dec (Z.max r c) mm) as [Eq|Ne]; [|apply Hrec; [assumption|lia]].
        assert (Hlow' : low (lu M') = low src) by apply Shl.
        assert (He' : env (lu M) r c) by now apply (shape_env A src).
        pose proof (env_low _ _ _ He) as HL2. rewrite Eq in HL2. rewrite Hlow' in Hbn.
        unfold rec1. rewrite (Hfut r c He) by lia. rewrite (HL r c He').
        rewrite (val_src src0 src).
        2:{ apply Hdiff; [assumption| |].
            - destruct (Z.eq_dec r mm) as [->|]; [assumption|]. apply Hnc; [reflexivity|lia].
            - destruct (Z.eq_dec c mm) as [->|]; [assumption|]. apply Hnc; [reflexivity|lia]. }
        symmetry. apply val_cong; try assumption.
        { destruct Hsh, Shl; split; congruence. }
        intros r' c' He2 Hd.
        assert (He3 : env src r' c') by now apply (shape_env A src (lu M)).
        assert (Hrc : 1 <= r /\ 1 <= c) by (destruct He; lia).
        assert (Z.max r' c' <= mm) by (unfold dep in Hd; lia).
        assert (Hgt : prop < Z.max r' c').
        { unfold dep in Hd. destruct Hd as [(-> & D2)|[(-> & D2)|(-> & -> & D2)]]; lia. }
        destruct (Z.eq_dec (Z.max r' c') mm); [apply Hfut; [assumption|lia]|].
        apply Hsk; [assumption|lia]. }
      split.
      { intros _ i Hi. destruct (Z.eq_dec i mm) as [->|]; [assumption|]. apply Hnc; [reflexivity|lia]. }
      split; [reflexivity|]. split.
      { intros r c He Hr. destruct (Z.eq_dec (Z.max r c) mm); [apply Hfut; [assumption|lia]|apply Hsk; [assumption|lia]]. }
      split.
      { intros r c He Hr. apply Hfut; [assumption|lia]. }
      intros i Hi. destruct (Z.eq_dec i mm) as [->|]; [rewrite Hch; [assumption|lia]|]. apply Hcl; lia.
  - cbn beta iota in HI. destruct HI as (Ea & Em & Shl & Hp & Hch & Hrec & _ & _ & _ & _ & Hcl).
    fold src. match goal with |- context [bind ?x _] => replace x with (Some (M', p')) by (symmetry; exact E) end.
    cbn [bind fst].
    assert (HLU : LUrec src mp (lu M')).
    { intros r c He. assert (He' : env src r c) by now apply (shape_env A src (lu M')).
      apply Hrec; [assumption|]. destruct He' as (? & ? & _). lia. }
    exists M'. split; [reflexivity|]. split; [assumption|]. split; [assumption|].
    split.
    { split; rewrite Ea; assumption. }
    split; [assumption|]. exists src. rewrite Ea, Em. split; [apply shape_refl|]. split; [assumption|].
    reflexivity.
Qed.
End LU.
