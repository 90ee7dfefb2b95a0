(* LU_INPLACE computes the same factors as LU_COPY when T(in - dot) = in - T(dot). *)
Require Import ZArith List Lia Bool.
Require Import ZifyBool.
Require Import Verif.Loops Verif.Matrix_Model Verif.Matrix_Layout Verif.Matrix_LU.
Import ListNotations.
Local Open Scope Z_scope.

Section IP.
Variable A : arith.
Hypothesis H_exact : forall a w, wsub A a w = nsub A a (wnar A w).
Notation T := (num A).
Notation data := (data A).

Lemma ip_sdp_spec : forall rr cc D, wf D -> env D rr cc ->
  exists D', ip_subtract_dot_product A rr cc (Z.min rr cc) D =
             Some (wsub A (ent D rr cc) (wdot A D rr cc (Z.max (low D rr) (low D cc)) (Z.min rr cc)), D')
    /\ sets A D D' rr cc (wsub A (ent D rr cc) (wdot A D rr cc (Z.max (low D rr) (low D cc)) (Z.min rr cc))).
Proof.
  intros rr cc D Hw He. unfold ip_subtract_dot_product.
  rewrite rd_m by assumption. cbn [bind].
  rewrite dot_wdot by (try assumption; lia). cbn [bind].
  rewrite wr_m by assumption. cbn [bind]. rewrite <- H_exact.
  eexists. split; [reflexivity|]. now apply sets_put.
Qed.

Lemma ip_block_spec : forall src mp mm D, wf D -> shape D src -> 1 <= mm <= size D ->
  (forall r c, env D r c -> Z.max r c = mm -> ent D r c = ent src r c) ->
  exists D', ip_block A mp mm D = Some D' /\ shape D D' /\ others_same A D D' mm
    /\ rec_block A src mp D' mm.
Proof.
  intros src mp mm D Hw Hsh Hmm Hsrc. unfold ip_block.
  pose proof (proj2 (proj2 Hw) mm Hmm) as Hlow. fold (low D mm) in Hlow.
  set (bn := low D mm) in *.
  destruct (Z.ltb_spec bn mm) as [Hlt|Hge].
  - assert (Eb : env D bn mm) by (apply env_u; [assumption|assumption|fold bn; lia]).
    rewrite rd_u by (assumption || lia). cbn [bind].
    rewrite rd_d by (assumption || lia). cbn [bind].
    rewrite wr_u by (assumption || lia). cbn [bind].
    rewrite (Hsrc bn mm) by (assumption || lia).
    set (D1 := put D bn mm (ndiv A (ent src bn mm) (ent D bn bn))).
    assert (S1 : sets A D D1 bn mm (val A src mp D bn mm)).
    { assert (V : val A src mp D bn mm = ndiv A (ent src bn mm) (ent D bn bn)).
      { unfold val, red. replace (bn <? mm) with true by lia.
        replace (Z.min bn mm =? low D (Z.max bn mm)) with true; [reflexivity|].
        rewrite Z.max_r, Z.min_l by lia; unfold bn; lia. }
      rewrite V. now apply sets_put. }
    pose proof (proj1 S1) as Sh1.
    assert (Hw1 : wf D1) by now apply (shape_wf A D).
    destruct (for_up_ind data (fun ii D' => shape D D' /\ others_same A D D' mm /\
        (forall r, bn <= r < ii -> rec1 A src mp D' r mm) /\
        (forall r, ii <= r < mm -> ent D' r mm = ent src r mm) /\
        (forall c, bn <= c <= mm -> ent D' mm c = ent src mm c))
      (fun ii D' =>
        let* rD := ip_subtract_dot_product A ii mm ii D' in
        let* p := load_ A (snd rD) (addr_d A (snd rD) ii) in
        store_ A (snd rD) (addr_m A (snd rD) ii mm) (ndiv A (fst rD) p)) (bn + 1) mm D1)
      as (D2 & E2 & Sh2 & O2 & R2 & _ & P2).
    { lia. }
    { split; [assumption|]. split; [|split; [|split]].
      - apply others_sets with D bn mm (val A src mp D bn mm); [apply shape_refl| |lia|assumption].
        intros r c _ _. reflexivity.
      - intros r Hr. replace r with bn by lia. now apply rec_set with D.
      - intros r Hr. assert (env D r mm) by (apply env_u; try assumption; fold bn; lia).
        rewrite (proj2 (proj2 S1)); [apply Hsrc; [assumption|lia]|assumption|intros Q; inversion Q; lia].
      - intros c Hc. assert (env D mm c) by (apply env_l; try assumption; fold bn; lia).
        rewrite (proj2 (proj2 S1)); [apply Hsrc; [assumption|lia]|assumption|intros Q; inversion Q; lia]. }
    { intros ii Di Hii (Shi & Oi & Ri & Pi & Qi).
      assert (Hwi : wf Di) by now apply (shape_wf A D).
      assert (Ei0 : env D ii mm) by (apply env_u; try assumption; fold bn; lia).
      assert (Ei : env Di ii mm) by now apply (shape_env A D).
      destruct (ip_sdp_spec ii mm Di Hwi Ei) as (Dj & Ej & Sj).
      replace (Z.min ii mm) with ii in * by lia.
      rewrite Ej. cbn [bind fst snd].
      pose proof (proj1 Sj) as Shj.
      assert (Hwj : wf Dj) by now apply (shape_wf A Di).
      assert (Szj : size Dj = size D). { destruct Shj, Shi. congruence. }
      rewrite rd_d by (try assumption; lia). cbn [bind].
      assert (Ejm : env Dj ii mm) by now apply (shape_env A Di).
      rewrite wr_m by assumption.
      eexists. split; [reflexivity|].
      set (x := ndiv A _ _).
      pose proof (sets_put A Dj ii mm x Hwj Ejm) as Sk.
      pose proof (sets_sets A _ _ _ _ _ _ _ Sj Sk) as S.
      assert (V : val A src mp Di ii mm = x).
      { unfold val, red, x. replace (ii <? mm) with true by lia.
        rewrite Z.max_r, Z.min_l by lia.
        replace (ii =? low Di mm) with false.
        2:{ destruct Shi as (_ & ->). fold bn. lia. }
        rewrite <- (Pi ii) by lia. f_equal.
        symmetry. apply (proj2 (proj2 Sj)). apply env_diag; [assumption|]. destruct Shi; lia. intros Q; inversion Q; lia. }
      rewrite <- V in S. rewrite <- V.
      split; [|split; [|split; [|split]]].
      - apply shape_trans with Di; [assumption|]. apply S.
      - eapply others_sets; [exact Shi|exact Oi| |exact S]. lia.
      - intros r Hr. destruct (Z.eq_dec r ii) as [->|N].
        + now apply rec_set with Di.
        + eapply rec_keep; [exact Hwi| |exact S| | |apply Ri; lia].
          * apply (shape_env A D); [assumption|]. apply env_u; [assumption|assumption|fold bn; lia].
          * congruence.
          * unfold dep. lia.
      - intros r Hr. rewrite (proj2 (proj2 S)); [apply Pi; lia| |intros Q; inversion Q; lia].
        apply (shape_env A D); [assumption|]. apply env_u; [assumption|assumption|fold bn; lia].
      - intros c Hc. rewrite (proj2 (proj2 S)); [apply Qi; lia| |intros Q; inversion Q; lia].
        apply (shape_env A D); [assumption|]. apply env_l; [assumption|assumption|fold bn; lia]. }
    rewrite E2. cbn [bind].
    assert (Hw2 : wf D2) by now apply (shape_wf A D).
    destruct (for_up_ind data (fun jj D' => shape D D' /\ others_same A D D' mm /\
        (forall r, bn <= r < mm -> rec1 A src mp D' r mm) /\
        (forall c, bn <= c < jj -> rec1 A src mp D' mm c) /\
        (forall c, jj <= c <= mm -> ent D' mm c = ent src mm c))
      (fun jj D' =>
        let* rD := ip_subtract_dot_product A mm jj jj D' in
        Some (snd rD)) (bn + 1) mm D2)
      as (D4 & E4 & Sh4 & O4 & R4 & Q4 & P4).
    { lia. }
    { split; [assumption|]. split; [assumption|]. split; [assumption|]. split.
      - intros c Hc. replace c with bn by lia. unfold rec1. rewrite P2 by lia.
        unfold val, red. replace (mm <? bn) with false by lia. replace (bn <? mm) with true by lia.
        replace (Z.min mm bn =? low D2 (Z.max mm bn)) with true; [reflexivity|].
        destruct Sh2 as (_ & ->). rewrite Z.max_l, Z.min_r by lia. unfold bn; lia.
      - intros c Hc. apply P2. lia. }
    { intros jj Dj Hjj (Shj & Oj & Rj & Qj & Pj).
      assert (Hwj : wf Dj) by now apply (shape_wf A D).
      assert (Ej0 : env D mm jj) by (apply env_l; try assumption; fold bn; lia).
      assert (Ej : env Dj mm jj) by now apply (shape_env A D).
      destruct (ip_sdp_spec mm jj Dj Hwj Ej) as (Dk & Ek & Sk).
      replace (Z.min mm jj) with jj in * by lia.
      rewrite Ek. cbn [bind fst snd].
      eexists. split; [reflexivity|].
      assert (V : val A src mp Dj mm jj = wsub A (ent Dj mm jj) (wdot A Dj mm jj (Z.max (low Dj mm) (low Dj jj)) jj)).
      { unfold val, red. replace (mm <? jj) with false by lia. replace (jj <? mm) with true by lia.
        rewrite Z.max_l, Z.min_r by lia.
        replace (jj =? low Dj mm) with false. now rewrite <- Pj by lia.
        destruct Shj as (_ & ->). fold bn. lia. }
      rewrite <- V in Sk.
      split; [|split; [|split; [|split]]].
      - apply shape_trans with Dj; [assumption|]. apply Sk.
      - eapply others_sets; [exact Shj|exact Oj| |exact Sk]. lia.
      - intros r Hr. eapply rec_keep; [exact Hwj| |exact Sk| | |apply Rj; lia].
        + apply (shape_env A D); [assumption|]. apply env_u; try assumption; fold bn; lia.
        + intros E; inversion E; lia.
        + unfold dep. lia.
      - intros c Hc. destruct (Z.eq_dec c jj) as [->|N].
        + now apply rec_set with Dj.
        + eapply rec_keep; [exact Hwj| |exact Sk| | |apply Qj; lia].
          * apply (shape_env A D); [assumption|]. apply env_l; try assumption; fold bn; lia.
          * congruence.
          * unfold dep. lia.
      - intros c Hc. rewrite (proj2 (proj2 Sk)); [apply Pj; lia| |intros Q; inversion Q; lia].
        apply (shape_env A D); [assumption|]. apply env_l; try assumption; fold bn; lia. }
    rewrite E4. cbn [bind].
    assert (Hw4 : wf D4) by now apply (shape_wf A D).
    assert (Edg : env D mm mm) by now apply env_diag.
    assert (Edg4 : env D4 mm mm) by now apply (shape_env A D).
    destruct (ip_sdp_spec mm mm D4 Hw4 Edg4) as (D5 & E5 & S5).
    rewrite Z.min_id in *.
    rewrite E5. cbn [bind fst snd].
    set (x := wsub A (ent D4 mm mm) _) in *.
    assert (V : val A src mp D4 mm mm = piv A mp x).
    { unfold val, red. replace (mm <? mm) with false by lia.
      rewrite Z.max_id, Z.min_id. replace (mm =? low D4 mm) with false. unfold x. now rewrite P4 by lia.
      destruct Sh4 as (_ & ->). fold bn. lia. }
    assert (G : exists D', (if nzero A x then store_ A D5 (addr_d A D5 mm) mp else Some D5) = Some D'
                  /\ sets A D4 D' mm mm (piv A mp x)).
    { pose proof (proj1 S5) as Sh5.
      assert (Hw5 : wf D5) by now apply (shape_wf A D4).
      assert (Sz5 : size D5 = size D). { destruct Sh5, Sh4. congruence. }
      unfold piv. destruct (nzero A x).
      - rewrite wr_d by (assumption || lia). eexists. split; [reflexivity|].
        eapply sets_sets; [exact S5|]. apply sets_put; [assumption|]. now apply (shape_env A D4).
      - exists D5. now split. }
    destruct G as (D' & -> & S'). exists D'. split; [reflexivity|].
    rewrite <- V in S'.
    split; [apply shape_trans with D4; [assumption|apply S']|]. split.
    + eapply others_sets; [exact Sh4|exact O4| |exact S']. lia.
    + intros r c He Hmx.
      assert (He0 : env D r c).
      { apply (shape_env A D D'); [|assumption]. apply shape_trans with D4; [assumption|apply S']. }
      assert (He4 : env D4 r c) by now apply (shape_env A D).
      pose proof (env_low A _ _ _ He0) as HL. rewrite Hmx in HL. fold bn in HL.
      destruct (Z.lt_trichotomy r c) as [L|[L|L]].
      * assert (c = mm) by lia. subst c.
        eapply rec_keep; [exact Hw4|exact He4|exact S'| | |apply R4; lia].
        -- intros E; inversion E; lia.
        -- unfold dep. lia.
      * assert (r = mm) by lia. assert (c = mm) by lia. subst r c. now apply rec_set with D4.
      * assert (r = mm) by lia. subst r.
        eapply rec_keep; [exact Hw4|exact He4|exact S'| | |apply Q4; lia].
        -- intros E; inversion E; lia.
        -- unfold dep. lia.
  - assert (Edg : env D mm mm) by now apply env_diag.
    rewrite rd_d by (assumption || lia). cbn [bind].
    rewrite (Hsrc mm mm) by (assumption || lia).
    set (x := ent src mm mm).
    assert (V : val A src mp D mm mm = piv A mp x).
    { unfold val, red. replace (mm <? mm) with false by lia.
      rewrite Z.max_id, Z.min_id. replace (mm =? low D mm) with true by (fold bn; lia). reflexivity. }
    assert (G : exists D', (if nzero A x then store_ A D (addr_d A D mm) mp else Some D) = Some D'
                  /\ sets A D D' mm mm (piv A mp x)).
    { unfold piv. destruct (nzero A x).
      - rewrite wr_d by assumption. eexists. split; [reflexivity|]. now apply sets_put.
      - exists D. split; [reflexivity|]. split; [apply shape_refl|]. split; [|reflexivity].
        unfold x. apply Hsrc; [assumption|lia]. }
    destruct G as (D' & -> & S'). exists D'. split; [reflexivity|].
    rewrite <- V in S'. split; [apply S'|]. split.
    + eapply others_sets; [apply shape_refl| | |exact S']; [|lia]. intros r c _ _. reflexivity.
    + intros r c He Hmx. assert (He0 : env D r c) by (apply (shape_env A D D'); [apply S'|assumption]).
      pose proof (env_low A _ _ _ He0) as HL. rewrite Hmx in HL. fold bn in HL.
      assert (r = mm) by lia. assert (c = mm) by lia. subst r c. now apply rec_set with D.
Qed.

Lemma ip_lu_spec : forall mp D, wf D -> exists D', ip_lu_decomp A mp D = Some D' /\ shape D D' /\ LUrec A D mp D'.
Proof.
  intros mp D Hw. unfold ip_lu_decomp.
  destruct (for_up_ind data (fun mm D' => shape D D' /\
      (forall r c, env D r c -> Z.max r c < mm -> rec1 A D mp D' r c) /\
      (forall r c, env D r c -> mm <= Z.max r c -> ent D' r c = ent D r c))
    (ip_block A mp) 1 (size D + 1) D) as (D' & E & Sh & R & _).
  - destruct Hw; lia.
  - split; [apply shape_refl|]. split; [|reflexivity]. intros r c (? & _). lia.
  - intros mm Dm Hmm (Sh & R & P).
    assert (Hwm : wf Dm) by now apply (shape_wf A D).
    destruct (ip_block_spec D mp mm Dm) as (D' & E & Sh' & O & RB).
    + assumption.
    + destruct Sh; split; congruence.
    + destruct Sh; lia.
    + intros r c He Hm. apply P; [now apply (shape_env A D Dm)|lia].
    + exists D'. split; [assumption|]. split; [now apply shape_trans with Dm|]. split.
      * intros r c He Hlt. assert (He' : env Dm r c) by now apply (shape_env A D).
        destruct (Z.eq_dec (Z.max r c) mm) as [Eq|Ne].
        -- apply RB; [now apply (shape_env A Dm)|assumption].
        -- unfold rec1. rewrite O by assumption. rewrite R by (assumption || lia). symmetry.
           apply val_cong; try assumption. intros r' c' He2 Hd. apply O; [assumption|].
           destruct He as (? & ? & _). unfold dep in Hd. lia.
      * intros r c He Hge. rewrite O; [apply P; [assumption|lia]|now apply (shape_env A D)|lia].
  - exists D'. split; [assumption|]. split; [assumption|].
    intros r c He. assert (He0 : env D r c) by now apply (shape_env A D D').
    apply R; [assumption|]. destruct He0 as (? & ? & _). lia.
Qed.
End IP.
