(* Facts about rounding to ticks and about TRANSIENT::next. *)
Require Import ZArith QArith Qround Qfield Lqa List Sorted Bool Lia.
Require Import ZifyBool.
Require Import Verif.Loops Verif.Tran_Model.
Import ListNotations.
Local Open Scope Z_scope.

(* ---------- numbers ---------- *)

Lemma qlt_t : forall a b, qlt a b = true <-> (a < b)%Q.
Proof.
  intros a b. unfold qlt. rewrite negb_true_iff. split.
  - intro H. apply Qnot_le_lt. intro L. apply Qle_bool_iff in L. congruence.
  - intro H. destruct (Qle_bool b a) eqn:E; [|reflexivity].
    apply Qle_bool_iff in E. exfalso. apply (Qlt_not_le _ _ H E).
Qed.
Lemma qlt_f : forall a b, qlt a b = false <-> (b <= a)%Q.
Proof.
  intros a b. unfold qlt. rewrite negb_false_iff. apply Qle_bool_iff.
Qed.
Lemma qle_t : forall a b, qle a b = true <-> (a <= b)%Q.
Proof. intros a b. apply Qle_bool_iff. Qed.
Lemma qle_f : forall a b, qle a b = false <-> (b < a)%Q.
Proof.
  intros a b. unfold qle. rewrite <- qlt_t. unfold qlt. rewrite negb_true_iff. reflexivity.
Qed.

(* the characteristic property of rounding to nearest, halves away from zero *)
Lemma qround_near : forall x, (inject_Z (qround x) - (1#2) <= x <= inject_Z (qround x) + (1#2))%Q.
Proof.
  intro x. unfold qround. destruct (qle 0 x) eqn:E.
  - pose proof (Qfloor_le (x + (1#2))) as L. pose proof (Qlt_floor (x + (1#2))) as U.
    rewrite inject_Z_plus in U. change (inject_Z 1) with 1%Q in U. lra.
  - pose proof (Qfloor_le ((1#2) - x)) as L. pose proof (Qlt_floor ((1#2) - x)) as U.
    rewrite inject_Z_plus in U. change (inject_Z 1) with 1%Q in U. rewrite inject_Z_opp. lra.
Qed.

Lemma inject_lt : forall a b, (inject_Z a < inject_Z b + 1)%Q -> a <= b.
Proof.
  intros a b H. change 1%Q with (inject_Z 1) in H. rewrite <- inject_Z_plus, <- Zlt_Qlt in H. lia.
Qed.

Lemma qround_lo : forall x k, (inject_Z k - (1#2) < x)%Q -> k <= qround x.
Proof.
  intros x k H. pose proof (qround_near x) as N.
  apply inject_lt. lra.
Qed.
Lemma qround_hi : forall x k, (x < inject_Z k + (1#2))%Q -> qround x <= k.
Proof.
  intros x k H. pose proof (qround_near x) as N.
  apply inject_lt. lra.
Qed.
Lemma qround_lo0 : forall x k, 0 < k -> (inject_Z k - (1#2) <= x)%Q -> k <= qround x.
Proof.
  intros x k Hk H.
  assert (Hk1 : (1 <= inject_Z k)%Q) by (change 1%Q with (inject_Z 1); rewrite <- Zle_Qle; lia).
  unfold qround. rewrite (proj2 (qle_t 0 x)) by lra.
  assert (L : (inject_Z k <= x + (1#2))%Q) by lra.
  apply Qfloor_resp_le in L. now rewrite Qfloor_Z in L.
Qed.
Lemma qround_Z : forall k, qround (inject_Z k) = k.
Proof.
  intro k. apply Z.le_antisymm; [apply qround_hi|apply qround_lo]; lra.
Qed.
Lemma qround_ext : forall x y, (x == y)%Q -> qround x = qround y.
Proof.
  intros x y H. unfold qround, qle. rewrite H. destruct (Qle_bool 0 y).
  - now rewrite H.
  - now rewrite H.
Qed.
Lemma qround_mono : forall x y, (x <= y)%Q -> qround x <= qround y.
Proof.
  intros x y H. unfold qround. destruct (qle 0 x) eqn:Ex; destruct (qle 0 y) eqn:Ey.
  - apply Qfloor_resp_le. lra.
  - apply qle_t in Ex. apply qle_f in Ey. lra.
  - apply qle_f in Ex. apply qle_t in Ey.
    assert (A : 0 <= Qfloor ((1#2) - x)).
    { change 0 with (Qfloor 0). apply Qfloor_resp_le. lra. }
    assert (B : 0 <= Qfloor (y + (1#2))).
    { change 0 with (Qfloor 0). apply Qfloor_resp_le. lra. }
    lia.
  - assert (A : Qfloor ((1#2) - y) <= Qfloor ((1#2) - x)) by (apply Qfloor_resp_le; lra).
    lia.
Qed.
Lemma qround_plus1 : forall x, (0 <= x)%Q -> qround (x + 1) = qround x + 1.
Proof.
  intros x H. unfold qround. rewrite (proj2 (qle_t 0 x) H), (proj2 (qle_t 0 (x + 1))) by lra.
  assert (E : (x + 1 + (1#2) == (x + (1#2)) + inject_Z 1)%Q) by (change (inject_Z 1) with 1%Q; ring).
  rewrite E.
  apply Z.le_antisymm.
  - apply inject_lt. rewrite inject_Z_plus.
    pose proof (Qfloor_le (x + (1#2) + inject_Z 1)). pose proof (Qlt_floor (x + (1#2))) as U.
    rewrite inject_Z_plus in U. change (inject_Z 1) with 1%Q in *. lra.
  - apply inject_lt. rewrite inject_Z_plus.
    pose proof (Qlt_floor (x + (1#2) + inject_Z 1)) as U. pose proof (Qfloor_le (x + (1#2))).
    rewrite inject_Z_plus in U. change (inject_Z 1) with 1%Q in *. lra.
Qed.

(* ---------- ticks ---------- *)

Section Ticks.
Variable P : tpar.
Hypothesis D : (0 < dtmin P)%Q.

Lemma div_le : forall x y, (x <= y)%Q -> (x / dtmin P <= y / dtmin P)%Q.
Proof.
  intros x y H. unfold Qdiv. apply Qmult_le_compat_r; [assumption|].
  apply Qlt_le_weak, Qinv_lt_0_compat, D.
Qed.
Lemma tick_mono : forall x y, (x <= y)%Q -> tick P x <= tick P y.
Proof. intros x y H. apply qround_mono, div_le, H. Qed.
Lemma tick_ext : forall x y, (x == y)%Q -> tick P x = tick P y.
Proof. intros x y H. apply qround_ext. now rewrite H. Qed.
Lemma tick_untick : forall k, tick P (untick P k) = k.
Proof.
  intro k. unfold tick, untick. transitivity (qround (inject_Z k)); [|apply qround_Z].
  apply qround_ext. field. lra.
Qed.
Lemma tick_0 : tick P 0 = 0.
Proof.
  unfold tick. transitivity (qround (inject_Z 0)); [|apply qround_Z]. apply qround_ext.
  change (inject_Z 0) with 0%Q. field. lra.
Qed.
Lemma tick_dtmin : tick P (dtmin P) = 1.
Proof.
  unfold tick. transitivity (qround (inject_Z 1)); [|apply qround_Z]. apply qround_ext.
  change (inject_Z 1) with 1%Q. field. lra.
Qed.
(* a time within half a tick of its tick *)
Lemma tick_near : forall x,
  (untick P (tick P x) - (1#2) * dtmin P <= x <= untick P (tick P x) + (1#2) * dtmin P)%Q.
Proof.
  intro x. unfold tick, untick. pose proof (qround_near (x / dtmin P)) as [L U].
  set (k := inject_Z (qround (x / dtmin P))) in *.
  assert (E : (x == (x / dtmin P) * dtmin P)%Q) by (field; lra).
  set (q := (x / dtmin P)%Q) in *. rewrite E.
  assert (A : ((k - (1#2)) * dtmin P <= q * dtmin P)%Q) by (apply Qmult_le_compat_r; lra).
  assert (B : (q * dtmin P <= (k + (1#2)) * dtmin P)%Q) by (apply Qmult_le_compat_r; lra).
  split; lra.
Qed.
Lemma untick_lt : forall a b, a < b -> (untick P a + dtmin P <= untick P b)%Q.
Proof.
  intros a b H. unfold untick.
  assert (L : (inject_Z a + 1 <= inject_Z b)%Q).
  { change 1%Q with (inject_Z 1). rewrite <- inject_Z_plus, <- Zle_Qle. lia. }
  assert (M : ((inject_Z a + 1) * dtmin P <= inject_Z b * dtmin P)%Q) by (apply Qmult_le_compat_r; lra).
  lra.
Qed.
Lemma tick_plus_dtmin : forall x, (0 <= x)%Q -> tick P (x + dtmin P) = tick P x + 1.
Proof.
  intros x H. unfold tick. rewrite <- qround_plus1.
  - apply qround_ext. field. lra.
  - apply Qle_shift_div_l; [exact D|]. lra.
Qed.
(* more than half a tick above a grid point rounds to a later tick *)
Lemma tick_gt : forall x k, (untick P k + (1#2) * dtmin P < x)%Q -> k < tick P x.
Proof.
  intros x k H. unfold tick, untick in *.
  apply Z.lt_le_trans with (k + 1); [lia|]. apply qround_lo.
  rewrite inject_Z_plus. change (inject_Z 1) with 1%Q.
  apply Qlt_shift_div_l; [exact D|]. lra.
Qed.
Lemma tick_lt : forall x k, (x < untick P k - (1#2) * dtmin P)%Q -> tick P x < k.
Proof.
  intros x k H. unfold tick, untick in *.
  apply Z.le_lt_trans with (k - 1); [|lia]. apply qround_hi.
  unfold Z.sub. rewrite inject_Z_plus, inject_Z_opp. change (inject_Z 1) with 1%Q.
  apply Qlt_shift_div_r; [exact D|]. lra.
Qed.
End Ticks.

Lemma tdiv_half : forall old b, 0 < old -> (2 <= b)%Q ->
  0 <= tdiv old b <= old /\ (1 < old -> tdiv old b < old).
Proof.
  intros old b Ho Hb. unfold tdiv.
  assert (Ho1 : (1 <= inject_Z old)%Q) by (change 1%Q with (inject_Z 1); rewrite <- Zle_Qle; lia).
  assert (L : (0 <= inject_Z old / b)%Q) by (apply Qle_shift_div_l; lra).
  assert (U : (inject_Z old / b <= inject_Z old / 2)%Q).
  { apply Qle_shift_div_r; [lra|].
    setoid_replace (inject_Z old / 2 * b)%Q with (inject_Z old * (b / 2))%Q by field.
    setoid_replace (inject_Z old) with (inject_Z old * 1)%Q at 1 by ring.
    rewrite (Qmult_comm (inject_Z old) 1), (Qmult_comm (inject_Z old) (b / 2)).
    apply Qmult_le_compat_r; [|lra]. apply Qle_shift_div_l; lra. }
  assert (E : (inject_Z old / 2 == inject_Z old * (1#2))%Q) by field.
  repeat split.
  - apply qround_lo. change (inject_Z 0) with 0%Q. lra.
  - apply qround_hi. lra.
  - intro H1. apply Z.le_lt_trans with (old - 1); [|lia].
    destruct (Z.eq_dec old 2) as [E2|N2].
    + subst old. rewrite <- (qround_Z (2 - 1)). apply qround_mono.
      change (inject_Z (2 - 1)) with 1%Q. change (inject_Z 2) with 2%Q in *. lra.
    + apply qround_hi. unfold Z.sub. rewrite inject_Z_plus, inject_Z_opp. change (inject_Z 1) with 1%Q.
      assert (3 <= inject_Z old)%Q by (change 3%Q with (inject_Z 3); rewrite <- Zle_Qle; lia).
      lra.
Qed.
Lemma tmul_ge : forall old b, 0 <= old -> (1 <= b)%Q -> old <= tmul old b.
Proof.
  intros old b Ho Hb. unfold tmul. apply Z.le_trans with (qround (inject_Z old)); [rewrite qround_Z; lia|]. apply qround_mono.
  assert (Ho1 : (0 <= inject_Z old)%Q) by (change 0%Q with (inject_Z 0); rewrite <- Zle_Qle; lia).
  setoid_replace (inject_Z old) with (1 * inject_Z old)%Q at 1 by ring.
  rewrite (Qmult_comm (inject_Z old) b). apply Qmult_le_compat_r; assumption.
Qed.

Lemma chk_true : forall A P b (k : option A), b = true -> chk P b k = k.
Proof. intros A P b k H. unfold chk. rewrite H. now destruct (dbg P). Qed.

(* ---------- next ---------- *)

(* the options and step sizes the stepping code relies on *)
Record par_ok (P : tpar) : Prop := {
  ok_dtmin : (0 < dtmin P)%Q;
  ok_dtmax : (dtmin P <= dtmax P)%Q;
  ok_strobe : (dtmin P <= tstrobe P)%Q;
  ok_shrink : (2 <= shrink P)%Q;
  ok_hold : (1 <= hold P)%Q;
  ok_grow : (1 <= grow P)%Q }.

(* what holds between passes of the loop *)
Record inv (P : tpar) (s : tst) : Prop := {
  inv_user0 : (0 <= t_user s)%Q;
  inv_sorted : StronglySorted Qle (eq_ s);
  inv_acc : accepted s = true ->
    tick P (time1 s) <= tick P (time0 s)
    /\ tick P (time0 s) < tick P (t_user s)
    /\ tick P (time0 s) < tick P (t_err s)
    /\ tick P (time0 s) < tick P (t_amb s)
    /\ Forall (fun e => tick P (time0 s) < tick P e) (eq_ s)
    /\ (converged s = false -> tick P (time1 s) = tick P (time0 s));
  inv_rej : accepted s = false ->
    tick P (time1 s) < tick P (time0 s)
    /\ tick P (time0 s) <= tick P (t_user s)
    /\ tick P (time1 s) < tick P (t_err s)
    /\ tick P (time1 s) < tick P (t_amb s)
    /\ Forall (fun e => tick P (time0 s) <= tick P e) (eq_ s)
    /\ (converged s = true ->
        tick P (t_err s) < tick P (time0 s) \/ tick P (t_amb s) < tick P (time0 s)) }.

Definition stuck (P : tpar) (s : tst) : Prop :=
  accepted s = false /\ converged s = false /\ tick P (time0 s) = tick P (time1 s) + 1.

Section Next.
Variable P : tpar.
Hypothesis OK : par_ok P.
Variable s : tst.
Variables t1 ref : Z.
Hypothesis Href : t1 <= ref.
Hypothesis U0 : (0 <= t_user s)%Q.

Let D := ok_dtmin P OK.

Definition good (c : cand) : Prop :=
  newtime c = ref + new_dt c /\ ref < newtime c <= tick P (t_user s).

Lemma cons2_ok : forall c, good c -> consistent2 P s t1 ref c = true.
Proof.
  intros c (E & L & U). unfold consistent2.
  rewrite (tick_0 P D), (tick_dtmin P D), (tick_plus_dtmin P D) by assumption. lia.
Qed.
Lemma cons_ok : forall almost fixed c, good c -> newtime c <= almost -> almost <= fixed ->
  consistent P s t1 ref almost fixed c = true.
Proof.
  intros almost fixed c G A F. unfold consistent. rewrite (cons2_ok c G). lia.
Qed.

Lemma next_fixed_ok :
  ref < tick P (t_user s) -> Forall (fun e => ref < tick P e) (eq_ s) ->
  exists c, next_fixed P s t1 ref = Some c /\ good c
    /\ (forall e r, eq_ s = e :: r -> newtime c <= tick P e)
    /\ ((newtime c = tick P (t_user s) /\ cause c = scUSER)
        \/ (newtime c < tick P (t_user s) /\ cause c = scEVENTQ
            /\ exists e r, eq_ s = e :: r /\ newtime c = tick P e)).
Proof.
  intros Hu Hq. unfold next_fixed. cbv zeta.
  rewrite chk_true by (apply cons2_ok; unfold good; cbn; lia).
  destruct (eq_ s) as [|e r] eqn:E.
  - eexists. split; [reflexivity|]. unfold good; cbn. repeat split; try lia; try (left; lia).
    intros e r H; discriminate H.
  - apply Forall_inv in Hq. cbn [newtime].
    destruct (tick P e <? tick P (t_user s)) eqn:L.
    + rewrite chk_true by (apply cons2_ok; unfold good; cbn; lia).
      eexists. split; [reflexivity|]. unfold good; cbn. repeat split; try lia.
      * intros e' r' H. injection H as -> ->. lia.
      * right. repeat split; try lia. exists e, r. auto.
    + eexists. split; [reflexivity|]. unfold good; cbn. repeat split; try lia; try (left; lia).
      intros e' r' H. injection H as -> ->. lia.
Qed.

Lemma next_amb_ok : forall c, good c -> ref < tick P (t_amb s) ->
  exists c', next_amb P s t1 ref c = Some c' /\ good c' /\ newtime c' <= tick P (t_amb s)
    /\ (c' = c \/ (newtime c' < newtime c /\ cause c' = scAMBEVENT)).
Proof.
  intros c G Ha. unfold next_amb. cbv zeta. destruct G as (G1 & G2).
  destruct (tick P (t_amb s) <? newtime c) eqn:L.
  - rewrite chk_true by (apply cons2_ok; unfold good; cbn; lia).
    eexists. split; [reflexivity|]. unfold good; cbn. repeat split; lia.
  - exists c. split; [reflexivity|]. unfold good. repeat split; try lia; try (left; reflexivity).
Qed.

Lemma next_err_ok : forall c fixed, good c -> newtime c <= fixed -> ref < tick P (t_err s) ->
  exists c', next_err P s t1 ref (newtime c) fixed c = Some c' /\ good c'
    /\ newtime c' <= tick P (t_err s)
    /\ (c' = c \/ (newtime c' < newtime c /\ cause c' = scTE)).
Proof.
  intros c fixed G Hf He. unfold next_err. cbv zeta. destruct G as (G1 & G2).
  destruct (tick P (t_err s) <? newtime c) eqn:L.
  - rewrite chk_true by (apply cons_ok; unfold good; cbn; lia).
    eexists. split; [reflexivity|]. unfold good; cbn. repeat split; lia.
  - exists c. split; [reflexivity|]. unfold good. repeat split; try lia; try (left; reflexivity).
Qed.

Lemma tick_ge1 : forall x, (dtmin P <= x)%Q -> 1 <= tick P x.
Proof. intros x H. rewrite <- (tick_dtmin P D). now apply tick_mono. Qed.

Lemma next_skip_ok : forall c almost fixed, good c -> newtime c <= almost -> almost <= fixed ->
  exists c', next_skip P s t1 ref almost fixed c = Some c' /\ good c'
    /\ (c' = c \/ (newtime c' < newtime c /\ cause c' = scSKIP)).
Proof.
  intros c almost fixed G Ha Hf. unfold next_skip. cbv zeta. destruct G as (G1 & G2).
  pose proof (tick_ge1 _ (ok_dtmax P OK)) as M.
  destruct (tick P (dtmax P) <? new_dt c) eqn:L.
  - rewrite chk_true by (apply cons_ok; unfold good; cbn; lia).
    eexists. split; [reflexivity|]. unfold good; cbn. repeat split; lia.
  - exists c. split; [reflexivity|]. unfold good. repeat split; try lia; try (left; reflexivity).
Qed.

Lemma qmax_ge : forall a b, (b <= qmax a b)%Q.
Proof.
  intros a b. unfold qmax. destruct (qlt a b) eqn:E; [lra|]. now apply qlt_f in E.
Qed.

Lemma next_initial_ok : forall c, good c ->
  let c' := next_initial P ref c in
  good c' /\ (c' = c \/ (newtime c' < newtime c /\ cause c' = scINITIAL)).
Proof.
  intros c (G1 & G2). unfold next_initial. cbv zeta.
  pose proof (tick_ge1 _ (qmax_ge (dtmax P / 100) (dtmin P))) as M.
  set (d := tick P (qmax (dtmax P / 100) (dtmin P))) in *.
  destruct (d <? new_dt c) eqn:L.
  - unfold good; cbn. split; lia.
  - unfold good. split; [lia|]. left; reflexivity.
Qed.
End Next.

(* the step is refused or accepted, and what remains of it after the limits by iterations *)
Lemma next_normal_ok : forall P, par_ok P -> forall s over t1 t0 almost fixed c,
  let ref := if accepted s then t0 else t1 in
  (0 <= t_user s)%Q -> t1 < t0 ->
  good P s ref c -> newtime c <= almost -> almost <= fixed ->
  (accepted s = true -> converged s = true) ->
  (accepted s = false -> t0 <= tick P (t_user s)) ->
  (accepted s = false -> converged s = true -> newtime c < t0) -> 1 <= cause c ->
  exists c', next_normal P s over t1 ref almost fixed (t0 - t1) c = Some c'
    /\ newtime c' = ref + new_dt c' /\ newtime c' <= newtime c
    /\ (accepted s = true -> good P s ref c')
    /\ (accepted s = false -> converged s = true -> c' = c)
    /\ (accepted s = false -> converged s = false ->
        0 <= new_dt c' <= t0 - t1 /\ (1 < t0 - t1 -> new_dt c' < t0 - t1))
    /\ (c' = c \/ (newtime c' < newtime c /\ cause c' <> scUSER)) /\ 1 <= cause c'.
Proof.
  intros P OK s over t1 t0 almost fixed c ref U0 Ht G Ha Hf Hac Hru Hrc Hk.
  destruct G as (G1 & G2).
  pose proof (tdiv_half (t0 - t1) (shrink P) ltac:(lia) (ok_shrink P OK)) as ((S0 & S1) & S2).
  pose proof (tmul_ge (t0 - t1) (hold P) ltac:(lia) (ok_hold P OK)) as HH.
  pose proof (tmul_ge (t0 - t1) (grow P) ltac:(lia) (ok_grow P OK)) as HG.
  unfold next_normal. unfold ref in *. clear ref.
  destruct (accepted s) eqn:Acc.
  - rewrite (Hac eq_refl). cbn [negb bind].
    assert (Step : exists c2,
      (if over
       then if tmul (t0 - t1) (hold P) <? new_dt c
            then let c' := mk_cand (t0 + tmul (t0 - t1) (hold P)) (tmul (t0 - t1) (hold P)) scITER_A in
                 chk P true (chk P (consistent P s t1 t0 almost fixed c') (Some c'))
            else Some c
       else Some c) = Some c2 /\ good P s t0 c2 /\ (c2 = c \/ (newtime c2 < newtime c /\ cause c2 <> scUSER)) /\ 1 <= cause c2).
    { destruct over.
      - destruct (tmul (t0 - t1) (hold P) <? new_dt c) eqn:L.
        + cbv zeta. rewrite chk_true by reflexivity.
          rewrite chk_true by (apply cons_ok; auto; unfold good; cbn; try lia).
          eexists. split; [reflexivity|]. unfold good; cbn. unfold scITER_A, scUSER. lia.
        + exists c. unfold good. split; [reflexivity|]. split; [lia|]. split; [now left|lia].
      - exists c. unfold good. split; [reflexivity|]. split; [lia|]. split; [now left|lia]. }
    destruct Step as (c2 & E2 & (H1 & H2) & H3 & Hk2).
    match goal with |- context [bind ?x _] => replace x with (Some c2) by (symmetry; exact E2) end.
    cbn [bind].
    assert (H4 : newtime c2 <= newtime c) by (destruct H3 as [H3|H3]; [rewrite H3|]; lia).
    destruct (tmul (t0 - t1) (grow P) <? new_dt c2) eqn:L.
    + cbv zeta. rewrite chk_true by (apply cons_ok; auto; unfold good; cbn; try lia).
      eexists. split; [reflexivity|]. unfold good; cbn. repeat split; try lia; intros; try discriminate; unfold scADT, scITER_R, scUSER in *; try lia; try assumption.
    + exists c2. split; [reflexivity|]. unfold good. repeat split; try lia; intros; try discriminate; unfold scADT, scITER_R, scUSER in *; try lia; try assumption.
  - destruct (converged s) eqn:Con; cbn [negb bind].
    + specialize (Hrc eq_refl eq_refl).
      replace (tmul (t0 - t1) (hold P) <? new_dt c) with false by lia.
      match goal with |- context [bind ?x _] => replace x with (Some c) by (now destruct over) end.
      cbn [bind].
      replace (tmul (t0 - t1) (grow P) <? new_dt c) with false by lia.
      exists c. split; [reflexivity|]. repeat split; try lia; intros; try discriminate; unfold scADT, scITER_R, scUSER in *; try lia; try assumption; try now left.
    + assert (Step : exists c1,
        (if tdiv (t0 - t1) (shrink P) <? new_dt c
         then chk P (negb false) (Some (mk_cand (t1 + tdiv (t0 - t1) (shrink P)) (tdiv (t0 - t1) (shrink P)) scITER_R))
         else Some c) = Some c1
        /\ newtime c1 = t1 + new_dt c1 /\ 0 <= new_dt c1 <= tdiv (t0 - t1) (shrink P)
        /\ (c1 = c \/ (newtime c1 < newtime c /\ cause c1 <> scUSER))
        /\ (cause c1 = cause c \/ cause c1 = scITER_R)).
      { destruct (tdiv (t0 - t1) (shrink P) <? new_dt c) eqn:L.
        - rewrite chk_true by reflexivity. eexists. split; [reflexivity|]. cbn.
          unfold scITER_R, scUSER. repeat split; try lia.
        - exists c. split; [reflexivity|]. repeat split; try lia; try (left; reflexivity). }
      destruct Step as (c1 & E1 & H1 & H2 & H3 & H4).
      match goal with |- context [bind ?x _] => replace x with (Some c1) by (symmetry; exact E1) end.
      cbn [bind].
      replace (tmul (t0 - t1) (hold P) <? new_dt c1) with false by lia.
      match goal with |- context [bind ?x _] => replace x with (Some c1) by (now destruct over) end.
      cbn [bind].
      replace (tmul (t0 - t1) (grow P) <? new_dt c1) with false by lia.
      assert (H5 : newtime c1 <= newtime c) by (destruct H3 as [H3|H3]; [rewrite H3|]; lia).
      exists c1. split; [reflexivity|]. repeat split; try lia; intros; try discriminate; unfold scADT, scITER_R, scUSER in *; try lia; try assumption.
Qed.

(* the cause names the limit that was taken *)
Definition labelled (u fixed almost : Z) (c : cand) : Prop :=
  (newtime c = u <-> cause c = scUSER)
  /\ (newtime c = fixed -> newtime c <> u -> cause c = scEVENTQ)
  /\ (newtime c = almost -> newtime c <> fixed -> newtime c <> u -> cause c = scAMBEVENT).

Lemma labelled_lt : forall u fixed almost nt c,
  newtime c < nt -> nt <= almost -> almost <= fixed -> fixed <= u -> cause c <> scUSER ->
  labelled u fixed almost c.
Proof. intros u fixed almost nt c A B C E F. unfold labelled. repeat split; intros; lia. Qed.

Lemma labelled_amb : forall u cf ca,
  newtime cf <= u ->
  (newtime cf = u /\ cause cf = scUSER) \/ (newtime cf < u /\ cause cf = scEVENTQ) ->
  ca = cf \/ (newtime ca < newtime cf /\ cause ca = scAMBEVENT) ->
  labelled u (newtime cf) (newtime ca) ca /\ 1 <= cause ca.
Proof.
  intros u cf ca H1 H2 H3. unfold labelled, scUSER, scEVENTQ, scAMBEVENT in *.
  destruct H3 as [E|(H3 & H4)].
  - subst ca. destruct H2 as [(A & B)|(A & B)]; repeat split; intros; lia.
  - repeat split; intros; lia.
Qed.

Lemma next_fraction_ok : forall P, par_ok P -> forall s t1 ref almost fixed c,
  (0 <= t_user s)%Q -> t1 <= ref -> good P s ref c -> newtime c <= almost -> almost <= fixed ->
  exists c', next_fraction P s t1 ref almost fixed c = Some c' /\ good P s ref c'
    /\ newtime c' <= newtime c /\ cause c' = cause c.
Proof.
  intros P OK s t1 ref almost fixed c U0 Hr (G1 & G2) Ha Hf.
  pose proof (ok_dtmin P OK) as D.
  unfold next_fraction. cbv zeta.
  rewrite chk_true by lia.
  replace (new_dt c =? 0) with false by lia.
  set (T := fixed - ref). set (n := new_dt c) in *.
  assert (Hn : 0 < n <= T) by (unfold T; lia).
  rewrite Z.quot_div_nonneg by lia.
  pose proof (Z.div_mod T n ltac:(lia)) as DM. pose proof (Z.mod_pos_bound T n ltac:(lia)) as MB.
  set (k := T / n) in *.
  assert (Hk : 1 <= k) by (unfold k; apply Z.div_le_lower_bound; lia).
  rewrite (tick_dtmin P D).
  assert (Step : exists d,
    (if n * k =? T then Some n
     else if T / (k + 1) * (k + 1) =? T then Some (T / (k + 1))
     else if T / (k + 2) * (k + 2) =? T then Some (T / (k + 2))
     else chk P (((T / (k + 1)) + 1) * (k + 1) >? T) (Some (T / (k + 1) + 1))) = Some d
    /\ 0 < d <= n).
  { pose proof (Z.div_mod T (k + 1) ltac:(lia)) as D1.
    pose proof (Z.mod_pos_bound T (k + 1) ltac:(lia)) as M1.
    pose proof (Z.div_mod T (k + 2) ltac:(lia)) as D2.
    pose proof (Z.mod_pos_bound T (k + 2) ltac:(lia)) as M2.
    assert (L1 : T / (k + 1) < n) by (apply Z.div_lt_upper_bound; nia).
    assert (L2 : T / (k + 2) < n) by (apply Z.div_lt_upper_bound; nia).
    assert (N1 : 0 <= T / (k + 1)) by (apply Z.div_pos; lia).
    assert (N2 : 0 <= T / (k + 2)) by (apply Z.div_pos; lia).
    destruct (n * k =? T) eqn:E0; [exists n; split; [reflexivity|lia]|].
    destruct (T / (k + 1) * (k + 1) =? T) eqn:E1.
    { eexists. split; [reflexivity|]. nia. }
    destruct (T / (k + 2) * (k + 2) =? T) eqn:E2.
    { eexists. split; [reflexivity|]. nia. }
    rewrite chk_true by nia. eexists. split; [reflexivity|]. lia. }
  destruct Step as (d & E & Hd).
  match goal with |- context [bind ?x _] => replace x with (Some d) by (symmetry; exact E) end.
  cbn [bind].
  rewrite chk_true by (rewrite (tick_untick P D); lia).
  rewrite chk_true by (apply cons_ok; auto; unfold good; cbn; lia).
  eexists. split; [reflexivity|]. unfold good; cbn. repeat split; lia.
Qed.

Lemma next_smooth_ok : forall P, par_ok P -> forall s t1 t0 almost fixed c,
  let ref := if accepted s then t0 else t1 in
  (0 <= t_user s)%Q -> t1 <= t0 -> ref < almost <= fixed -> fixed <= tick P (t_user s) ->
  newtime c = ref + new_dt c -> newtime c <= almost ->
  labelled (tick P (t_user s)) fixed almost c ->
  (accepted s = true -> ref < newtime c) ->
  (accepted s = false -> newtime c < t0) ->
  exists c', next_smooth P s t1 t0 ref almost fixed (t0 - t1) c = Some c'
    /\ newtime c' = ref + new_dt c' /\ newtime c' <= almost
    /\ (newtime c' = tick P (t_user s) <-> cause c' = scUSER)
    /\ (accepted s = true -> ref < newtime c')
    /\ (accepted s = false -> c' = c).
Proof.
  intros P OK s t1 t0 almost fixed c ref U0 Ht Hal Hfx HN HA (L1 & L2 & L3) Ac Rj.
  unfold next_smooth. cbv zeta.
  replace (newtime c >? almost) with false by lia.
  destruct (newtime c =? tick P (t_user s)) eqn:E1.
  { rewrite chk_true by (rewrite (proj1 L1) by lia; reflexivity).
    exists c. repeat split; try assumption; apply L1. }
  destruct (newtime c =? fixed) eqn:E2.
  { rewrite chk_true by (rewrite L2 by lia; reflexivity).
    exists c. repeat split; try assumption; apply L1. }
  destruct (newtime c =? almost) eqn:E3.
  { rewrite chk_true by (rewrite L3 by lia; reflexivity).
    exists c. repeat split; try assumption; apply L1. }
  destruct (newtime c <? t0) eqn:E4.
  { exists c. repeat split; try assumption; apply L1. }
  unfold ref in *. clear ref. destruct (accepted s) eqn:Acc; [|specialize (Rj eq_refl); lia].
  specialize (Ac eq_refl).
  rewrite chk_true by lia.
  destruct (up_order (tmul (t0 - t1) (8 # 10)) (new_dt c) (tmul (t0 - t1) (15 # 10))
            && (t0 + (t0 - t1) <=? almost)) eqn:E5.
  - apply andb_prop in E5. destruct E5 as (E5 & E6).
    assert (Old : 0 < t0 - t1).
    { destruct (Z.eq_dec (t0 - t1) 0) as [Z0|]; [|lia]. exfalso. rewrite Z0 in E5.
      unfold up_order in E5. change (tmul 0 (15 # 10)) with 0 in E5. lia. }
    rewrite chk_true by (apply cons_ok; auto; unfold good; cbn; lia).
    eexists. split; [reflexivity|]. cbn [newtime new_dt cause].
    repeat split; try lia; intros; try discriminate.
    + replace (t0 + (t0 - t1) >? almost) with false by lia.
      replace (t0 + (t0 - t1) =? tick P (t_user s)) with true by lia. reflexivity.
    + replace (t0 + (t0 - t1) >? almost) with false in H by lia.
      destruct (t0 + (t0 - t1) =? tick P (t_user s)) eqn:F1; [lia|].
      destruct (t0 + (t0 - t1) =? fixed) eqn:F2; [discriminate H|].
      destruct (t0 + (t0 - t1) =? almost) eqn:F3; [discriminate H|].
      apply L1 in H. lia.
  - destruct (next_fraction_ok P OK s t1 t0 almost fixed c) as (c' & E & (G1 & G2) & G3 & G4);
      [assumption|lia|unfold good; lia|lia|lia|].
    rewrite E. exists c'. split; [reflexivity|]. repeat split; try lia; intros; try discriminate.
Qed.

(* next: never a failed assert and a strictly later time, unless stuck *)
Theorem next_ok : forall P, par_ok P -> forall s over, inv P s -> ~ stuck P s ->
  let t1 := tick P (time1 s) in
  let t0 := tick P (time0 s) in
  let ref := if accepted s then t0 else t1 in
  exists nt k,
    next P over s
    = Some (mk_tst (untick P nt) (untick P ref) (t_user s) (t_err s) (t_amb s) (eq_ s) k
                   (converged s) (accepted s),
            nt <=? tick P (tstop P + dtmin P))
    /\ ref < nt <= tick P (t_user s)
    /\ Forall (fun e => nt <= tick P e) (eq_ s)
    /\ (accepted s = true -> t0 < nt)
    /\ (accepted s = false -> nt < t0)
    /\ (nt = tick P (t_user s) <-> k = scUSER)
    /\ nt <= tick P (t_amb s).
Proof.
  intros P OK s over I NS t1 t0 ref.
  pose proof (ok_dtmin P OK) as D. pose proof (inv_user0 P s I) as U0.
  assert (J : t1 <= ref /\ t1 <= t0 /\ ref < tick P (t_user s) /\ ref < tick P (t_err s)
    /\ ref < tick P (t_amb s) /\ Forall (fun e => ref < tick P e) (eq_ s)).
  { unfold ref. destruct (accepted s) eqn:Acc.
    - destruct (inv_acc P s I Acc) as (A1 & A2 & A3 & A4 & A5 & A6).
      fold t0 t1 in A1, A2, A3, A4, A5, A6.
      repeat split; try lia; assumption.
    - destruct (inv_rej P s I Acc) as (A1 & A2 & A3 & A4 & A5 & A6).
      fold t0 t1 in A1, A2, A3, A4, A5, A6.
      repeat split; try lia.
      eapply Forall_impl; [|exact A5]. intros e He. cbv beta in He. lia. }
  destruct J as (J1 & J0 & J2 & J3 & J4 & J5).
  unfold next. cbv zeta. fold t0 t1 ref.
  destruct (next_fixed_ok P OK s t1 ref J1 U0 J2 J5) as (cf & Ef & Gf & Qf & Lf).
  rewrite Ef. cbn [bind].
  destruct (next_amb_ok P OK s t1 ref J1 U0 cf Gf J4) as (ca & Ea & Ga & Aa & La).
  rewrite Ea. cbn [bind].
  assert (Haf : newtime ca <= newtime cf) by (destruct La as [La|La]; [rewrite La|]; lia).
  rewrite chk_true by (apply cons_ok; auto; lia).
  destruct (next_err_ok P OK s t1 ref J1 U0 ca (newtime cf) Ga Haf J3) as (ce & Ee & Ge & Te & Le).
  rewrite Ee. cbn [bind].
  assert (Hea : newtime ce <= newtime ca) by (destruct Le as [Le|Le]; [rewrite Le|]; lia).
  destruct (next_skip_ok P OK s t1 ref J1 U0 ce (newtime ca) (newtime cf) Ge Hea Haf)
    as (ck & Ek & Gk & Lk).
  rewrite Ek. cbn [bind].
  assert (Hke : newtime ck <= newtime ce) by (destruct Lk as [Lk|Lk]; [rewrite Lk|]; lia).
  rewrite (tick_0 P D), (tick_dtmin P D).
  rewrite chk_true by lia.
  destruct (labelled_amb (tick P (t_user s)) cf ca) as (LA & LA1).
  { destruct Gf; lia. }
  { destruct Lf as [Lf|(Lf1 & Lf2 & _)]; [left|right; split]; assumption. }
  { exact La. }
  assert (Hfu : newtime cf <= tick P (t_user s)) by (destruct Gf; lia).
  assert (LE : labelled (tick P (t_user s)) (newtime cf) (newtime ca) ce /\ 1 <= cause ce).
  { destruct Le as [Le|(Le & Lc)]; [rewrite Le; now split|].
    split; [|rewrite Lc; discriminate].
    apply labelled_lt with (newtime ca); try lia. rewrite Lc. discriminate. }
  destruct LE as (LE & LE1).
  assert (LK : labelled (tick P (t_user s)) (newtime cf) (newtime ca) ck /\ 1 <= cause ck).
  { destruct Lk as [Lk|(Lk & Lc)]; [rewrite Lk; now split|].
    split; [|rewrite Lc; discriminate].
    apply labelled_lt with (newtime ce); try lia. rewrite Lc. discriminate. }
  destruct LK as (LK & LK1).
  (* the initial or the normal step *)
  assert (SN : exists cn,
    (if t0 - t1 =? 0 then Some (next_initial P t0 ck)
     else if t0 - t1 >? 0 then next_normal P s over t1 ref (newtime ca) (newtime cf) (t0 - t1) ck
     else Some ck) = Some cn
    /\ newtime cn = ref + new_dt cn /\ newtime cn <= newtime ck /\ 0 <= new_dt cn
    /\ labelled (tick P (t_user s)) (newtime cf) (newtime ca) cn
    /\ 1 <= cause cn
    /\ (accepted s = true -> ref < newtime cn)
    /\ (accepted s = false -> newtime cn < t0)).
  { destruct (t0 - t1 =? 0) eqn:E0.
    - assert (Er : ref = t0) by (unfold ref; destruct (accepted s); lia).
      destruct (next_initial_ok P OK s ref ck Gk) as ((G1 & G2) & L). cbv zeta in *.
      rewrite Er in G1, G2, L. rewrite Er.
      eexists. split; [reflexivity|]. set (ci := next_initial P t0 ck) in *.
      destruct Ga as (Ga1 & Ga2), Gf as (Gf1 & Gf2).
      assert (Hik : newtime ci <= newtime ck) by (destruct L as [L|L]; [rewrite L|]; lia).
      assert (LI : labelled (tick P (t_user s)) (newtime cf) (newtime ca) ci /\ 1 <= cause ci).
      { destruct L as [L|(L & Lc)]; [rewrite L; now split|].
        split; [|rewrite Lc; discriminate].
        apply labelled_lt with (newtime ck); try lia. rewrite Lc. discriminate. }
      destruct LI as (LI & LI1).
      split; [lia|]. split; [lia|]. split; [lia|]. split; [exact LI|]. split; [lia|].
      split; [lia|]. intro H. destruct (inv_rej P s I H) as (A1 & _). fold t0 t1 in A1. lia.
    - replace (t0 - t1 >? 0) with true by lia.
      destruct (next_normal_ok P OK s over t1 t0 (newtime ca) (newtime cf) ck)
        as (cn & En & N1 & N2 & N3 & N4 & N5 & N6 & N7).
      + assumption.
      + lia.
      + exact Gk.
      + lia.
      + lia.
      + intro Acc. destruct (inv_acc P s I Acc) as (_ & _ & _ & _ & _ & A6).
        destruct (converged s); [reflexivity|]. specialize (A6 eq_refl). fold t0 t1 in A6. lia.
      + intro Acc. destruct (inv_rej P s I Acc) as (_ & A2 & _). exact A2.
      + intros Acc Con. destruct (inv_rej P s I Acc) as (_ & _ & _ & _ & _ & A6).
        specialize (A6 Con). fold t0 in A6. lia.
      + assumption.
      + cbv zeta in En. fold ref in En. rewrite En. exists cn. split; [reflexivity|].
        fold ref in N1.
        assert (LN : labelled (tick P (t_user s)) (newtime cf) (newtime ca) cn).
        { destruct N6 as [N6|(N6 & N6c)]; [now rewrite N6|].
          apply labelled_lt with (newtime ck); (lia || assumption). }
        destruct (accepted s) eqn:Acc.
        * destruct (N3 eq_refl) as (G1 & G2). fold ref in G1, G2.
          repeat split; try apply LN; try lia; intros; try discriminate; try lia.
        * assert (R1 : ref = t1) by reflexivity.
          destruct (inv_rej P s I Acc) as (A1 & A2 & _ & _ & _ & A6).
          fold t0 t1 in A1, A2, A6.
          destruct (converged s) eqn:Con.
          -- rewrite (N4 eq_refl eq_refl) in *. destruct Gk as (Gk1 & Gk2).
             specialize (A6 eq_refl).
             repeat split; try apply LN; try lia; intros; try discriminate; try lia.
          -- destruct (N5 eq_refl eq_refl) as (M1 & M2).
             assert (1 < t0 - t1).
             { destruct (Z.eq_dec t0 (t1 + 1)) as [Es|]; [|lia]. exfalso. apply NS.
               repeat split; assumption. }
             repeat split; try apply LN; try lia; intros; try discriminate; try lia. }
  destruct SN as (cn & En & N1 & N2 & N3 & N4 & N5 & N6 & N7).
  match goal with |- context [bind ?x _] => replace x with (Some cn) by (symmetry; exact En) end.
  cbn [bind].
  destruct (next_smooth_ok P OK s t1 t0 (newtime ca) (newtime cf) cn)
    as (cs & Es & S1 & S2 & S3 & S4 & S5).
  { assumption. }
  { lia. }
  { destruct Ga as (Ga1 & Ga2). fold ref. lia. }
  { destruct Gf as (Gf1 & Gf2). lia. }
  { exact N1. }
  { lia. }
  { exact N4. }
  { exact N6. }
  { exact N7. }
  fold ref in Es, S1, S4. rewrite Es. cbn [bind].
  destruct Ga as (Ga1 & Ga2), Gf as (Gf1 & Gf2).
  assert (Hq : Forall (fun e => newtime cf <= tick P e) (eq_ s)).
  { pose proof (inv_sorted P s I) as So. destruct (eq_ s) as [|e r]; [constructor|].
    apply StronglySorted_inv in So. destruct So as (_ & So).
    constructor; [apply (Qf e r eq_refl)|]. eapply Forall_impl; [|exact So].
    intros x Hx. cbv beta in Hx. apply Z.le_trans with (tick P e); [apply (Qf e r eq_refl)|].
    now apply tick_mono. }
  destruct (accepted s) eqn:Acc.
  - specialize (S4 eq_refl). assert (R0 : ref = t0) by reflexivity.
    replace (new_dt cs <? 1) with false by lia. cbn [bind].
    replace (newtime cs =? t0) with false by lia. cbn [bind].
    rewrite chk_true by (cbn; lia). rewrite chk_true by reflexivity.
    replace (newtime cs <? t0) with false by lia.
    rewrite chk_true by reflexivity. rewrite chk_true by lia. rewrite chk_true by lia. cbn [bind].
    rewrite chk_true by (apply cons_ok; auto; unfold good; lia).
    exists (newtime cs), (cause cs). split; [reflexivity|].
    split; [lia|]. split; [eapply Forall_impl; [|exact Hq]; intros e He; cbv beta in He |- *; lia|].
    split; [intros; lia|]. split; [intros; discriminate|]. split; [exact S3|lia].
  - specialize (S5 eq_refl). specialize (N7 eq_refl). subst cs.
    assert (R1 : ref = t1) by reflexivity.
    destruct (inv_rej P s I Acc) as (A1 & A2 & A3 & A4 & A5 & A6).
      fold t0 t1 in A1, A2, A3, A4, A5, A6.
    assert (B : 1 < t0 - t1).
    { destruct (converged s) eqn:Con.
      - specialize (A6 eq_refl). lia.
      - destruct (Z.eq_dec t0 (t1 + 1)) as [Eq|]; [|lia]. exfalso. apply NS.
        repeat split; assumption. }
    assert (S8 : exists c8,
      (if new_dt cn <? 1 then
         let c' := mk_cand (ref + 1) 1 (cause cn + scSMALL) in
         chk P (consistent P s t1 ref (newtime ca) (newtime cf) c') (Some c')
       else Some cn) = Some c8
      /\ newtime c8 = ref + new_dt c8 /\ ref < newtime c8 < t0 /\ newtime c8 <= newtime ca
      /\ 1 <= cause c8).
    { destruct (new_dt cn <? 1) eqn:Sm.
      - cbv zeta. rewrite chk_true by (apply cons_ok; auto; unfold good; cbn; lia).
        eexists. split; [reflexivity|]. cbn. unfold scSMALL. lia.
      - exists cn. split; [reflexivity|]. lia. }
    destruct S8 as (c8 & E8 & M1 & M2 & M3 & M4).
    match goal with |- context [bind ?x _] => replace x with (Some c8) by (symmetry; exact E8) end.
    cbn [bind].
    replace (newtime c8 =? t0) with false by lia. cbn [bind].
    rewrite chk_true by reflexivity. rewrite chk_true by (cbn; lia).
    replace (newtime c8 <? t0) with true by lia.
    rewrite chk_true by lia. cbn [bind].
    rewrite chk_true by (apply cons_ok; auto; unfold good; lia).
    exists (newtime c8), (cause c8 + scREJECT). split; [reflexivity|].
    split; [lia|]. split; [eapply Forall_impl; [|exact Hq]; intros e He; cbv beta in He |- *; lia|].
    split; [intros; discriminate|]. split; [intros; lia|].
    split; [unfold scREJECT, scUSER; lia|lia].
Qed.

(* ---------- the event queue ---------- *)

Lemma eq_push_in : forall x l y, In y (eq_push x l) <-> y = x \/ In y l.
Proof.
  intros x l y. induction l as [|z r IH]; cbn.
  - intuition congruence.
  - destruct (qle x z); cbn; [intuition congruence|]. rewrite IH. intuition congruence.
Qed.
Lemma eq_push_sorted : forall x l, StronglySorted Qle l -> StronglySorted Qle (eq_push x l).
Proof.
  intros x l H. induction H as [|z r Hr IH Hz]; cbn.
  - repeat constructor.
  - destruct (qle x z) eqn:E.
    + apply qle_t in E. constructor; [now constructor|]. constructor; [assumption|].
      eapply Forall_impl; [|exact Hz]. intros a Ha. cbv beta in Ha. lra.
    + apply qle_f in E. constructor; [assumption|].
      apply Forall_forall. intros y Hy. apply eq_push_in in Hy. destruct Hy as [Ey|Hy].
      * rewrite Ey. lra.
      * rewrite Forall_forall in Hz. now apply Hz.
Qed.

(* where an event ends up *)
Lemma event_time_after : forall P k d, (0 < dtmin P)%Q -> (0 < d)%Q ->
  k < tick P (event_time (dtmin P) (untick P k) (untick P k + d)).
Proof.
  intros P k d D Hd. unfold event_time.
  destruct (qle (dtmin P) 0) eqn:E0; [apply qle_t in E0; lra|].
  assert (G : (inject_Z k < (untick P k + d) / dtmin P)%Q).
  { apply Qlt_shift_div_l; [assumption|]. unfold untick. lra. }
  destruct (qle (untick P k + d) (untick P k + dtmin P)) eqn:E1.
  - change (inject_Z (Qceiling ((untick P k + d) / dtmin P)) * dtmin P)%Q
      with (untick P (Qceiling ((untick P k + d) / dtmin P))).
    rewrite (tick_untick P D).
    pose proof (Qle_ceiling ((untick P k + d) / dtmin P)) as C.
    rewrite Zlt_Qlt. lra.
  - change (inject_Z (qround ((untick P k + d) / dtmin P)) * dtmin P)%Q
      with (untick P (qround ((untick P k + d) / dtmin P))).
    rewrite (tick_untick P D). apply qle_f in E1.
    apply Z.lt_le_trans with (k + 1); [lia|]. apply qround_lo.
    rewrite inject_Z_plus. change (inject_Z 1) with 1%Q.
    apply Qlt_shift_div_l; [assumption|]. unfold untick in *. lra.
Qed.

(* events requested on acceptance *)
Lemma requests_ok : forall P k s, (0 < dtmin P)%Q -> (time0 s = untick P k) -> forall reqs l,
  StronglySorted Qle l -> Forall (fun e => k < tick P e) l -> Forall (fun d => (0 < d)%Q) reqs ->
  StronglySorted Qle (fold_left (request P s) reqs l)
  /\ Forall (fun e => k < tick P e) (fold_left (request P s) reqs l)
  /\ incl l (fold_left (request P s) reqs l).
Proof.
  intros P k s D E0 reqs. induction reqs as [|d r IH]; intros l Hs Hl Hr.
  - repeat split; try assumption. apply incl_refl.
  - cbn [fold_left].
    assert (Hd : (0 < d)%Q) by exact (Forall_inv Hr). apply Forall_inv_tail in Hr.
    destruct (IH (request P s l d)) as (A & B & C).
    + unfold request. now apply eq_push_sorted.
    + unfold request. rewrite E0. apply Forall_forall. intros e He.
      apply eq_push_in in He. destruct He as [Ee|He].
      * rewrite Ee. now apply event_time_after.
      * rewrite Forall_forall in Hl. now apply Hl.
    + assumption.
    + repeat split; try assumption. intros x Hx. apply C. unfold request. apply eq_push_in. now right.
Qed.

Lemma pop_used_ok : forall P k l, (0 < dtmin P)%Q -> StronglySorted Qle l ->
  Forall (fun e => k <= tick P e) l ->
  exists l', pop_used P k l = Some l' /\ StronglySorted Qle l'
    /\ Forall (fun e => k < tick P e) l'
    /\ (forall e, In e l -> In e l' \/ tick P e = k)
    /\ (forall e, In e l' -> In e l).
Proof.
  intros P k l D. induction l as [|e r IH]; intros Hs Hl; cbn.
  - exists []. repeat split; try constructor; intros; contradiction.
  - assert (He : k <= tick P e) by exact (Forall_inv Hl).
    pose proof (StronglySorted_inv Hs) as (Hs' & Hr).
    destruct (tick P e <=? k) eqn:E.
    + rewrite chk_true by lia.
      destruct (IH Hs' (Forall_inv_tail Hl)) as (l' & E' & A & B & C & F).
      exists l'. repeat split; try assumption.
      * intros x [Ex|Hx]; [subst x; right; lia|now apply C].
      * intros x Hx. right. now apply F.
    + exists (e :: r). repeat split; try assumption; try auto.
      constructor; [lia|]. eapply Forall_impl; [|exact Hr].
      intros x Hx. cbv beta in Hx. pose proof (tick_mono P D _ _ Hx). lia.
Qed.

(* ---------- review ---------- *)

Lemma review_ok : forall P tp s k j, (0 < dtmin P)%Q ->
  time0 s = untick P k -> time1 s = untick P j -> j < k ->
  let (r, ok) := review P tp s in
  r = mk_tst (time0 s) (time1 s) (t_user s) (t_err r) (t_amb r) (eq_ s) (control s) (converged s)
             (accepted s)
  /\ j < tick P (t_err r) /\ j < tick P (t_amb r)
  /\ (ok = true -> k < tick P (t_err r) /\ k < tick P (t_amb r))
  /\ (ok = false -> tick P (t_err r) < k \/ tick P (t_amb r) < k).
Proof.
  intros P tp s k j D E0 E1 Hjk.
  pose proof (untick_lt P D j k Hjk) as Hq.
  assert (H : forall x, (0 < x)%Q -> (1#2 < x)%Q -> forall v,
    let v1 := if qlt v (time1 s + 2 * dtmin P) then (time1 s + 2 * dtmin P)%Q else v in
    let w := if qle (time0 s - x * dtmin P) v1 && qle v1 (time0 s + x * dtmin P)
             then (time0 s + x * dtmin P)%Q else v1 in
    j < tick P w /\ (qlt (time0 s) w = true -> k < tick P w)
    /\ (qlt (time0 s) w = false -> tick P w < k)).
  { intros x Hx0 Hx v v1 w.
    assert (Hxd : ((1#2) * dtmin P < x * dtmin P)%Q).
    { apply Qmult_lt_compat_r; assumption. }
    assert (V1 : (time1 s + 2 * dtmin P <= v1)%Q).
    { unfold v1. destruct (qlt v (time1 s + 2 * dtmin P)) eqn:L; [lra|]. now apply qlt_f in L. }
    unfold w. destruct (qle (time0 s - x * dtmin P) v1) eqn:A.
    - destruct (qle v1 (time0 s + x * dtmin P)) eqn:B; cbn [andb].
      + assert (K : k < tick P (time0 s + x * dtmin P)).
        { apply (tick_gt P D). rewrite E0. lra. }
        split; [lia|]. split; [intros; exact K|].
        intro F. apply qlt_f in F. lra.
      + apply qle_f in B.
        assert (K : k < tick P v1) by (apply (tick_gt P D); rewrite E0 in B; lra).
        split; [lia|]. split; [intros; exact K|]. intro F. apply qlt_f in F. lra.
    - cbn [andb]. apply qle_f in A.
      assert (K : tick P v1 < k) by (apply (tick_lt P D); rewrite E0 in A; lra).
      split; [apply (tick_gt P D); rewrite E1 in V1; lra|].
      split; [|intros; exact K]. intro F. apply qlt_t in F. lra. }
  unfold review. cbv zeta.
  pose proof (H 2%Q ltac:(lra) ltac:(lra) (tp_ev tp)) as (A1 & A2 & A3).
  pose proof (H (11#10)%Q ltac:(lra) ltac:(lra) (tp_err tp)) as (B1 & B2 & B3).
  cbv zeta in *. cbn [t_err t_amb].
  split; [reflexivity|]. split; [exact B1|]. split; [exact A1|].
  split.
  - intro F. apply andb_prop in F. destruct F as (F1 & F2). split; [now apply B2|now apply A2].
  - intro F. apply andb_false_iff in F. destruct F as [F|F]; [left; now apply B3|right; now apply A3].
Qed.
