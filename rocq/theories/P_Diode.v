(* C70: the diode. *)
Require Import Reals ZArith Bool Lra Lia.
Require Import Verif.Loops Verif.Diode_Model Verif.Diode_Proofs.
Local Open Scope R_scope.

(* ---------------------------------------------------------------- the settled current *)
(* An evaluation is settled when the current it gives is the one the line of the evaluation before gave at the same
   voltage.  Forward, a settled evaluation of a diode without parallel conductance is on the curve
   isat (exp(v/vt) - 1), and its conductance is the slope of that curve. *)
Theorem C70_forward : forall ni m c e x j j', good m c e -> plain m e -> started c e -> gparallel c = 0 -> 0 < x ->
  do_tr ni m c e x j = Some j' ->
  f0 (j_y j') = f0 (j_y j) + f1 (j_y j) * (x - fx (j_y j)) ->
  j_region j' = FORWARD /\ fx (j_y j') = x /\ f0 (j_y j') = law (sat m c e) (vth m e) x /\
  derivable_pt_lim (law (sat m c e) (vth m e)) x (f1 (j_y j')).
Proof.
  intros ni m c e x j j' G P St Gp Hx E C. unfold do_tr in E.
  rewrite (plain_eval ni m c e (j_region j) _ _ G P St) in E. cbn [fx f0 f1] in E.
  pose proof (sat_pos m c e G) as Hi. pose proof (vth_pos m c e G) as Hv.
  set (isat := sat m c e) in *. set (vt := vth m e) in *.
  set (amps := f1 (j_y j) * x + (f0 (j_y j) - fx (j_y j) * f1 (j_y j))) in *.
  assert (CA : f0 (j_y j') = amps) by (rewrite C; unfold amps; ring). clear C.
  rewrite Gp in E. destruct (Rle_dec 0 amps) as [Ha|Ha].
  - destruct (forward_step (asked m e) (gmin e) vt isat x amps Hx Ha Hi Hv) as (i & Ei & Eq).
    rewrite Ei in E. cbn [bind fst snd] in E. injection E as <-. cbn [j_region j_y f0 f1 fx] in *.
    assert (Ii : i = amps) by lra. subst i. rewrite Rmult_0_l, Rplus_0_r in *.
    assert (Hq : 0 < amps / isat + 1).
    { assert (0 <= amps / isat) by (apply Rmult_le_pos; [assumption|left; apply Rinv_0_lt_compat; assumption]). lra. }
    assert (L : ln (amps / isat + 1) = x / vt).
    { assert (Q : 1 + x / vt - ln (amps / isat + 1) = 1); [|lra]. apply (Rmult_eq_reg_l (isat + amps)); [|lra]. rewrite <- Eq. ring. }
    assert (A : amps = law isat vt x).
    { unfold law. rewrite <- L, exp_ln by assumption. field. lra. }
    split; [reflexivity|]. split; [reflexivity|]. split; [exact A|].
    eapply d_eq; [apply d_law; lra|]. rewrite A. unfold law. field. lra.
  - exfalso. unfold own_junction in E. destruct (Rle_dec x 0); [lra|]. destruct (Rle_dec 0 amps); [lra|].
    cbn [bind fst snd] in E. injection E as <-. cbn [j_y f0] in CA. rewrite Rmult_0_l, Rplus_0_r in CA.
    revert CA. match goal with |- (if ?b then _ else _) = _ -> _ => destruct b end; intro CA; [|lra].
    assert (0 < isat / vt) by (apply Rdiv_lt_0_compat; assumption). nra.
Qed.
Print Assumptions C70_forward.

(* reverse: whatever the state before, the curve, with the conductances that the flags ask for *)
Theorem C70_reverse : forall ni m c e x j, good m c e -> plain m e -> started c e -> x <= 0 ->
  let isat := sat m c e in let vt := vth m e in let fl := asked m e in
  let curve v := (if Z.testbit fl 3 then 0 else law isat vt v)
    + ((if Z.testbit fl 1 then gmin e else 0) + (if Z.testbit fl 2 then isat / vt else 0) + gparallel c) * v in
  exists j', do_tr ni m c e x j = Some j' /\ j_region j' = REVERSE /\ fx (j_y j') = x /\
    f0 (j_y j') = curve x /\ derivable_pt_lim curve x (f1 (j_y j')).
Proof.
  intros ni m c e x j G P St Hx isat vt fl curve. unfold do_tr.
  rewrite (plain_eval ni m c e (j_region j) _ _ G P St). cbn [fx f0 f1].
  pose proof (vth_pos m c e G) as Hv. fold isat vt fl in Hv |- *.
  unfold own_junction. destruct (Rle_dec x 0); [|lra].
  set (k := (if Z.testbit fl 1 then gmin e else 0) + (if Z.testbit fl 2 then isat / vt else 0) + gparallel c).
  assert (D : derivable_pt_lim curve x ((if Z.testbit fl 3 then 0 else isat * exp (x / vt) / vt) + k)).
  { apply (d_plus (fun v => if Z.testbit fl 3 then 0 else law isat vt v) _ (fun v => k * v)).
    - intro v. reflexivity.
    - destruct (Z.testbit fl 3); [apply derivable_pt_lim_const|apply d_law; lra].
    - apply (derivable_pt_lim_ext (fun v => k * v + 0)); [intro; ring|apply d_lin]. }
  destruct (Z.testbit fl 3) eqn:B3; destruct (Z.testbit fl 1) eqn:B1; destruct (Z.testbit fl 2) eqn:B2; cbn [bind fst snd];
    (eexists; split; [reflexivity|]; cbn [j_region j_y fx f0 f1]; split; [reflexivity|]; split; [reflexivity|];
     split; [unfold curve, law; rewrite ?B3, ?B1, ?B2; ring|]; eapply d_eq; [exact D|]; unfold k; ring).
Qed.
Print Assumptions C70_reverse.

(* ---------------------------------------------------------------- it settles *)
Section Run.
Variables (ni : R) (m : model) (c : common) (e : sim) (x : R).
Hypotheses (G : good m c e) (P : plain m e) (St : started c e) (Gp : gparallel c = 0) (Hx : 0 < x).
Let isat := sat m c e.
Let vt := vth m e.
Let goal := isat * exp (x / vt).
Let step (j : junction) : junction := match do_tr ni m c e x j with Some j' => j' | None => j end.
Let inside (j : junction) : Prop := fx (j_y j) = x /\ 0 <= f0 (j_y j) /\ isat + f0 (j_y j) <= goal.

Lemma run_isat : 0 < isat. Proof. apply sat_pos. exact G. Qed.
Lemma run_vt : 0 < vt. Proof. apply (vth_pos m c e). exact G. Qed.
Lemma run_goal : 0 < goal. Proof. apply Rmult_lt_0_compat; [apply run_isat|apply exp_pos]. Qed.

Lemma run_step : forall j, exists j', do_tr ni m c e x j = Some j' /\ fx (j_y j') = x /\
  let amps := f1 (j_y j) * x + (f0 (j_y j) - fx (j_y j) * f1 (j_y j)) in
  (0 <= amps -> isat + f0 (j_y j') = (isat + amps) * (1 + x / vt - ln (amps / isat + 1))) /\
  (amps < 0 -> inside j').
Proof.
  intros j. pose proof run_isat as Hi. pose proof run_vt as Hv. unfold do_tr.
  rewrite (plain_eval ni m c e (j_region j) _ _ G P St). cbn [fx f0 f1]. fold isat vt.
  set (amps := f1 (j_y j) * x + (f0 (j_y j) - fx (j_y j) * f1 (j_y j))). rewrite Gp.
  destruct (Rle_dec 0 amps) as [Ha|Ha].
  - destruct (forward_step (asked m e) (gmin e) vt isat x amps Hx Ha Hi Hv) as (i & Ei & Eq). rewrite Ei. cbn [bind fst snd].
    eexists. split; [reflexivity|]. cbn [j_y fx f0]. split; [reflexivity|]. split; [intros _; lra|intro; lra].
  - unfold own_junction. destruct (Rle_dec x 0); [lra|]. destruct (Rle_dec 0 amps); [lra|]. cbn [bind fst snd].
    eexists. split; [reflexivity|]. cbn [j_y fx f0]. split; [reflexivity|]. split; [intro; lra|]. intros _.
    unfold inside. cbn [j_y fx f0]. split; [reflexivity|].
    assert (0 < x / vt) by (apply Rdiv_lt_0_compat; assumption).
    assert (H1 : 1 + x / vt <= exp (x / vt)) by apply exp_ineq1_le.
    assert (Q : x * (isat / vt) = isat * (x / vt)) by (field; lra).
    unfold goal. destruct (Z.testbit (asked m e) 0); rewrite ?Q; split; nra.
Qed.
Lemma run_amps : forall j, fx (j_y j) = x -> f1 (j_y j) * x + (f0 (j_y j) - fx (j_y j) * f1 (j_y j)) = f0 (j_y j).
Proof. intros j E. rewrite E. ring. Qed.
Lemma run_log : forall a, 0 <= a -> let r := (isat + a) / goal in
  0 < r /\ (isat + a) * (1 + x / vt - ln (a / isat + 1)) = goal * (r * (1 - ln r)).
Proof.
  intros a Ha r. pose proof run_isat as Hi. pose proof run_goal as Hg.
  assert (Hr : 0 < r) by (apply Rdiv_lt_0_compat; lra). split; [exact Hr|].
  assert (Er : a / isat + 1 = r * exp (x / vt)).
  { unfold r, goal. field. split; [|lra]. apply Rgt_not_eq. apply exp_pos. }
  rewrite Er, ln_mult, ln_exp by (try apply exp_pos; assumption).
  pose proof run_vt as Hv. unfold r. field. lra.
Qed.

Lemma run_inside : forall j, inside j -> inside (step j) /\ 1 - (isat + f0 (j_y (step j))) / goal <= (1 - (isat + f0 (j_y j)) / goal) ^ 2.
Proof.
  intros j (Ex & H0 & H1). destruct (run_step j) as (j' & E & Ex' & Hf & _). unfold step. rewrite E.
  rewrite (run_amps j Ex) in Hf. specialize (Hf H0). pose proof run_goal as Hg. pose proof run_isat as Hi.
  destruct (run_log (f0 (j_y j)) H0) as (Hr & El). rewrite El in Hf. set (r := (isat + f0 (j_y j)) / goal) in *.
  assert (Hr1 : r <= 1). { unfold r. apply (Rmult_le_reg_r goal); [assumption|]. unfold Rdiv. rewrite Rmult_assoc, Rinv_l; lra. }
  destruct (newton_step r Hr Hr1) as ((N1 & N2) & N3).
  assert (Eg : goal * r = isat + f0 (j_y j)) by (unfold r; field; lra).
  assert (N1' : goal * r <= goal * (r * (1 - ln r))) by (apply Rmult_le_compat_l; lra).
  assert (N2' : goal * (r * (1 - ln r)) <= goal * 1) by (apply Rmult_le_compat_l; lra).
  split.
  - unfold inside. split; [exact Ex'|]. split; lra.
  - rewrite Hf. replace (goal * (r * (1 - ln r)) / goal) with (r * (1 - ln r)) by (field; lra). exact N3.
Qed.
Lemma run_two : forall j, inside (step (step j)).
Proof.
  intros j. destruct (run_step j) as (j1 & E1 & X1 & F1 & U1). unfold step at 2. rewrite E1.
  pose proof run_goal as Hg. pose proof run_isat as Hi.
  set (amps := f1 (j_y j) * x + (f0 (j_y j) - fx (j_y j) * f1 (j_y j))) in *. cbv zeta in F1, U1.
  destruct (Rlt_dec amps 0) as [N|N]; [apply run_inside; apply U1; exact N|].
  assert (Ha : 0 <= amps) by lra. specialize (F1 Ha). destruct (run_log amps Ha) as (Hr & El). rewrite El in F1.
  pose proof (newton_first _ Hr) as N1. set (r := (isat + amps) / goal) in *.
  assert (N2 : goal * (r * (1 - ln r)) <= goal * 1) by (apply Rmult_le_compat_l; lra).
  destruct (Rlt_dec (f0 (j_y j1)) 0) as [M|M].
  - destruct (run_step j1) as (j2 & E2 & X2 & F2 & U2). unfold step. rewrite E2. rewrite (run_amps j1 X1) in U2. apply U2. exact M.
  - apply run_inside. unfold inside. split; [exact X1|]. split; lra.
Qed.
End Run.

(* Held at a forward voltage, from whatever state, the iteration never fails and tends to the current of the curve.  From the
   second iteration on it is at or below it, and each iteration squares the relative error (of the current plus isat). *)
Theorem C70_iteration : forall ni m c e x j, good m c e -> plain m e -> started c e -> gparallel c = 0 -> 0 < x ->
  let isat := sat m c e in let target := law isat (vth m e) x in
  exists s : nat -> junction, s O = j /\ (forall n, do_tr ni m c e x (s n) = Some (s (S n))) /\
    Un_cv (fun n => f0 (j_y (s n))) target /\
    let err n := (target - f0 (j_y (s n))) / (target + isat) in
    forall n, (2 <= n)%nat -> 0 <= err n < 1 /\ err (S n) <= (err n) ^ 2.
Proof.
  intros ni m c e x j G P St Gp Hx isat target.
  pose (step := fun j => match do_tr ni m c e x j with Some j' => j' | None => j end).
  pose (s := fix s (n : nat) : junction := match n with O => j | S n => step (s n) end).
  pose proof (sat_pos m c e G) as Hi. pose proof (vth_pos m c e G) as Hv. fold isat in Hi.
  set (goal := isat * exp (x / vth m e)).
  assert (Hg : 0 < goal) by (apply Rmult_lt_0_compat; [assumption|apply exp_pos]).
  assert (Tg : target + isat = goal) by (unfold target, law, goal; ring).
  set (err := fun n => (target - f0 (j_y (s n))) / (target + isat)).
  assert (Er : forall n, err n = 1 - (isat + f0 (j_y (s n))) / goal).
  { intro n. unfold err. rewrite Tg. replace target with (goal - isat) by lra. field. lra. }
  assert (In : forall n, fx (j_y (s (S (S n)))) = x /\ 0 <= f0 (j_y (s (S (S n)))) /\ isat + f0 (j_y (s (S (S n)))) <= goal).
  { induction n as [|n IH].
    - exact (run_two ni m c e x G P St Gp Hx j).
    - apply (run_inside ni m c e x G P St Gp Hx (s (S (S n))) IH). }
  assert (Sq : forall n, 0 <= err (S (S n)) < 1 /\ err (S (S (S n))) <= err (S (S n)) ^ 2).
  { intro n. destruct (In n) as (X & A & B). split.
    - rewrite Er. assert (0 < (isat + f0 (j_y (s (S (S n))))) / goal) by (apply Rdiv_lt_0_compat; lra).
      assert ((isat + f0 (j_y (s (S (S n))))) / goal <= 1).
      { apply (Rmult_le_reg_r goal); [assumption|]. unfold Rdiv. rewrite Rmult_assoc, Rinv_l; lra. }
      lra.
    - rewrite (Er (S (S (S n)))), (Er (S (S n))). exact (proj2 (run_inside ni m c e x G P St Gp Hx (s (S (S n))) (In n))). }
  exists s. split; [reflexivity|]. split.
  { intro n. change (s (S n)) with (step (s n)). unfold step. destruct (run_step ni m c e x G P St Gp Hx (s n)) as (j' & E & _). rewrite E. reflexivity. }
  split.
  - pose proof (squares_limit (fun n => err (S (S n))) (proj1 (Sq O))) as L.
    assert (L2 : Un_cv (fun n => err (S (S n))) 0).
    { apply L. intro n. split; [apply (Sq (S n))|apply (Sq n)]. }
    intros eps He. destruct (L2 (eps / goal)) as [N HN]; [apply Rdiv_lt_0_compat; assumption|].
    exists (S (S N)). intros n Hn. destruct n as [|[|n]]; [lia|lia|]. specialize (HN n ltac:(lia)).
    unfold R_dist in *. rewrite Rminus_0_r in HN.
    assert (E : f0 (j_y (s (S (S n)))) - target = - (err (S (S n)) * goal)).
    { unfold err. rewrite Tg. field. lra. }
    rewrite E, Rabs_Ropp, Rabs_mult, (Rabs_right goal) by lra.
    apply (Rmult_lt_compat_r goal) in HN; [|assumption]. unfold Rdiv in HN. rewrite Rmult_assoc, Rinv_l in HN by lra. lra.
  - intros err' n Hn. destruct n as [|[|n]]; [lia|lia|]. apply Sq.
Qed.
Print Assumptions C70_iteration.

(* ---------------------------------------------------------------- the other styles *)
(* With flag 040, and in the junctions of mos transistors, while the limit does nothing: the curve of the style with gmin in
   parallel, and its slope, whatever the state before. *)
Theorem C70_style : forall ni m c e x j, good m c e -> style m e -> bv m <> None \/ ni <= x ->
  x <= vcrit m c e \/ Rabs (x - f0 (j_y j)) <= 2 * vth m e ->
  exists j', do_tr ni m c e x j = Some j' /\ fx (j_y j') = x /\ f0 (j_y j') = curve m c e x /\
    derivable_pt_lim (curve m c e) x (f1 (j_y j')).
Proof.
  intros ni m c e x j G S B L. unfold do_tr.
  destruct (style_eval ni m c e (j_region j) (f0 (j_y j)) (Fp x (f1 (j_y j) * x + (f0 (j_y j) - fx (j_y j) * f1 (j_y j))) (f1 (j_y j))) x G S
    (limit_inactive m c e (f0 (j_y j)) x G L) (or_intror B)) as (r & E).
  rewrite E. cbn [bind fx]. eexists. split; [reflexivity|]. cbn [j_y fx f0 f1]. split; [reflexivity|]. split; [reflexivity|].
  apply d_curve. exact G.
Qed.
Print Assumptions C70_style.

(* Each of those curves has a slope everywhere, passes through zero, and rises: the conductance is positive, and the junction
   never gives power back. *)
Theorem C70_passive : forall m c e, good m c e -> 0 <= gmin e ->
  (forall a b, a < b -> curve m c e a < curve m c e b) /\ (forall v, 0 <= v * curve m c e v) /\
  (forall v, exists d, derivable_pt_lim (curve m c e) v d /\ 0 < d) /\
  (forall a b, a < b -> law (sat m c e) (vth m e) a < law (sat m c e) (vth m e) b) /\ (forall v, 0 <= v * law (sat m c e) (vth m e) v).
Proof.
  intros m c e G Hg. pose proof (vth_pos m c e G) as Hv. pose proof (sat_pos m c e G) as Hi.
  assert (R1 : forall a b, a < b -> curve m c e a < curve m c e b).
  { apply (rising (curve m c e) (curve_slope m c e)); [intro; apply d_curve; assumption|intro; apply curve_slope_pos; assumption]. }
  assert (R2 : forall a b, a < b -> law (sat m c e) (vth m e) a < law (sat m c e) (vth m e) b).
  { apply (rising _ (fun v => sat m c e * exp (v / vth m e) / vth m e)); [intro; apply d_law; lra|].
    intro v. apply Rdiv_lt_0_compat; [|assumption]. apply Rmult_lt_0_compat; [assumption|apply exp_pos]. }
  assert (Pw : forall f : R -> R, f 0 = 0 -> (forall a b, a < b -> f a < f b) -> forall v, 0 <= v * f v).
  { intros f H0 H v. destruct (Rtotal_order v 0) as [L|[E|L]].
    - pose proof (H _ _ L). nra.
    - subst v. lra.
    - pose proof (H _ _ L). nra. }
  split; [exact R1|]. split; [apply Pw; [apply curve_0; exact G|exact R1]|]. split.
  - intro v. eexists. split; [apply d_curve; exact G|apply curve_slope_pos; assumption].
  - split; [exact R2|]. apply Pw; [|exact R2]. unfold law, Rdiv. rewrite Rmult_0_l, exp_0. ring.
Qed.
Print Assumptions C70_passive.

(* A settled state of those styles, that is a state the iteration does not change, with a current above zero: the current is
   the one of the curve if and only if the limit does nothing there. *)
Theorem C70_limit_settled : forall ni m c e x j, good m c e -> style m e -> 0 <= gmin e ->
  do_tr ni m c e x j = Some j -> 0 < f0 (j_y j) ->
  (f0 (j_y j) = curve m c e x <-> x <= vcrit m c e \/ Rabs (x - f0 (j_y j)) <= 2 * vth m e).
Proof.
  intros ni m c e x j G S Hg E HF. pose proof (vth_pos m c e G) as Hv. pose proof (sat_pos m c e G) as Hi.
  destruct (C70_passive m c e G Hg) as (Rs & _).
  assert (Main : forall v, limit (vth m e) (sat m c e) (f0 (j_y j)) x = Some v -> f0 (j_y j) = curve m c e v).
  { intros v L. unfold do_tr in E.
    assert (B : -3 * vth m e <= v \/ bv m <> None \/ ni <= v).
    { destruct S as [(Sm & S5)|Sm].
      - left. apply (spice_positive ni (bv m) (gmin e) _ (sat m c e) _ Hv Hi Hg).
        revert E. unfold eval_Yj. change (flags m e) with (asked m e). cbn [fx]. rewrite (isat_sat m c e G), vt_vth. cbn [bind]. rewrite S5.
        assert (E1 : Z.ltb 0 (mos_level m) = false) by (apply Z.ltb_ge; exact Sm). rewrite E1. cbn [orb]. rewrite L. cbn [bind].
        intro E. injection E as E. rewrite <- E in HF. cbn [j_y f0] in HF. exact HF.
      - destruct (Rle_dec (-3 * vth m e) v); [left; assumption|]. destruct (bv m) eqn:Eb; [right; left; discriminate|].
        destruct (Rle_dec ni v); [right; right; assumption|]. exfalso.
        (* the bv of a mos junction is not read *)
        revert E HF. unfold eval_Yj. change (flags m e) with (asked m e). cbn [fx]. rewrite (isat_sat m c e G), vt_vth. cbn [bind].
        assert (E1 : Z.ltb 0 (mos_level m) = true) by (apply Z.ltb_lt; lia). rewrite E1. cbn [orb]. rewrite L. cbn [bind].
        intros E HF. assert (Hn : v <= 0) by lra. pose proof (exp_pos (v / vth m e)) as Ep.
        assert (Le : exp (v / vth m e) <= 1). { rewrite <- exp_0. destruct (Req_dec v 0) as [Z0|Z0]; [subst v; unfold Rdiv; rewrite Rmult_0_l; lra|].
          left. apply exp_increasing. unfold Rdiv. assert (0 < / vth m e) by (apply Rinv_0_lt_compat; assumption). nra. }
        assert (0 < sat m c e / vth m e) by (apply Rdiv_lt_0_compat; assumption).
        unfold mos_junction in E. assert (E3 : Z.leb 1 (mos_level m) = true) by (apply Z.leb_le; lia). rewrite E3 in E. cbn [andb] in E.
        destruct (Z.leb (mos_level m) 6) eqn:E6.
        + destruct (Rle_dec v 0); [|lra]. cbn [bind fst snd] in E. injection E as E. rewrite <- E in HF. cbn [j_y f0] in HF. nra.
        + assert (E7 : Z.leb 7 (mos_level m) = true) by (apply Z.leb_gt in E6; apply Z.leb_le; lia).
          assert (E8 : Z.leb (mos_level m) 8 = true) by (apply Z.leb_le; lia). rewrite E7, E8 in E. cbn [andb] in E.
          destruct (Rlt_dec v (1/2)); [|lra]. cbn [bind fst snd] in E. injection E as E. rewrite <- E in HF. cbn [j_y f0] in HF. nra. }
    destruct (style_eval ni m c e (j_region j) (f0 (j_y j)) (Fp x (f1 (j_y j) * x + (f0 (j_y j) - fx (j_y j) * f1 (j_y j))) (f1 (j_y j))) v G S L B) as (r & Ev).
    rewrite Ev in E. cbn [bind fx] in E. injection E as E. rewrite <- E at 1. reflexivity. }
  split.
  - intro C. destruct (Rle_dec x (vcrit m c e)) as [A|A]; [left; exact A|].
    destruct (Rle_dec (Rabs (x - f0 (j_y j))) (2 * vth m e)) as [A2|A2]; [right; exact A2|exfalso].
    destruct (limit_active m c e (f0 (j_y j)) x G) as (v & L & N); [lra|lra|exact HF|].
    pose proof (Main v L) as Q. rewrite C in Q. destruct (Rtotal_order v x) as [T|[T|T]]; [|contradiction|].
    + pose proof (Rs _ _ T). lra.
    + pose proof (Rs _ _ T). lra.
  - intro H. apply Main. apply limit_inactive; assumption.
Qed.
Print Assumptions C70_limit_settled.

(* ---------------------------------------------------------------- temperature *)
(* the saturation current is the one on the card at the nominal temperature, and grows with the temperature *)
Theorem C70_saturation : forall m c e, good m c e ->
  (temp_c e = tnom_c m -> isat_of m c e = Some (is_adjusted c)) /\
  (0 <= xti m -> 0 <= eg m -> forall t g fl i, temp_c e < t ->
    exists a b, isat_of m c e = Some a /\ isat_of m c (Sim t g fl i) = Some b /\ 0 < a <= b).
Proof.
  intros m c e G. split.
  - intro E. rewrite (isat_sat m c e G). f_equal. unfold sat. rewrite E. destruct G as (_ & _ & _ & Ht).
    unfold Rdiv at 1. rewrite Rinv_r by lra. replace (kelvin (tnom_c m) / kelvin (tnom_c m)) with 1 by (field; lra).
    unfold Rpower. rewrite ln_1, Rmult_0_r, exp_0, Rminus_diag_eq, Rmult_0_r, exp_0 by reflexivity. ring.
  - intros Hx He t g fl i Ht.
    assert (G2 : good m c (Sim t g fl i)).
    { destruct G as (G1 & G2 & G3 & G4). unfold good, kelvin in *. cbn [temp_c]. repeat split; try assumption. lra. }
    exists (sat m c e), (sat m c (Sim t g fl i)). split; [apply isat_sat; assumption|]. split; [apply isat_sat; assumption|].
    split; [apply sat_pos; assumption|]. destruct G as (G1 & Gn & G3 & G4). unfold sat. cbn [temp_c].
    set (T0 := kelvin (tnom_c m)) in *. set (T1 := kelvin (temp_c e)) in *.
    assert (HT : T1 < kelvin t) by (unfold T1, kelvin; lra). set (T2 := kelvin t) in *.
    assert (I0 : 0 < / T0) by (apply Rinv_0_lt_compat; assumption).
    assert (Hr : T1 / T0 <= T2 / T0) by (apply Rmult_le_compat_r; lra).
    assert (Hp : 0 < T1 / T0) by (apply Rdiv_lt_0_compat; assumption).
    apply Rmult_le_compat.
    + left. apply Rmult_lt_0_compat; [assumption|apply exp_pos].
    + left. apply exp_pos.
    + apply Rmult_le_compat_l; [lra|]. apply Rle_Rpower_l; [assumption|]. split; assumption.
    + assert (V : forall T, vth m (Sim T g fl i) = (1.3806226e-23 * n_factor m / 1.6021918e-19) * kelvin T).
      { intro T. unfold vth. cbn [temp_c]. unfold Rdiv. ring. }
      assert (V1 : vth m e = (1.3806226e-23 * n_factor m / 1.6021918e-19) * T1) by (unfold vth, Rdiv; fold T1; ring).
      rewrite V1, V. fold T2. set (k := 1.3806226e-23 * n_factor m / 1.6021918e-19).
      assert (Hk : 0 < k). { unfold k. apply Rdiv_lt_0_compat; [|lra]. apply Rmult_lt_0_compat; lra. }
      assert (Q : forall T, 0 < T -> eg m / (k * T) * (T / T0 - 1) = eg m / k * (/ T0 - / T)) by (intros T HTp; field; lra).
      rewrite !Q by lra. destruct (Req_dec (eg m / k * (/ T0 - / T1)) (eg m / k * (/ T0 - / T2))) as [Eq|Ne]; [rewrite Eq; lra|].
      left. apply exp_increasing. assert (/ T2 < / T1) by (apply Rinv_lt_contravar; [apply Rmult_lt_0_compat; lra|assumption]).
      assert (0 <= eg m / k) by (apply Rmult_le_pos; [assumption|left; apply Rinv_0_lt_compat; assumption]). nra.
Qed.
Print Assumptions C70_saturation.

(* ---------------------------------------------------------------- capacitance *)
(* No assertion fails; the capacitance is one function of the voltage with a continuous value and a slope at every voltage, the joint
   at fc*pb too; it never falls, and below the joints it is the formula of the manual.  In transient analysis the charge moves by the
   mean capacitance times the change of voltage. *)
Theorem C70_capacitance : forall m c gd, 0 < fc m < 1 -> 0 < pb m -> 0 < pbsw m -> 0 <= mj m -> 0 <= mjsw m ->
  0 <= cj_adjusted c -> 0 <= cjsw_adjusted c -> 0 <= tt m -> 0 <= gd ->
  exists C : R -> R,
    (forall prev v, exists q, eval_Cj m c gd prev v = Some (Fp v q (C v)) /\
       match prev with Some p => q = f0 p + (v - fx p) * ((C v + f1 p) / 2) | None => q = v * C v end) /\
    (forall v, gd * tt m <= C v) /\
    (forall v, exists d, derivable_pt_lim C v d /\ 0 <= d) /\
    (forall v, v < fc m * pb m -> v < fc m * pbsw m ->
       C v = cj_adjusted c / Rpower (1 - v / pb m) (mj m) + cjsw_adjusted c / Rpower (1 - v / pbsw m) (mjsw m) + gd * tt m).
Proof.
  intros m c gd Hf Hp Hps Hm Hms Hc Hcs Ht Hgd.
  set (B := dep (cj_adjusted c) (fc m) (pb m) (mj m)). set (W := dep (cjsw_adjusted c) (fc m) (pbsw m) (mjsw m)).
  assert (HB : forall v, 0 <= B v) by (intro v; apply dep_nonneg; assumption).
  assert (HW : forall v, 0 <= W v) by (intro v; apply dep_nonneg; assumption).
  assert (HT : 0 <= gd * tt m) by (apply Rmult_le_pos; assumption).
  exists (fun v => B v + W v + gd * tt m). split; [|split; [|split]].
  - intros prev v. unfold eval_Cj. rewrite !depletion_dep by assumption. cbn [bind]. fold (B v) (W v).
    unfold nonneg. destruct (Rle_dec 0 (B v)) as [_|N]; [|exfalso; apply N, HB]. cbn [bind].
    destruct (Rle_dec 0 (W v)) as [_|N]; [|exfalso; apply N, HW]. cbn [bind].
    assert (E : (if Req_EM_T (tt m) 0 then 0 else gd * tt m) = gd * tt m) by (destruct (Req_EM_T (tt m) 0) as [E|E]; [rewrite E; ring|reflexivity]).
    rewrite E. destruct (Rle_dec 0 (gd * tt m)) as [_|N]; [|exfalso; apply N, HT]. cbn [bind].
    destruct prev as [p|]; eexists; (split; [reflexivity|]); ring.
  - intro v. pose proof (HB v). pose proof (HW v). lra.
  - intro v. exists (dep_slope (cj_adjusted c) (fc m) (pb m) (mj m) v + dep_slope (cjsw_adjusted c) (fc m) (pbsw m) (mjsw m) v + 0). split.
    + apply (d_plus (fun v => B v + W v) _ (fun _ => gd * tt m)); [intro; reflexivity| |apply derivable_pt_lim_const].
      apply (d_plus B _ W); [intro; reflexivity|apply d_dep; assumption|apply d_dep; assumption].
    + pose proof (dep_slope_nonneg (cj_adjusted c) (fc m) (pb m) (mj m) v Hc Hp Hm).
      pose proof (dep_slope_nonneg (cjsw_adjusted c) (fc m) (pbsw m) (mjsw m) v Hcs Hps Hms). lra.
  - intros v L1 L2. unfold B, W, dep. destruct (Rlt_dec v (fc m * pb m)); [|lra]. destruct (Rlt_dec v (fc m * pbsw m)); [|lra]. reflexivity.
Qed.
Print Assumptions C70_capacitance.

(* ---------------------------------------------------------------- cases *)
(* a diode card with the default parameters, at the nominal temperature; fl the flags, lv the mos level *)
Definition m_case (fl lv : Z) (b : option R) : model := Model 1 0 1 1 1.11 3 (1/2) b 1 (1/3) 27 fl lv.
Definition c_case (is gp : R) : common := Common is 1 0 gp false.
Definition e_case (g : R) : sim := Sim 27 g 0 false.
Lemma case_good : forall fl lv b is gp g, 0 < is -> good (m_case fl lv b) (c_case is gp) (e_case g).
Proof. intros. unfold good, m_case, c_case, e_case, kelvin. cbn. repeat split; lra. Qed.
Definition vt0 : R := vth (m_case 0 0 None) (e_case 0).
Lemma case_vt : forall fl lv b g, vth (m_case fl lv b) (e_case g) = vt0.
Proof. reflexivity. Qed.
Lemma vt0_pos : 0 < vt0.
Proof. apply (vth_pos _ (c_case 1 0) _). apply case_good. lra. Qed.
Lemma case_sat : forall fl lv b is gp g, 0 < is -> sat (m_case fl lv b) (c_case is gp) (e_case g) = is.
Proof.
  intros fl lv b is gp g H. pose proof (case_good fl lv b is gp g H) as G.
  pose proof (proj1 (C70_saturation _ _ _ G) eq_refl) as E. rewrite (isat_sat _ _ _ G) in E. injection E as E. exact E.
Qed.

(* C70_forward: the diode with isat 1e-14 held at vt carries isat (e - 1), and the iteration leaves it there *)
Example C70_forward_case : forall ni, let m := m_case 32768 0 None in let c := c_case 1e-14 0 in let e := e_case 1e-12 in
  let j := Junction FORWARD (Fp vt0 (1e-14 * (exp 1 - 1)) (1e-14 * exp 1 / vt0)) in
  good m c e /\ plain m e /\ started c e /\ gparallel c = 0 /\ 0 < vt0 /\ do_tr ni m c e vt0 j = Some j.
Proof.
  intros ni m c e j. pose proof vt0_pos as Hv. assert (Hi : 0 < 1e-14) by lra.
  assert (G : good m c e) by (apply case_good; exact Hi).
  assert (P : plain m e) by (unfold plain, m, e; cbn; repeat split; lia).
  assert (St : started c e) by (left; reflexivity).
  split; [exact G|]. split; [exact P|]. split; [exact St|]. split; [reflexivity|]. split; [exact Hv|].
  unfold do_tr. rewrite (plain_eval ni m c e (j_region j) _ _ G P St). cbn [fx f0 f1].
  unfold m, c, e. rewrite case_vt, case_sat by exact Hi. cbn [gparallel c_case].
  set (amps := f1 (j_y j) * vt0 + (f0 (j_y j) - fx (j_y j) * f1 (j_y j))).
  assert (Ea : amps = 1e-14 * (exp 1 - 1)) by (unfold amps; cbn [j j_y f0 f1 fx]; ring).
  assert (He : 1 < exp 1) by (pose proof (exp_ineq1 1 ltac:(lra)); lra).
  destruct (forward_step (asked (m_case 32768 0 None) (e_case 1e-12)) (gmin (e_case 1e-12)) vt0 1e-14 vt0 amps Hv) as (i & Ei & Eq); [rewrite Ea; nra|exact Hi|exact Hv|].
  rewrite Ei. cbn [bind fst snd]. unfold j. do 3 f_equal.
  - rewrite Ea in Eq. replace (1e-14 * (exp 1 - 1) / 1e-14 + 1) with (exp 1) in Eq by (field; lra). rewrite ln_exp in Eq.
    replace (vt0 / vt0) with 1 in Eq by (field; lra). lra.
  - rewrite Ea. field. lra.
Qed.

(* C70_reverse, C70_iteration: the same diode, at -5 volts and at 1 volt, from any state *)
Example C70_reverse_case : let m := m_case 32768 0 None in let c := c_case 1e-14 0 in let e := e_case 1e-12 in
  good m c e /\ plain m e /\ started c e /\ -5 <= 0 /\ gparallel c = 0 /\ 0 < 1.
Proof.
  intros m c e. split; [apply case_good; lra|]. split; [unfold plain, m, e; cbn; repeat split; lia|]. split; [left; reflexivity|].
  split; [lra|]. split; [reflexivity|lra].
Qed.

(* C70_style: flag 040 at -1 volt; a mos junction of level 1, and of level 8, at -5 volts; the voltage where the limit begins is above zero *)
Example C70_style_case : forall fl lv, (fl, lv) = (32, 0)%Z \/ (fl, lv) = (32768, 1)%Z \/ (fl, lv) = (32768, 8)%Z ->
  let m := m_case fl lv (Some 5) in let c := c_case 1e-14 0 in let e := e_case 1e-12 in
  good m c e /\ style m e /\ bv m <> None /\ 0 <= gmin e /\ 0 < vcrit m c e /\ -1 <= vcrit m c e.
Proof.
  intros fl lv H m c e. pose proof vt0_pos as Hv. split; [apply case_good; lra|]. split.
  { unfold style, m, e. destruct H as [H|[H|H]]; injection H as -> ->; cbn; [left; split; [lia|reflexivity]|right; lia|right; lia]. }
  split; [discriminate|]. split; [cbn; lra|]. assert (0 < vcrit m c e); [|split; lra].
  unfold vcrit, m, c, e. rewrite case_vt, case_sat by lra. apply Rmult_lt_0_compat; [exact Hv|].
  rewrite <- ln_1. apply ln_increasing; [lra|]. pose proof sqrt2_pos as Hq.
  assert (sqrt 2 < 2). { rewrite <- (sqrt_square 2) at 2 by lra. apply sqrt_lt_1; lra. }
  apply (Rmult_lt_reg_r (sqrt 2 * 1e-14)); [nra|]. unfold Rdiv. rewrite Rmult_assoc, Rinv_l by nra.
  assert (2e-14 < vt0); [|nra]. unfold vt0, vth, m_case, e_case, kelvin. cbn [temp_c n_factor]. lra.
Qed.

(* C70_capacitance: the parameters of the case *)
Example C70_capacitance_case : let m := m_case 32768 0 None in let c := c_case 1e-14 0 in
  0 < fc m < 1 /\ 0 < pb m /\ 0 < pbsw m /\ 0 <= mj m /\ 0 <= mjsw m /\ 0 <= cj_adjusted c /\ 0 <= cjsw_adjusted c /\ 0 <= tt m.
Proof. cbn. repeat split; lra. Qed.

(* ---------------------------------------------------------------- what does not hold *)
(* The current that is put in before a forward evaluation includes the one of the parallel conductance, so with such a conductance
   a settled forward evaluation is never right: it is always below the sum of the two.  And there are settled states. *)
Theorem C70_parallel_conductance_refuted :
  (forall ni m c e x j j', good m c e -> plain m e -> started c e -> 0 < gparallel c -> 0 < x ->
    do_tr ni m c e x j = Some j' -> f0 (j_y j') = f0 (j_y j) + f1 (j_y j) * (x - fx (j_y j)) ->
    f0 (j_y j') < law (sat m c e) (vth m e) x + gparallel c * x) /\
  (exists ni m c e x j, good m c e /\ plain m e /\ started c e /\ 0 < gparallel c /\ 0 < x /\ do_tr ni m c e x j = Some j /\
    fx (j_y j) = x /\ f0 (j_y j) <> law (sat m c e) (vth m e) x + gparallel c * x).
Proof.
  assert (Gen : forall ni m c e x j j', good m c e -> plain m e -> started c e -> 0 < gparallel c -> 0 < x ->
    do_tr ni m c e x j = Some j' -> f0 (j_y j') = f0 (j_y j) + f1 (j_y j) * (x - fx (j_y j)) ->
    f0 (j_y j') < law (sat m c e) (vth m e) x + gparallel c * x).
  { intros ni m c e x j j' G P St Gp Hx E C. unfold do_tr in E.
    rewrite (plain_eval ni m c e (j_region j) _ _ G P St) in E. cbn [fx f0 f1] in E.
    pose proof (sat_pos m c e G) as Hi. pose proof (vth_pos m c e G) as Hv.
    set (isat := sat m c e) in *. set (vt := vth m e) in *. set (gp := gparallel c) in *.
    set (amps := f1 (j_y j) * x + (f0 (j_y j) - fx (j_y j) * f1 (j_y j))) in *.
    assert (CA : f0 (j_y j') = amps) by (rewrite C; unfold amps; ring). clear C.
    assert (Hgx : 0 < gp * x) by (apply Rmult_lt_0_compat; assumption).
    destruct (Rle_dec 0 amps) as [Ha|Ha].
    - destruct (forward_step (asked m e) (gmin e) vt isat x amps Hx Ha Hi Hv) as (i & Ei & Eq).
      rewrite Ei in E. cbn [bind fst snd] in E. injection E as <-. cbn [j_y f0] in *. rewrite CA.
      set (k := isat * exp (x / vt)). assert (Hk : 0 < k) by (apply Rmult_lt_0_compat; [assumption|apply exp_pos]).
      set (r := (isat + amps) / k). assert (Hr : 0 < r) by (apply Rdiv_lt_0_compat; lra).
      assert (Er : amps / isat + 1 = r * exp (x / vt)). { unfold r, k. field. split; [|lra]. apply Rgt_not_eq, exp_pos. }
      rewrite Er, ln_mult, ln_exp in Eq by (try apply exp_pos; assumption).
      assert (Kr : k * r = isat + amps) by (unfold r; field; lra).
      assert (Q : gp * x = k * (r * ln r)). { replace i with (amps - gp * x) in Eq by lra. replace (k * (r * ln r)) with ((isat + amps) * ln r) by (rewrite <- Kr; ring). lra. }
      assert (Nr : r <> 1). { intro N. rewrite N, ln_1 in Q. lra. }
      pose proof (ln_gt_inv r Hr Nr) as Lg. assert (r * / r = 1) by (apply Rinv_r; lra).
      assert (r - 1 < r * ln r) by nra. assert (k * (r - 1) < k * (r * ln r)) by (apply Rmult_lt_compat_l; assumption).
      unfold law. replace (isat * (exp (x / vt) - 1)) with (k - isat) by (unfold k; ring). lra.
    - rewrite CA. assert (0 < law isat vt x); [|lra]. unfold law.
      assert (0 < x / vt) by (apply Rdiv_lt_0_compat; assumption). pose proof (exp_ineq1 (x / vt) ltac:(lra)). nra. }
  split; [exact Gen|].
  set (is := 1e-14). assert (Hi : 0 < is) by (unfold is; lra). pose proof vt0_pos as Hv.
  set (gp := is * exp 2 / vt0). assert (Hgp : 0 < gp). { unfold gp. apply Rdiv_lt_0_compat; [|assumption]. apply Rmult_lt_0_compat; [assumption|apply exp_pos]. }
  set (m := m_case 32768 0 None). set (c := c_case is gp). set (e := e_case 1e-12).
  set (j := Junction FORWARD (Fp vt0 (is * (exp 2 - 1)) (is * exp 2 / vt0 + gp))).
  assert (G : good m c e) by (apply case_good; exact Hi).
  assert (P : plain m e) by (unfold plain, m, e; cbn; repeat split; lia).
  assert (St : started c e) by (left; reflexivity).
  assert (E : do_tr 0 m c e vt0 j = Some j).
  { unfold do_tr. rewrite (plain_eval 0 m c e (j_region j) _ _ G P St). cbn [fx f0 f1].
    unfold m, c, e. rewrite case_vt, case_sat by exact Hi. cbn [gparallel c_case].
    set (amps := f1 (j_y j) * vt0 + (f0 (j_y j) - fx (j_y j) * f1 (j_y j))).
    assert (Ea : amps = is * (exp 2 - 1)) by (unfold amps; cbn [j j_y f0 f1 fx]; ring).
    assert (He : 1 < exp 2) by (pose proof (exp_ineq1 2 ltac:(lra)); lra).
    destruct (forward_step (asked (m_case 32768 0 None) (e_case 1e-12)) (gmin (e_case 1e-12)) vt0 is vt0 amps Hv) as (i & Ei & Eq); [rewrite Ea; nra|exact Hi|exact Hv|].
    rewrite Ei. cbn [bind fst snd]. unfold j. do 3 f_equal.
    - rewrite Ea in Eq. replace (is * (exp 2 - 1) / is + 1) with (exp 2) in Eq by (field; lra). rewrite ln_exp in Eq.
      replace (vt0 / vt0) with 1 in Eq by (field; lra). assert (gp * vt0 = is * exp 2) by (unfold gp; field; lra). lra.
    - rewrite Ea. field. lra. }
  exists 0, m, c, e, vt0, j. do 5 (split; [assumption|]). split; [exact E|]. split; [reflexivity|].
  apply Rlt_not_eq. apply (Gen 0 m c e vt0 j j G P St Hgp Hv E). cbn [j j_y f0 f1 fx]. ring.
Qed.
Print Assumptions C70_parallel_conductance_refuted.

(* The limit of the other styles takes the last current for the last voltage.  A settled state can have a current that has nothing to do
   with the curve: here, held at ten times vt, less than a fiftieth of it. *)
Theorem C70_limit_refuted : exists ni m c e x j, good m c e /\ style m e /\ 0 <= gmin e /\ do_tr ni m c e x j = Some j /\ fx (j_y j) = x /\
  0 < 50 * f0 (j_y j) < curve m c e x.
Proof.
  pose proof vt0_pos as Hv. pose proof sqrt2_pos as Hq.
  assert (He : 2 < exp 1) by (pose proof (exp_ineq1 1 ltac:(lra)); lra).
  set (is := vt0 / (10 * exp 1 - 1)). assert (Hi : 0 < is) by (apply Rdiv_lt_0_compat; lra).
  set (m := m_case 32 0 None). set (c := c_case is 0). set (e := e_case 0).
  assert (G : good m c e) by (apply case_good; exact Hi).
  assert (S : style m e) by (left; split; [cbn; lia|reflexivity]).
  assert (Ev : vth m e = vt0) by reflexivity.
  assert (Es : sat m c e = is) by (apply case_sat; exact Hi).
  set (v := vt0 + vt0 * ln 10).
  set (j := Junction UNKNOWN (Fp (10 * vt0) vt0 (is * exp (v / vt0) / vt0 + 0))).
  assert (L10 : 0 < ln 10 < 9).
  { split; [rewrite <- ln_1; apply ln_increasing; lra|]. pose proof (ln_lt_minus 10 ltac:(lra) ltac:(lra)). lra. }
  assert (S1 : 1 < sqrt 2). { rewrite <- sqrt_1 at 1. apply sqrt_lt_1; lra. }
  assert (Lim : limit (vth m e) (sat m c e) vt0 (10 * vt0) = Some v).
  { rewrite Ev, Es. unfold limit, flog. assert (Hd : 0 < vt0 / (sqrt 2 * is)) by (apply Rdiv_lt_0_compat; [assumption|apply Rmult_lt_0_compat; assumption]).
    destruct (Rlt_dec 0 (vt0 / (sqrt 2 * is))) as [_|N]; [|contradiction]. cbn [bind].
    assert (Q : ln (vt0 / (sqrt 2 * is)) < 10).
    { replace 10 with (1 + 9) by ring. apply Rlt_trans with (ln (10 * exp 1)).
      - apply ln_increasing; [exact Hd|]. unfold is.
        replace (vt0 / (sqrt 2 * (vt0 / (10 * exp 1 - 1)))) with ((10 * exp 1 - 1) / sqrt 2) by (field; lra).
        apply (Rmult_lt_reg_r (sqrt 2)); [assumption|]. unfold Rdiv. rewrite Rmult_assoc, Rinv_l by lra. nra.
      - rewrite ln_mult, ln_exp by lra. lra. }
    destruct (Rlt_dec (vt0 * ln (vt0 / (sqrt 2 * is))) (10 * vt0)) as [_|N]; [|exfalso; nra].
    replace (10 * vt0 - vt0) with (9 * vt0) by ring. rewrite Rabs_right by lra.
    destruct (Rlt_dec (vt0 + vt0) (9 * vt0)); [|lra]. destruct (Rlt_dec 0 vt0); [|lra].
    replace (1 + 9 * vt0 / vt0) with 10 by (field; lra). destruct (Rlt_dec 0 10); [|lra]. reflexivity. }
  assert (E : do_tr 0 m c e (10 * vt0) j = Some j).
  { unfold do_tr. cbn [j_y j f0 f1 fx j_region].
    assert (Ve : exp (v / vt0) = 10 * exp 1).
    { unfold v. replace ((vt0 + vt0 * ln 10) / vt0) with (ln 10 + 1) by (field; lra). rewrite exp_plus, exp_ln by lra. reflexivity. }
    assert (Vp : -3 * vt0 <= v) by (unfold v; nra).
    assert (Sj : spice_junction 0 (bv m) (gmin e) vt0 is v = (vt0, is * exp (v / vt0) / vt0 + 0)).
    { rewrite spice_curve by (try assumption; left; assumption). unfold spice_law, spice_slope. destruct (Rle_dec (-3 * vt0) v); [|lra].
      cbn [e e_case gmin]. f_equal. unfold law. rewrite Ve. unfold is. field. lra. }
    unfold eval_Yj. change (flags m e) with (asked m e). cbn [fx]. rewrite (isat_sat m c e G), vt_vth. cbn [bind].
    change (Z.ltb 0 (mos_level m)) with false. change (Z.testbit (asked m e) 5) with true. cbn [orb].
    rewrite Lim. cbn [bind]. rewrite Ev, Es, Sj. reflexivity. }
  exists 0, m, c, e, (10 * vt0), j. split; [exact G|]. split; [exact S|]. split; [cbn; lra|]. split; [exact E|]. split; [reflexivity|].
  split; [cbn [j j_y f0]; lra|]. unfold curve. change (Z.leb (mos_level m) 0) with true. rewrite Ev, Es. unfold spice_law.
  destruct (Rle_dec (-3 * vt0) (10 * vt0)); [|lra]. unfold law. replace (10 * vt0 / vt0) with 10 by (field; lra).
  cbn [j j_y f0 e e_case gmin]. rewrite Rmult_0_l, Rplus_0_r.
  assert (E9 : 512 < exp 9). { assert (E3 : exp 9 = (exp 1) ^ 9) by (replace 9 with (1+1+1+1+1+1+1+1+1) at 1 by ring; rewrite !exp_plus; ring).
    rewrite E3. set (u := exp 1) in *. assert (U3 : 8 < u ^ 3) by (replace (u ^ 3) with (u * u * u) by ring; nra).
    replace (u ^ 9) with (u ^ 3 * u ^ 3 * u ^ 3) by ring. assert (64 < u ^ 3 * u ^ 3) by nra. nra. }
  assert (E10 : exp 10 = exp 1 * exp 9) by (rewrite <- exp_plus; f_equal; ring).
  rewrite E10. unfold is. replace (vt0 / (10 * exp 1 - 1) * (exp 1 * exp 9 - 1)) with (vt0 * ((exp 1 * exp 9 - 1) / (10 * exp 1 - 1))) by (field; lra).
  rewrite (Rmult_comm 50). apply Rmult_lt_compat_l; [assumption|]. apply (Rmult_lt_reg_r (10 * exp 1 - 1)); [lra|].
  unfold Rdiv. rewrite Rmult_assoc, Rinv_l by lra. nra.
Qed.
Print Assumptions C70_limit_refuted.

(* The breakdown voltage has no effect: however far below -bv, the current through the junction itself is not more than the saturation current. *)
Theorem C70_breakdown_refuted :
  (forall ni m c e x j b, good m c e -> bv m = Some b -> plain m e -> asked m e = 0%Z -> started c e -> x < - b -> 0 < b ->
    exists j', do_tr ni m c e x j = Some j' /\ - sat m c e <= f0 (j_y j') - gparallel c * x) /\
  (forall ni m c e x j b, good m c e -> bv m = Some b -> (mos_level m <= 0)%Z -> Z.testbit (asked m e) 5 = true -> x < - b -> 0 < b ->
    x <= vcrit m c e -> exists j', do_tr ni m c e x j = Some j' /\ - sat m c e <= f0 (j_y j') - gmin e * x).
Proof.
  split.
  - intros ni m c e x j b G _ P Fl St Hx Hb. pose proof (sat_pos m c e G) as Hi.
    destruct (C70_reverse ni m c e x j G P St ltac:(lra)) as (j' & E & _ & _ & F & _). exists j'. split; [exact E|].
    rewrite F, Fl. cbn [Z.testbit]. unfold law. pose proof (exp_pos (x / vth m e)). nra.
  - intros ni m c e x j b G Eb Hm H5 Hx Hb Hc. pose proof (sat_pos m c e G) as Hi. pose proof (vth_pos m c e G) as Hv.
    destruct (C70_style ni m c e x j G) as (j' & E & _ & F & _); [left; split; assumption|left; congruence|left; exact Hc|].
    exists j'. split; [exact E|]. rewrite F. unfold curve. assert (E0 : Z.leb (mos_level m) 0 = true) by (apply Z.leb_le; exact Hm). rewrite E0.
    unfold spice_law, law. destruct (Rle_dec (-3 * vth m e) x).
    + pose proof (exp_pos (x / vth m e)). nra.
    + pose proof (exp_pos 1). set (a := 3 * vth m e / (x * exp 1)).
      assert (a < 0). { unfold a. replace (3 * vth m e / (x * exp 1)) with (- (3 * vth m e / (- x * exp 1))) by (field; lra).
        apply Ropp_lt_gt_0_contravar. apply Rdiv_lt_0_compat; [lra|]. apply Rmult_lt_0_compat; lra. }
      assert (0 < a * a) by nra. assert (A3 : a ^ 3 < 0) by (replace (a ^ 3) with (a * (a * a)) by ring; nra).
      assert (sat m c e * a ^ 3 < 0) by nra. lra.
Qed.
Print Assumptions C70_breakdown_refuted.
(* a diode with bv = 5 at -1000 volts *)
Example C70_breakdown_case : let m := m_case 32768 0 (Some 5) in let c := c_case 1e-14 0 in let e := e_case 0 in
  good m c e /\ bv m = Some 5 /\ plain m e /\ asked m e = 0%Z /\ started c e /\ -1000 < - (5).
Proof.
  intros m c e. split; [apply case_good; lra|]. split; [reflexivity|]. split; [unfold plain, m, e; cbn; repeat split; lia|].
  split; [reflexivity|]. split; [left; reflexivity|lra].
Qed.

(* The logarithm of a negative number is taken in a mos junction with a saturation current of twice vt, at the second evaluation *)
Theorem C70_defined_refuted : forall ni, exists m c e x1 x2 j1, good m c e /\ style m e /\ 0 <= gmin e /\
  do_tr ni m c e x1 (Junction UNKNOWN (Fp 0 0 0)) = Some j1 /\ do_tr ni m c e x2 j1 = None.
Proof.
  intro ni. pose proof vt0_pos as Hv. pose proof sqrt2_pos as Hq.
  set (is := 2 * vt0). assert (Hi : 0 < is) by (unfold is; lra).
  set (m := m_case 32768 1 (Some 5)). set (c := c_case is 0). set (e := e_case 0).
  assert (G : good m c e) by (apply case_good; exact Hi).
  assert (S : style m e) by (right; cbn; lia).
  assert (Ev : vth m e = vt0) by reflexivity.
  assert (Es : sat m c e = is) by (apply case_sat; exact Hi).
  assert (S1 : 1 < sqrt 2). { rewrite <- sqrt_1 at 1. apply sqrt_lt_1; lra. }
  assert (S2 : sqrt 2 < 3/2). { rewrite <- (sqrt_square (3/2)) by lra. apply sqrt_lt_1; lra. }
  assert (Ec : vt0 / (sqrt 2 * is) = / (2 * sqrt 2)) by (unfold is; field; lra).
  assert (Hd : 0 < vt0 / (sqrt 2 * is)) by (rewrite Ec; apply Rinv_0_lt_compat; lra).
  assert (Lc : -2 < ln (vt0 / (sqrt 2 * is)) < - (1/2)).
  { rewrite Ec, ln_Rinv by lra. pose proof (ln_le_minus (2 * sqrt 2) ltac:(lra)). pose proof (ln_ge_inv (2 * sqrt 2) ltac:(lra)).
    assert (/ (2 * sqrt 2) < / 2) by (apply Rinv_lt_contravar; lra). lra. }
  assert (Vc : vcrit m c e = vt0 * ln (vt0 / (sqrt 2 * is))) by (unfold vcrit; rewrite Ev, Es; reflexivity).
  destruct (style_eval ni m c e UNKNOWN 0 (Fp (-10 * vt0) (0 * (-10 * vt0) + (0 - 0 * 0)) 0) (-10 * vt0) G S) as (r & E1).
  { cbn [fx]. apply limit_inactive; [exact G|]. left. rewrite Vc. nra. }
  { right; left. discriminate. }
  assert (F1 : curve m c e (-10 * vt0) = -20 * vt0).
  { unfold curve. change (Z.leb (mos_level m) 0) with false. change (Z.leb (mos_level m) 6) with true. rewrite Ev, Es. unfold mos_law16.
    destruct (Rle_dec (-10 * vt0) 0); [|lra]. cbn [e e_case gmin]. unfold is. field. lra. }
  exists m, c, e, (-10 * vt0), (- (1/4) * vt0), (Junction r (Fp (-10 * vt0) (-20 * vt0) (curve_slope m c e (-10 * vt0)))).
  split; [exact G|]. split; [exact S|]. split; [cbn; lra|]. split.
  - unfold do_tr. cbn [j_y j_region fx f0 f1]. rewrite E1, F1. reflexivity.
  - unfold do_tr. cbn [j_y j_region fx f0 f1]. unfold eval_Yj. change (flags m e) with (asked m e). cbn [fx]. rewrite (isat_sat m c e G), vt_vth. cbn [bind].
    change (Z.ltb 0 (mos_level m)) with true. cbn [orb]. rewrite Ev, Es. unfold limit, flog.
    destruct (Rlt_dec 0 (vt0 / (sqrt 2 * is))) as [_|N]; [|contradiction]. cbn [bind].
    destruct (Rlt_dec (vt0 * ln (vt0 / (sqrt 2 * is))) (- (1/4) * vt0)) as [_|N]; [|exfalso; nra].
    rewrite Rabs_right by lra. destruct (Rlt_dec (vt0 + vt0) (- (1/4) * vt0 - -20 * vt0)) as [_|N]; [|exfalso; lra].
    destruct (Rlt_dec 0 (-20 * vt0)); [lra|].
    replace (- (1/4) * vt0 / vt0) with (- (1/4)) by (field; lra). destruct (Rlt_dec 0 (- (1/4))); [lra|]. reflexivity.
Qed.
Print Assumptions C70_defined_refuted.

(* Charge is not conserved: after the voltages 0, -1, -3 and 0 again there is a charge of 3/8 where there was none *)
Theorem C70_charge_refuted : exists m c gd y0 y1 y2 y3,
  0 < fc m < 1 /\ 0 < pb m /\ 0 < pbsw m /\ 0 <= mj m /\ 0 <= mjsw m /\ 0 <= cj_adjusted c /\ 0 <= cjsw_adjusted c /\ 0 <= tt m /\ 0 <= gd /\
  eval_Cj m c gd None 0 = Some y0 /\ eval_Cj m c gd (Some y0) (-1) = Some y1 /\ eval_Cj m c gd (Some y1) (-3) = Some y2 /\
  eval_Cj m c gd (Some y2) 0 = Some y3 /\ f0 y0 = 0 /\ f0 y3 = 3/8.
Proof.
  set (m := m_case 32768 0 None). set (c := c_case 1e-14 0).
  assert (Hy : 0 < fc m < 1 /\ 0 < pb m /\ 0 < pbsw m /\ 0 <= mj m /\ 0 <= mjsw m /\ 0 <= cj_adjusted c /\ 0 <= cjsw_adjusted c /\ 0 <= tt m)
    by (cbn; repeat split; lra).
  assert (Cv : forall prev v, v < 1/2 -> eval_Cj m c 0 prev v =
    Some (Fp v (match prev with Some p => (v - fx p) * ((/ (1 - v) + f1 p) / 2) + f0 p | None => v * / (1 - v) end) (/ (1 - v)))).
  { intros prev v Hv. unfold eval_Cj. cbn [m c m_case c_case fc pb mj cj_adjusted cjsw_adjusted pbsw mjsw tt].
    rewrite !depletion_dep by lra. cbn [bind].
    assert (D : dep 1 (1/2) 1 1 v = / (1 - v)).
    { unfold dep, textbook. destruct (Rlt_dec v (1/2 * 1)); [|lra]. rewrite Rpower_1 by lra. replace (v / 1) with v by field. field. lra. }
    assert (D0 : dep 0 (1/2) 1 (1/3) v = 0).
    { unfold dep, textbook. destruct (Rlt_dec v (1/2 * 1)); [|lra]. unfold Rdiv. ring. }
    rewrite D, D0. assert (0 < / (1 - v)) by (apply Rinv_0_lt_compat; lra). unfold nonneg.
    destruct (Rle_dec 0 (/ (1 - v))); [|lra]. cbn [bind]. destruct (Rle_dec 0 0); [|lra]. cbn [bind].
    destruct (Req_EM_T 0 0); [|lra]. destruct (Rle_dec 0 0); [|lra]. cbn [bind]. rewrite !Rplus_0_r. destruct prev; reflexivity. }
  destruct Hy as (A1 & A2 & A3 & A4 & A5 & A6 & A7 & A8).
  exists m, c, 0. do 4 eexists. do 8 (split; [assumption|]). split; [lra|].
  split; [rewrite Cv by lra; reflexivity|]. split; [rewrite Cv by lra; reflexivity|]. split; [rewrite Cv by lra; reflexivity|].
  split; [rewrite Cv by lra; reflexivity|]. cbn [fx f0 f1]. split; [ring|]. field.
Qed.
Print Assumptions C70_charge_refuted.
