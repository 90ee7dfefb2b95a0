(* the gate capacitances and the parameters of the level 1 transistor *)
Require Import Reals ZArith Bool Lra Lia Psatz.
Require Import Verif.Loops Verif.Mos_Model Verif.Mos_Proofs.
Local Open Scope R_scope.

Lemma pos_ge x : 0 <= pos x /\ x <= pos x.
Proof. unfold pos. destruct (Rlt_dec 0 x); lra. Qed.

(* a square over a square that is not smaller *)
Lemma ratio_sq a b : 0 <= a -> a <= b -> 0 < b -> 0 <= a * a / (b * b) <= 1.
Proof.
  intros Ha Hab Hb. assert (0 < b * b) by nra. split.
  - apply Rmult_le_pos; [nra|]. left. apply Rinv_0_lt_compat. assumption.
  - apply Rmult_le_reg_r with (b * b); [assumption|]. unfold Rdiv. rewrite Rmult_assoc, Rinv_l by lra. nra.
Qed.

(* what the capacitances use of a device that was evaluated *)
Definition sane (m : model) (s : dev) : Prop := 0 <= vds s /\ vdsat s = pos (vgst s) /\ (cmodel m <> 3%Z -> vbs s <= 0).

Lemma cap_drain_bound m z s : sane m s -> 0 <= cgate m z -> exists c, cap_drain m z s = Some c /\ 0 <= c <= 2 / 3 * cgate m z.
Proof.
  intros (H1 & H2 & H3) Hc. unfold cap_drain.
  set (bs := if Z.eqb (cmodel m) 3 then 0 else vbs s).
  assert (Hb : bs <= 0) by (unfold bs; destruct (Z.eqb_spec (cmodel m) 3); [lra | auto]).
  destruct (Rle_dec 0 (vgst s)) as [Hg|Hg]; [|exists 0; split; [reflexivity | lra]].
  destruct (Rlt_dec (vds s) (vdsat s)) as [Hd|Hd]; [|exists 0; split; [reflexivity | lra]].
  set (a := vdsat s - bs). set (b := 2 * a - (vds s - bs)).
  assert (Ha : 0 <= a) by (unfold a; lra). assert (Hab : a <= b) by (unfold b, a in *; lra). assert (Hb0 : 0 < b) by (unfold b, a in *; lra).
  rewrite fdiv_some by (apply Rgt_not_eq; nra). cbn [bind]. destruct (ratio_sq a b Ha Hab Hb0) as [Q1 Q2].
  set (q := a * a / (b * b)) in *. set (g := cgate m z) in *.
  eexists. split; [reflexivity|]. destruct (Rle_dec (vgst s) 0.1) as [Ht|Ht].
  - set (w := 10 * vgst s). assert (0 <= w <= 1) by (unfold w; lra).
    assert (0 <= 2 / 3 * g * (1 - q) <= 2 / 3 * g) by nra. split; nra.
  - nra.
Qed.

Lemma cap_source_bound m z s : sane m s -> 0 < phi m -> 0 <= cgate m z -> exists c, cap_source m z s = Some c /\ 0 <= c <= 2 / 3 * cgate m z.
Proof.
  intros (H1 & H2 & H3) Hp Hc. unfold cap_source.
  set (bs := if Z.eqb (cmodel m) 3 then 0 else vbs s).
  assert (Hb : bs <= 0) by (unfold bs; destruct (Z.eqb_spec (cmodel m) 3); [lra | auto]).
  destruct (Rle_dec (- phi m / 2) (vgst s)) as [Hg|Hg]; [|exists 0; split; [reflexivity | lra]].
  set (a := vdsat s - vds s). set (b := 2 * (vdsat s - bs) - (vds s - bs)). set (g := cgate m z) in *.
  assert (A : exists c, (if Rlt_dec (vds s) (vdsat s) then let* q := fdiv (a * a) (b * b) in Some (2 / 3 * g * (1 - q)) else Some (2 / 3 * g)) = Some c /\
                0 <= c <= 2 / 3 * g).
  { destruct (Rlt_dec (vds s) (vdsat s)) as [Hd|Hd]; [|exists (2 / 3 * g); split; [reflexivity | lra]].
    assert (Ha : 0 <= a) by (unfold a; lra). assert (Hab : a <= b) by (unfold b, a in *; lra). assert (Hb0 : 0 < b) by (unfold b, a in *; lra).
    rewrite fdiv_some by (apply Rgt_not_eq; nra). cbn [bind]. destruct (ratio_sq a b Ha Hab Hb0) as [Q1 Q2].
    set (q := a * a / (b * b)) in *. eexists. split; [reflexivity|]. nra. }
  destruct A as (c & -> & Hc1). cbn [bind]. destruct (Rle_dec (vgst s) 0) as [Ht|Ht]; [|eexists; split; [reflexivity | assumption]].
  rewrite fdiv_some by lra. cbn [bind]. eexists. split; [reflexivity|].
  set (w := 1 + vgst s / phi m).
  assert (Hw : 0 <= w <= 1).
  { unfold w. assert (E : vgst s = vgst s / phi m * phi m) by (field; lra). set (r := vgst s / phi m) in *. rewrite E in Hg, Ht.
    split; nra. }
  assert (0 <= c * w <= 2 / 3 * g) by nra. split; nra.
Qed.

Lemma cap_gb_bound m z s : 0 < phi m -> 0 <= cgate m z -> exists c, cap_gb m z s = Some c /\ cgbo_m m * l_eff m z <= c <= cgbo_m m * l_eff m z + cgate m z.
Proof.
  intros Hp Hc. unfold cap_gb. destruct (Z.eqb (cmodel m) 0); [eexists; split; [reflexivity | lra]|].
  destruct (Rlt_dec (vgst s) (- phi m)) as [H1|H1]; [eexists; split; [reflexivity | lra]|].
  destruct (Rlt_dec (vgst s) 0) as [H2|H2]; [|eexists; split; [reflexivity | lra]].
  rewrite fdiv_some by lra. cbn [bind]. eexists. split; [reflexivity|].
  assert (E : cgate m z * - vgst s / phi m = cgate m z * (- vgst s / phi m)) by (field; lra). rewrite E.
  assert (Hr : 0 <= - vgst s / phi m <= 1).
  { assert (F : - vgst s = - vgst s / phi m * phi m) by (field; lra). set (r := - vgst s / phi m) in *. split; nra. }
  nra.
Qed.

Lemma do_tr_sane m t e n s d : do_tr m t e n s = Some d -> flag40 e = false -> sane m d.
Proof.
  intros Hd Hf. destruct (do_tr_inv _ _ _ _ _ _ Hd) as (rv0 & ds & gs & bs & d0 & Hn & Ht & E1 & E2 & E3 & E4 & E5 & E6 & E7 & _).
  destruct (tr_eval_inv _ _ _ _ _ _ _ _ _ Ht) as (rv & ds' & gs' & bs' & sarg & dsarg & fwd & on & Hrev & _ & _ & H0 & _ & F1 & F2 & F3 & F4 & F5 & F6 & F7 & _).
  unfold sane. rewrite E2, F2, E4, F4, E6, F6, E7, F7. split; [assumption|]. split; [reflexivity|]. intros _.
  assert (Hb : bs <= 0).
  { unfold new_volts in Hn. destruct (initial_step e); [inversion Hn; lra|]. destruct (reversed s); injection Hn as _ _ _ <-; apply fmin_le. }
  unfold reverse_if_needed in Hrev. rewrite Hf in Hrev. destruct (Rlt_dec ds 0); injection Hrev as _ _ _ <-; [apply fmin_le | assumption].
Qed.

(* at the nominal temperature the values are those of the card *)
Lemma temperature_nominal m z tc t : tc + P_CELSIUS0 = tnom_k m -> egap_at (tnom_k m) = Some (egap m) -> temperature m z tc = Some t ->
  t_phi t = phi m /\ t_egap t = egap m /\ t_beta t = kp m * w_eff m z / l_eff m z.
Proof.
  intros Hk He Ht. unfold temperature in Ht. rewrite Hk in Ht.
  destruct (fdiv (tnom_k m) (tnom_k m)) as [ra|] eqn:E1; cbn [bind] in Ht; [|discriminate]. apply fdiv_inv in E1. destruct E1 as [N0 E1].
  replace ra with 1 in Ht by (rewrite E1; field; assumption). clear E1.
  rewrite fsqrt_some in Ht by lra. cbn [bind] in Ht. rewrite sqrt_1 in Ht. rewrite He in Ht. cbn [bind] in Ht.
  destruct (fdiv (egap m * 1 - egap m) (2 * (tnom_k m * P_K))) as [arg|] eqn:E2; cbn [bind] in Ht; [|discriminate]. apply fdiv_inv in E2. destruct E2 as [N1 E2].
  assert (A0 : arg = 0). { rewrite E2. replace (egap m * 1 - egap m) with 0 by ring. unfold Rdiv. ring. }
  unfold flog in Ht. destruct (Rlt_dec 0 1); [|lra]. cbn [bind] in Ht. rewrite ln_1 in Ht.
  rewrite fdiv_some in Ht by lra. cbn [bind] in Ht.
  destruct (fdiv (kp m / (1 * 1) * w_eff m z) (l_eff m z)) as [b|] eqn:E3; cbn [bind] in Ht; [|discriminate]. apply fdiv_inv in E3. destruct E3 as [N3 E3].
  inversion Ht; subst t; clear Ht. cbn. repeat split.
  - rewrite A0. ring.
  - rewrite E3. field. assumption.
Qed.

Lemma precalc_facts c m : precalc c = Some m ->
  polarity m = c_polarity c /\ tnom_k m = c_tnom c + P_CELSIUS0 /\ egap_at (tnom_k m) = Some (egap m) /\ lambda m = c_lambda c /\
  (forall v, c_vto c = Some v -> vto m = v * sgn (c_polarity c)) /\
  (forall v, c_gamma c = Some v -> gamma m = v) /\ (forall v, c_phi c = Some v -> phi m = v) /\ (forall v, c_kp c = Some v -> kp m = v) /\ cmodel m <> 0%Z.
Proof.
  unfold precalc. destruct (egap_at (c_tnom c + P_CELSIUS0)) as [eg|] eqn:E; cbn [bind]; [|discriminate].
  assert (CM : (if Z.eqb (c_cmodel c) 0 then 3%Z else c_cmodel c) <> 0%Z) by (destruct (Z.eqb_spec (c_cmodel c) 0); lia).
  destruct (tox_of c) as [tox|].
  - destruct (nsub_of c) as [nsub|].
    + destruct (given (c_phi c) _) as [p|] eqn:Ep; cbn [bind]; [|discriminate].
      destruct (given (c_gamma c) _) as [g|] eqn:Eg; cbn [bind]; [|discriminate].
      destruct (given (vto_raw_of c) _) as [v|] eqn:Ev; cbn [bind]; [|discriminate].
      intros H; inversion H; subst m; clear H. cbn.
      split; [reflexivity|]. split; [reflexivity|]. split; [assumption|]. split; [reflexivity|].
      split; [intros w Hw; unfold given, vto_raw_of in Ev; rewrite Hw in Ev; congruence|].
      split; [intros w Hw; unfold given in Eg; rewrite Hw in Eg; congruence|].
      split; [intros w Hw; unfold given in Ep; rewrite Hw in Ep; congruence|].
      split; [intros w Hw; rewrite Hw; reflexivity | assumption].
    + intros H; inversion H; subst m; clear H. cbn. unfold vto_raw_of.
      repeat split; auto; intros w Hw; rewrite Hw; reflexivity.
  - intros H; inversion H; subst m; clear H. cbn. unfold vto_raw_of.
    repeat split; auto; intros w Hw; rewrite Hw; reflexivity.
Qed.

Lemma temperature_nominal_total m z tc : tc + P_CELSIUS0 = tnom_k m -> egap_at (tnom_k m) = Some (egap m) -> 0 < tnom_k m -> l_eff m z <> 0 ->
  exists t, temperature m z tc = Some t.
Proof.
  intros Hk He Hpos Hl. unfold temperature. rewrite Hk. rewrite fdiv_some by lra. cbn [bind].
  replace (tnom_k m / tnom_k m) with 1 by (field; lra). rewrite fsqrt_some by lra. cbn [bind]. rewrite He. cbn [bind].
  rewrite fdiv_some; [|apply Rgt_not_eq; assert (0 < P_K) by (unfold P_K; lra); nra]. cbn [bind].
  unfold flog. destruct (Rlt_dec 0 1); [|lra]. cbn [bind]. rewrite sqrt_1. rewrite fdiv_some by lra. cbn [bind].
  rewrite fdiv_some by assumption. cbn [bind]. eexists. reflexivity.
Qed.

(* an iteration whose voltages were already those of the nodes *)
Definition start (rv : bool) (ds gs bs on : R) : dev := Dev rv ds gs bs on 0 0 false false false 0 0 0 0 0 0 0.
Lemma stays m t e n rv bs on : in_range e n -> initial_step e = false -> tied e = false -> 0 < t_phi t -> 0 <= phi m -> 0 <= Vds m n rv ->
  exists d, do_tr m t e n (start rv (Vds m n rv) (Vgs m n rv) bs on) = Some d /\ evaluated_at m n d /\ reversed d = rv /\
    vds d = Vds m n rv /\ vgst d = Vgs m n rv - threshold m t (fmin (Vbs m n rv) 0) /\ vbs d = fmin (Vbs m n rv) 0 /\ vdsat d = pos (vgst d).
Proof.
  intros Hr Hi Hu Hp Hm HV. destruct (do_tr_total m t e n (start rv (Vds m n rv) (Vgs m n rv) bs on) Hp Hm) as [d Hd]. exists d. split; [assumption|].
  destruct (do_tr_inv _ _ _ _ _ _ Hd) as (rv0 & ds & gs & bs0 & d0 & Hn & Ht & E1 & E2 & E3 & E4 & E5 & E6 & E7 & _).
  rewrite (new_volts_in _ _ _ _ Hr Hi) in Hn. cbv zeta in Hn. cbn [start reversed vgs vds von] in Hn. rewrite Hu in Hn.
  assert (G : fet_limit_vgs (Vgs m n rv) (Vgs m n rv) on = Vgs m n rv).
  { unfold fet_limit_vgs. cbv zeta. repeat match goal with |- context [Rle_dec ?a ?b] => destruct (Rle_dec a b) | |- context [Rlt_dec ?a ?b] => destruct (Rlt_dec a b) end; lra. }
  assert (D : fet_limit_vds (Vds m n rv) (Vds m n rv) = Vds m n rv).
  { unfold fet_limit_vds. repeat match goal with |- context [Rle_dec ?a ?b] => destruct (Rle_dec a b) | |- context [Rlt_dec ?a ?b] => destruct (Rlt_dec a b) end; lra. }
  rewrite G, D in Hn. injection Hn as <- <- <- <-.
  destruct (tr_eval_inv _ _ _ _ _ _ _ _ _ Ht) as (rv' & ds' & gs' & bs' & sarg & dsarg & fwd & on' & Hrev & Hb & Ho & H0 & _ & F1 & F2 & F3 & F4 & F5 & F6 & F7 & _).
  unfold reverse_if_needed in Hrev. destruct (Rlt_dec (Vds m n rv) 0); [lra|]. injection Hrev as R1 R2 R3 R4. subst rv' ds' gs' bs'.
  rewrite bulk_off_value in Hb; [|apply fmin_le | assumption]. injection Hb as B1 B2 B3. rewrite <- B1 in Ho. apply von_threshold in Ho. subst on'.
  split; [apply evaluated_at_V; rewrite E1, F1, E2, F2, E3, F3; auto|].
  rewrite E1, F1, E2, F2, E6, F6, E4, F4, E7, F7. auto.
Qed.
