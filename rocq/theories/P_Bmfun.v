(* C72: behavioural functions mean their formulas. *)
Require Import Reals ZArith Bool List Lra Lia.
Require Import Verif.Loops Verif.Bmfun_Model Verif.Bmfun_Proofs.
Import ListNotations.
Local Open Scope R_scope.

(* tanh in a controlled element: the value is the hyperbolic tangent with the given gain and limit (exactly within the
   range of the exponential, and to 2/BIGBIG^2 of the limit beyond), never more than the limit, and the slope reported
   for the iteration is the derivative of the value *)
Theorem C72_tanh : forall a s gain lim, lim <> 0 -> uic_now s = false ->
  exists y : R -> fp, (forall v, tanh_eval a s gain lim false v = Some (y v)) /\
  forall v, let aa := (v + ioffset_ a) * gain / lim in
    (Rabs aa <= LOGBIGBIG -> f0 (y v) = factor a * (lim * th aa) + ooffset a) /\
    Rabs (f0 (y v) - ooffset a) <= Rabs (factor a * lim) /\
    Rabs (f0 (y v) - (factor a * (lim * th aa) + ooffset a)) <= 2 * Rabs (factor a * lim) / BIGBIG ^ 2 /\
    (Rabs aa <> LOGBIGBIG -> derivable_pt_lim (fun u => f0 (y u)) v (f1 (y v))).
Proof.
  intros a s gain lim Hl Hu.
  exists (fun v => let x := v + ioffset_ a in
    tr_final_adjust a false (Fp x (fst (tanh_pair gain lim (x * gain / lim))) (snd (tanh_pair gain lim (x * gain / lim))))).
  split; [intros v; rewrite tanh_eval_pair by exact Hl; unfold ioffset, uic; rewrite Hu; reflexivity|].
  intros v aa. cbv zeta. unfold tr_final_adjust. cbn [f0 f1 fx]. rewrite factor_eq. fold aa. repeat split.
  - intros B. rewrite (tanh_pair_near _ _ _ B). ring.
  - set (t := fst (tanh_pair gain lim aa)). replace (t * factor a + ooffset a - ooffset a) with (factor a * t) by ring.
    rewrite !Rabs_mult. apply Rmult_le_compat_l; [apply Rabs_pos | apply tanh_pair_bound].
  - set (t := fst (tanh_pair gain lim aa)).
    replace (t * factor a + ooffset a - (factor a * (lim * th aa) + ooffset a)) with (factor a * (t - lim * th aa)) by ring.
    rewrite !Rabs_mult. pose proof (tanh_pair_close gain lim aa) as C. fold t in C. pose proof BIGBIG_pos.
    replace (2 * (Rabs (factor a) * Rabs lim) / BIGBIG ^ 2) with (Rabs (factor a) * (2 * Rabs lim / BIGBIG ^ 2)) by (field; lra).
    apply Rmult_le_compat_l; [apply Rabs_pos | exact C].
  - intros N. unfold aa in *.
    apply (d_affine (fun u => fst (tanh_pair gain lim ((u + ioffset_ a) * gain / lim)))).
    apply (d_shift (fun u => fst (tanh_pair gain lim (u * gain / lim)))). apply tanh_pair_slope; assumption.
Qed.
Print Assumptions C72_tanh.
Definition plain : action := Action 27 27 None 0 0 0 0 1 0 0 0.
Definition now (t : R) : sim := Sim t 0 (1/1000000000) false.
Example C72_tanh_ex : exists y, tanh_eval plain (now 0) 2 5 false 0 = Some y /\ f0 y = 0 /\ f1 y = 2.
Proof.
  destruct (C72_tanh plain (now 0) 2 5 ltac:(lra) eq_refl) as (y & E & _).
  exists (Fp 0 0 2). rewrite tanh_eval_pair by lra. unfold ioffset, uic, tr_final_adjust, temp_adjust. cbn. pose proof LOG_pos.
  replace ((0 + 0) * 2 / 5) with 0 by field. unfold tanh_pair. destruct (Rlt_dec LOGBIGBIG 0); [lra|]. destruct (Rlt_dec 0 (- LOGBIGBIG)); [lra|].
  cbn [fst snd]. rewrite tanh_th. unfold th, cosh. rewrite Rmult_0_r, Ropp_0, !exp_0.
  repeat split; f_equal; f_equal; field.
Qed.

(* posy in a controlled element: the value is the posynomial, continued to negative arguments as asked, its absolute
   value if asked, limited to min..max; the slope reported is the derivative of the value wherever it has one *)
Theorem C72_posy : forall a s p v, uic_now s = false -> p_min p <= p_max p -> p_odd p && p_even p = false ->
  one_sided_ok p -> let x := v + ioffset_ a in x <> 0 ->
  f0 (posy_eval a s p false v) = factor a * clipped p x + ooffset a /\
  ((p_abs p = true -> continued p x <> 0) -> rectified p x <> p_max p -> rectified p x <> p_min p ->
   derivable_pt_lim (fun u => f0 (posy_eval a s p false u)) v (f1 (posy_eval a s p false v))).
Proof.
  intros a s p v Hu Hm Hoe Hz x Hx.
  assert (VAL : forall w, w + ioffset_ a <> 0 -> f0 (posy_eval a s p false w) = clipped p (w + ioffset_ a) * factor a + ooffset a).
  { intros w Hw. unfold posy_eval, tr_final_adjust, ioffset, uic. rewrite Hu. cbn [f0 fst snd]. rewrite factor_eq. f_equal. f_equal.
    rewrite (surjective_pairing (posy_raw p (w + ioffset_ a))), raw_value by assumption. apply clip_value. exact Hm. }
  split; [rewrite VAL by exact Hx; fold x; ring|].
  intros Ha Hmx Hmn.
  assert (SL : f1 (posy_eval a s p false v) = snd (posy_clip p (rectified p x, snd (posy_raw p x))) * factor a).
  { unfold posy_eval, tr_final_adjust, ioffset, uic. rewrite Hu. cbn [f1]. fold x. rewrite factor_eq. f_equal. f_equal. f_equal.
    rewrite (surjective_pairing (posy_raw p x)) at 1. rewrite raw_value by assumption. reflexivity. }
  rewrite SL.
  assert (D : derivable_pt_lim (fun w => clipped p (w + ioffset_ a) * factor a + ooffset a) v
                (snd (posy_clip p (rectified p x, snd (posy_raw p x))) * factor a)).
  { apply d_affine. apply (d_shift (clipped p)). apply clip_slope; try assumption. apply raw_slope; assumption. }
  destruct (Rlt_dec 0 x) as [P|P].
  - eapply derivable_pt_lim_locally_ext with (a := v - x) (b := v + 1); [lra | | exact D].
    intros z Hzz. symmetry. apply VAL. unfold x in *. lra.
  - eapply derivable_pt_lim_locally_ext with (a := v - 1) (b := v - x); [lra | | exact D].
    intros z Hzz. symmetry. apply VAL. unfold x in *. lra.
Qed.
Print Assumptions C72_posy.
Definition square : posy := Posy (-100) 100 false true false [(2, 1)].
Lemma rp2 : forall x, 0 < x -> Rpower x 2 = x * x.
Proof. intros x H. replace 2 with (1 + 1) by ring. rewrite Rpower_plus, Rpower_1 by exact H. reflexivity. Qed.
Example C72_posy_ex : f0 (posy_eval plain (now 0) square false (-3)) = - (9).
Proof.
  destruct (C72_posy plain (now 0) square (-3)) as [V _]; [reflexivity | cbn; lra | reflexivity | left; reflexivity | cbn; lra |].
  rewrite V. unfold factor, clipped, rectified, continued. cbn. destruct (Rlt_dec (-3 + 0) 0); [|lra].
  rewrite rp2 by lra. rewrite Rmax_right by lra. rewrite Rmin_right by lra. lra.
Qed.

(* the line loaded into the circuit by a voltage controlled element passes, at the voltage it was calculated for, through
   the adjusted value of the function, when there is no input offset *)
Theorem C72_line : forall a s v, uic_now s = false -> ioffset_ a = 0 ->
  (forall p, line_at (posy_eval a s p false v) v = f0 (posy_eval a s p false v)) /\
  (forall gain lim y, tanh_eval a s gain lim false v = Some y -> line_at y v = f0 y) /\
  (forall tol f, line_at (sin_eval tol a s f v) v = factor a * (sin_value tol a s f * v) + ooffset a) /\
  (forall fuel e y, exp_eval fuel a s e v = Some y ->
     exists val, exp_value fuel e (time0 s) = Some val /\ line_at y v = factor a * (val * v) + ooffset a) /\
  (forall m, line_at (sffm_eval a s m v) v = factor a * (sffm_value m (time0 s) * v) + ooffset a).
Proof.
  intros a s v Hu Hi. repeat split.
  - intros p. unfold line_at, posy_eval, tr_final_adjust, ioffset, uic. rewrite Hu, Hi. cbn [fx f0 f1]. ring.
  - intros gain lim y E. destruct (Req_EM_T lim 0) as [e|e].
    + unfold tanh_eval in E. destruct (Req_EM_T lim 0); [discriminate|contradiction].
    + rewrite tanh_eval_pair in E by exact e. injection E as <-.
      unfold line_at, tr_final_adjust, ioffset, uic. rewrite Hu, Hi. cbn [fx f0 f1]. ring.
  - intros tol f. unfold line_at, sin_eval, tr_finish_tdv, tr_final_adjust. cbn [fx f0 f1].
    rewrite factor_eq. set (w := sin_value tol a s f). unfold ioffset, uic. rewrite Hu, Hi. ring.
  - intros fuel e y E. unfold exp_eval in E. destruct (exp_value fuel e (time0 s)) as [val|]; [|discriminate].
    cbn [bind] in E. injection E as <-. exists val. split; [reflexivity|].
    unfold line_at, tr_finish_tdv, tr_final_adjust. cbn [fx f0 f1]. rewrite factor_eq. unfold ioffset, uic. rewrite Hu, Hi. ring.
  - intros m. unfold line_at, sffm_eval, tr_finish_tdv, tr_final_adjust. cbn [fx f0 f1].
    rewrite factor_eq. set (w := sffm_value m (time0 s)). unfold ioffset, uic. rewrite Hu, Hi. ring.
Qed.
Print Assumptions C72_line.
Example C72_line_ex : line_at (posy_eval plain (now 0) square false (-3)) (-3) = - (9).
Proof. destruct (C72_line plain (now 0) (-3) eq_refl eq_refl) as [L _]. rewrite L. apply C72_posy_ex. Qed.

(* with an input offset the line does not pass through the value: the offset has been added to the argument, but the
   line is loaded as if the argument had been the voltage *)
Theorem C72_input_offset_refuted : exists a s p v, uic_now s = false /\ ioffset_ a <> 0 /\
  f0 (posy_eval a s p false v) = 4 /\ line_at (posy_eval a s p false v) v = 0.
Proof.
  exists (Action 27 27 None 0 0 0 1 1 0 0 0), (now 0), square, 1. split; [reflexivity|]. split; [cbn; lra|].
  assert (F : forall x, 0 < x -> x < 10 -> posy_clip square (posy_raw square x) = (x * x, 2 * x)).
  { intros x Hx Hx'. unfold posy_raw. destruct (Rlt_dec x 0); [lra|]. destruct (Rlt_dec 0 x); [|lra].
    assert (E : posy_terms (p_table square) x = (x * x, 2 * x)).
    { unfold posy_terms. cbn. replace (2 - 1) with 1 by ring. rewrite Rpower_1 by exact Hx. f_equal; ring. }
    rewrite E. cbn [p_odd p_even p_abs square andb]. unfold posy_clip. cbn [fst p_max p_min square].
    destruct (Rlt_dec 100 (x * x)); [nra|]. destruct (Rlt_dec (x * x) (-100)); [nra|]. reflexivity. }
  unfold line_at, posy_eval, tr_final_adjust, temp_adjust, ioffset, uic. cbn [uic_now now ioffset_ fx f0 f1 scale tc1 tc2 temp_c tnom_c ooffset].
  rewrite F by lra. cbn [fst snd]. split; ring.
Qed.
Print Assumptions C72_input_offset_refuted.

(* an independent source has the adjusted value of its function at the time: of the time for tanh and posy *)
Theorem C72_source : forall a s, uic_now s = false -> let t := time0 s in
  (forall p, p_min p <= p_max p -> p_odd p && p_even p = false -> one_sided_ok p -> t + ioffset_ a <> 0 ->
     source_value (posy_eval a s p true t) = factor a * clipped p (t + ioffset_ a)) /\
  (forall gain lim, lim <> 0 -> Rabs ((t + ioffset_ a) * gain / lim) <= LOGBIGBIG ->
     exists y, tanh_eval a s gain lim true t = Some y /\ source_value y = factor a * (lim * th ((t + ioffset_ a) * gain / lim))) /\
  (forall tol f, source_value (sin_eval tol a s f t) = factor a * sin_value tol a s f) /\
  (forall fuel e val, exp_value fuel e t = Some val ->
     exists y, exp_eval fuel a s e t = Some y /\ source_value y = factor a * val) /\
  (forall m, source_value (sffm_eval a s m t) = factor a * sffm_value m t).
Proof.
  intros a s Hu t. repeat split.
  - intros p Hm Hoe Hz Hx. unfold source_value, posy_eval, tr_final_adjust, ioffset, uic. rewrite Hu. cbn [fx f0 f1].
    rewrite factor_eq, Rmult_comm. f_equal.
    rewrite (surjective_pairing (posy_raw p (t + ioffset_ a))), raw_value by assumption. apply clip_value. exact Hm.
  - intros gain lim Hl B. eexists. split; [apply tanh_eval_pair; exact Hl|].
    unfold source_value, tr_final_adjust, ioffset, uic. rewrite Hu. cbn [fx f0 f1]. rewrite factor_eq, tanh_pair_near by exact B. ring.
  - intros tol f. unfold source_value, sin_eval, tr_finish_tdv, tr_final_adjust. cbn [f1]. rewrite factor_eq. ring.
  - intros fuel e val E. unfold exp_eval. unfold t in E. rewrite E. cbn [bind]. eexists. split; [reflexivity|].
    unfold source_value, tr_finish_tdv, tr_final_adjust. cbn [f1]. rewrite factor_eq. ring.
  - intros m. unfold source_value, sffm_eval, tr_finish_tdv, tr_final_adjust. cbn [f1]. rewrite factor_eq. apply Rmult_comm.
Qed.
Print Assumptions C72_source.
Example C72_source_ex : source_value (posy_eval (Action 37 27 None 0 0 0 1 2 (1/10) 0 0) (now 1) square true 1) = 16.
Proof.
  destruct (C72_source (Action 37 27 None 0 0 0 1 2 (1/10) 0 0) (now 1) eq_refl) as [P _].
  change 1 with (time0 (now 1)) at 4. rewrite P; [| cbn; lra | reflexivity | left; reflexivity | cbn; lra].
  unfold factor, clipped, rectified, continued. cbn. destruct (Rlt_dec (1 + 1) 0); [lra|].
  rewrite rp2 by lra. rewrite Rmax_right by lra. rewrite Rmin_right by lra. field.
Qed.
(* the output offset is not added to the value of a source *)
Theorem C72_output_offset_refuted : exists a s m, ooffset a <> 0 /\
  source_value (sffm_eval a s m (time0 s)) = factor a * sffm_value m (time0 s).
Proof.
  exists (Action 27 27 None 0 0 5 0 1 0 0 0), (now 1), (Sffm 1 2 3 4 5). split; [cbn; lra|].
  destruct (C72_source (Action 27 27 None 0 0 5 0 1 0 0 0) (now 1) eq_refl) as (_ & _ & _ & _ & M). apply M.
Qed.
Print Assumptions C72_output_offset_refuted.

(* exponential pulse: the initial value, and for every period begun so far a rise from td1 and a fall from td2 *)
Theorem C72_exp : forall e t n fuel, 0 < e_period e -> INR n * e_period e <= t < INR (Datatypes.S n) * e_period e -> (n < fuel)%nat ->
  exp_value fuel e t = Some (e_iv e + sum_f_R0 (fun k => pulse e (t - INR k * e_period e)) n).
Proof. intros e t n fuel HP Ht Hf. unfold exp_value. apply exp_loop_sum; assumption. Qed.
Print Assumptions C72_exp.
Definition ramp : expf := Expf 1 3 1 2 5 2 10.
Example C72_exp_ex : exp_value 5 ramp 3 = Some (3 - 2 * exp (-1)).
Proof.
  rewrite (C72_exp ramp 3 0 5); [|cbn; lra|cbn; lra|lia]. cbn [sum_f_R0 INR]. f_equal. unfold pulse, rise. cbn [e_iv e_pv e_td1 e_td2 e_tau1 e_tau2 e_period ramp].
  destruct (Rlt_dec 0 (3 - 0 * 10 - 1)); [|lra]. destruct (Rlt_dec 0 (3 - 0 * 10 - 5)); [lra|]. destruct (Req_EM_T 2 0); [lra|].
  replace (- ((3 - 0 * 10 - 1) / 2)) with (-1) by field. ring.
Qed.
(* a period that is not positive: the loop has no end *)
Theorem C72_exp_endless_refuted : exists e t, e_period e = 0 /\ forall fuel, exp_value fuel e t = None.
Proof. exists (Expf 0 1 0 1 1 1 0), 1. split; [reflexivity|]. intros fuel. apply exp_loop_endless; cbn; lra. Qed.
Print Assumptions C72_exp_endless_refuted.

(* the corners of the exponential pulse are announced: the event is after the present time, is a corner or the beginning
   of a period or was announced already, and no corner is skipped *)
Theorem C72_exp_events : forall s e ev0, 0 <= time0 s -> 0 < dtmin s -> 0 <= e_td1 e <= e_td2 e -> e_td2 e < e_period e ->
  e_period e < BIGBIG -> time0 s + dtmin s < ev0 ->
  exists ev, exp_review s e ev0 = Some ev /\ time0 s + dtmin s < ev <= ev0 /\
    (forall z c, c = IZR z * e_period e + e_td1 e \/ c = IZR z * e_period e + e_td2 e ->
       ~ time0 s + 2 * dtmin s <= c < ev) /\
    (ev = ev0 \/ exists z, ev = IZR z * e_period e + e_td1 e \/ ev = IZR z * e_period e + e_td2 e \/ ev = IZR z * e_period e).
Proof.
  intros s e ev0 Ht Hd Htd Hp Hb He. unfold exp_review.
  destruct (Rlt_dec 0 (e_period e)) as [P|P]; [|lra]. destruct (Rlt_dec (e_period e) BIGBIG); [|lra].
  set (raw := time0 s + dtmin s * 2) in *. destruct (fmod_spec raw (e_period e) P) as [Hm (q & Hq)].
  set (t := fmod raw (e_period e)) in *. rewrite Hq.
  set (ev := if Rlt_dec (e_td2 e) t then _ else _).
  assert (RAW : raw = e_period e * IZR q + t) by lra.
  assert (LATER : forall z : Z, IZR z < IZR q -> (IZR z + 1) * e_period e <= IZR q * e_period e).
  { intros z Hz. apply between in Hz. nra. }
  assert (LATER' : forall z : Z, IZR q < IZR z -> (IZR q + 1) * e_period e <= IZR z * e_period e).
  { intros z Hz. apply between in Hz. nra. }
  assert (EV : raw <= ev). { unfold ev. destruct (Rlt_dec (e_td2 e) t); [|destruct (Rlt_dec (e_td1 e) t)]; lra. }
  assert (EVU : ev <= (IZR q + 1) * e_period e).
  { unfold ev. destruct (Rlt_dec (e_td2 e) t); [|destruct (Rlt_dec (e_td1 e) t)]; lra. }
  unfold announce.
  assert (A : time0 s + dtmin s < Rmin ev0 ev) by (apply Rmin_glb_lt; [exact He | unfold raw in EV; lra]).
  destruct (Rlt_dec (time0 s + dtmin s) (Rmin ev0 ev)); [|contradiction].
  exists (Rmin ev0 ev). split; [reflexivity|]. split; [split; [exact A|apply Rmin_l]|]. split.
  - intros z c Hc [C1 C2]. pose proof (Rmin_r ev0 ev) as MR.
    assert (C1' : raw <= c) by (unfold raw; lra). assert (C2' : c < ev) by lra.
    destruct (Rtotal_order (IZR z) (IZR q)) as [O|[O|O]].
    + specialize (LATER z O). destruct Hc; lra.
    + rewrite O in Hc. unfold ev in C2'. destruct (Rlt_dec (e_td2 e) t); [|destruct (Rlt_dec (e_td1 e) t)]; destruct Hc; lra.
    + specialize (LATER' z O). destruct Hc; lra.
  - destruct (Rle_dec ev0 ev); [left; apply Rmin_left; assumption|]. right. rewrite Rmin_right by lra. unfold ev.
    destruct (Rlt_dec (e_td2 e) t); [|destruct (Rlt_dec (e_td1 e) t)].
    + exists (q + 1)%Z. right. right. rewrite plus_IZR. ring.
    + exists q. right. left. ring.
    + exists q. left. ring.
Qed.
Print Assumptions C72_exp_events.
Lemma small_fmod : forall x p, 0 <= x < p -> fmod x p = x.
Proof.
  intros x p H. unfold fmod. pose proof (floor_unique (x / p) 0) as F. unfold floor in F. rewrite F; [ring|].
  assert (p <> 0) by lra. assert (0 < / p) by (apply Rinv_0_lt_compat; lra). unfold Rdiv.
  assert (x * / p * p = x) by (field; lra). split; nra.
Qed.
Lemma TEN_BIG : 1000 < BIGBIG.
Proof.
  unfold BIGBIG, MAXDBL.
  assert (A : 1 <= 2 ^ 52) by (apply pow_R1_Rle; lra).
  assert (B : 2 ^ 11 <= 2 ^ 1023) by (apply Rle_pow; [lra|lia]).
  assert (C : / 2 ^ 52 <= 1). { replace 1 with (/ 1) by field. apply Rinv_le_contravar; lra. }
  assert (D : 2 ^ 11 = 2048) by ring. rewrite D in B.
  set (u := / 2 ^ 52) in *. set (w := 2 ^ 1023) in *. nra.
Qed.
Example C72_exp_events_ex : exp_review (Sim 2 0 (1/8) false) ramp 100 = Some 5.
Proof.
  unfold exp_review. cbn [time0 dtmin e_period e_td1 e_td2 ramp]. pose proof TEN_BIG. destruct (Rlt_dec 0 10); [|lra]. destruct (Rlt_dec 10 BIGBIG); [|lra].
  rewrite small_fmod by lra. destruct (Rlt_dec 5 (2 + 1/8 * 2)); [lra|]. destruct (Rlt_dec 1 (2 + 1/8 * 2)); [|lra].
  unfold announce. cbn [time0 dtmin]. rewrite Rmin_right by lra.
  replace (5 + (2 + 1/8 * 2 - (2 + 1/8 * 2))) with 5 by ring. destruct (Rlt_dec (2 + 1/8) 5); [reflexivity|lra].
Qed.
(* a fall that begins before the rise: the corner of the rise is not announced *)
Theorem C72_exp_order_refuted : exists s e ev, e_td2 e < e_td1 e < e_period e /\
  exp_review s e NEVER = Some ev /\ time0 s + 2 * dtmin s < e_td1 e < ev.
Proof.
  exists (Sim 2 0 (1/8) false), (Expf 0 1 3 1 1 1 10), 10. cbn [time0 dtmin e_td1 e_td2 e_period]. split; [lra|].
  pose proof TEN_BIG. assert (N : 10 < NEVER). { assert (BIGBIG < NEVER); [|lra]. unfold BIGBIG, NEVER in *. lra. }
  split; [|lra]. unfold exp_review. cbn [time0 dtmin e_period e_td1 e_td2]. destruct (Rlt_dec 0 10); [|lra]. destruct (Rlt_dec 10 BIGBIG); [|lra].
  rewrite small_fmod by lra. destruct (Rlt_dec 1 (2 + 1/8 * 2)); [|lra].
  unfold announce. cbn [time0 dtmin]. replace (10 + (2 + 1/8 * 2 - (2 + 1/8 * 2))) with 10 by ring. rewrite Rmin_right by lra.
  destruct (Rlt_dec (2 + 1/8) 10); [reflexivity|lra].
Qed.
Print Assumptions C72_exp_order_refuted.

(* damped sine: the offset up to the delay, then the sine from phase zero with the damping; a sine below the rounding
   tolerance counts as zero *)
Theorem C72_sin : forall tol a s f, 0 <= tol -> uic_now s = false ->
  let t := time0 s + ioffset_ a - s_delay f in let w := 2 * PI * actual_frequency s f in
  let exact := s_offset f + s_amplitude f * sin (w * t) * exp (- s_damping f * t) in
  (t <= 0 -> sin_value tol a s f = s_offset f) /\
  (0 < t -> Rabs (sin_value tol a s f - exact) <= Rabs (s_amplitude f) * tol * exp (- s_damping f * t)) /\
  (0 < t -> tol <= Rabs (sin (w * t)) -> sin_value tol a s f = exact).
Proof.
  intros tol a s f Htol Hu t w exact. unfold sin_value, ioffset, uic. rewrite Hu. cbv zeta.
  split; [intros H; destruct (Rlt_dec (s_delay f) (time0 s + ioffset_ a)); [unfold t in H; lra | reflexivity]|].
  assert (G : 0 < t -> exists z, (z = sin (w * t) \/ (z = 0 /\ Rabs (sin (w * t)) < tol)) /\
    (if Rlt_dec (s_delay f) (time0 s + ioffset_ a) then
      s_offset f + (if Req_EM_T (s_damping f) 0
        then s_amplitude f * fixzero tol (sin (M_TWO_PI * actual_frequency s f * (time0 s + ioffset_ a - s_delay f))) 1
        else s_amplitude f * fixzero tol (sin (M_TWO_PI * actual_frequency s f * (time0 s + ioffset_ a - s_delay f))) 1
             * exp (- (time0 s + ioffset_ a - s_delay f) * s_damping f))
     else s_offset f) = s_offset f + s_amplitude f * z * exp (- s_damping f * t)).
  { intros Hpos. exists (fixzero tol (sin (w * t)) 1). split.
    - unfold fixzero. rewrite Rmult_1_l, (Rabs_right tol) by lra.
      destruct (Rlt_dec (Rabs (sin (w * t))) tol); [right; split; [reflexivity|assumption] | left; reflexivity].
    - destruct (Rlt_dec (s_delay f) (time0 s + ioffset_ a)); [|unfold t in Hpos; lra]. fold t.
      replace (M_TWO_PI * actual_frequency s f * t) with (w * t) by (unfold w, M_TWO_PI; ring).
      destruct (Req_EM_T (s_damping f) 0) as [e|e].
      + rewrite e. replace (- 0 * t) with 0 by ring. rewrite exp_0. ring.
      + replace (- t * s_damping f) with (- s_damping f * t) by ring. reflexivity. }
  split.
  - intros Hpos. destruct (G Hpos) as (z & Hz & E). rewrite E. unfold exact.
    replace (s_offset f + s_amplitude f * z * exp (- s_damping f * t) - (s_offset f + s_amplitude f * sin (w * t) * exp (- s_damping f * t)))
      with (s_amplitude f * (z - sin (w * t)) * exp (- s_damping f * t)) by ring.
    rewrite !Rabs_mult, (Rabs_right (exp _)) by (left; apply exp_pos).
    apply Rmult_le_compat_r; [left; apply exp_pos|]. apply Rmult_le_compat_l; [apply Rabs_pos|].
    destruct Hz as [->|[-> Hs]]; [rewrite Rminus_diag_eq, Rabs_R0 by reflexivity; exact Htol|].
    unfold Rminus. rewrite Rplus_0_l, Rabs_Ropp. lra.
  - intros Hpos Hbig. destruct (G Hpos) as (z & Hz & E). rewrite E. destruct Hz as [->|[-> Hs]]; [reflexivity|lra].
Qed.
Print Assumptions C72_sin.
Definition sine : sinf := Sinf 1 2 (Some (1/4)) 1 0 false false.
Example C72_sin_ex : sin_value (1/1000) plain (now 2) sine = 3.
Proof.
  destruct (C72_sin (1/1000) plain (now 2) sine ltac:(lra) eq_refl) as (_ & _ & E). cbn [time0 now ioffset_ plain s_delay sine actual_frequency s_frequency s_offset s_amplitude s_damping] in E.
  replace (2 * PI * (1/4) * (2 + 0 - 1)) with (PI / 2) in E by field. rewrite sin_PI2 in E. rewrite E; [|lra|rewrite Rabs_R1; lra].
  replace (- 0 * (2 + 0 - 1)) with 0 by ring. rewrite exp_0. ring.
Qed.

(* the zeros and peaks of a sine without delay are announced: the event is the next of those asked for *)
Definition special (f : sinf) (w t : R) : Prop :=
  (s_zero f = true /\ sin (w * t) = 0) \/ (s_peak f = true /\ cos (w * t) = 0).
Theorem C72_sin_events : forall a s f ev0, uic_now s = false -> ioffset_ a = 0 -> s_delay f = 0 -> 0 <= time0 s ->
  let fr := actual_frequency s f in 0 < fr -> dtmin s < 1e-6 / fr -> time0 s + dtmin s < ev0 ->
  s_zero f || s_peak f = true ->
  let from := time0 s + 1e-6 / fr in
  exists e, sin_review a s f ev0 = Some (Rmin ev0 e) /\ from < e /\ special f (2 * PI * fr) e /\
    forall u, from < u < e -> ~ special f (2 * PI * fr) u.
Proof.
  intros a s f ev0 Hu Hi Hdl Ht fr Hfr Hdt Hev Hzp from.
  assert (PP := PI_RGT_0).
  assert (EPS : 0 < 1e-6 / fr) by (apply Rdiv_lt_0_compat; lra).
  assert (ZERO : forall u, sin (2 * PI * fr * u) = 0 <-> exists k : Z, 2 * fr * u = IZR k).
  { intros u. split.
    - intros H. apply sin_eq_0_0 in H. destruct H as [k Hk]. exists k. apply Rmult_eq_reg_r with PI; lra.
    - intros [k Hk]. apply sin_eq_0_1. exists k. rewrite <- Hk. ring. }
  assert (PEAK : forall u, cos (2 * PI * fr * u) = 0 <-> exists k : Z, 2 * fr * u = IZR k + 1/2).
  { intros u. split.
    - intros H. apply cos_eq_0_0 in H. destruct H as [k Hk]. exists k. apply Rmult_eq_reg_r with PI; lra.
    - intros [k Hk]. apply cos_eq_0_1. exists k. replace (2 * PI * fr * u) with (2 * fr * u * PI) by ring. rewrite Hk. field. }
  assert (FIN : forall e, from < e -> announce s ev0 e = Some (Rmin ev0 e)).
  { intros e He. unfold announce. assert (time0 s + dtmin s < Rmin ev0 e) by (apply Rmin_glb_lt; unfold from in He; lra).
    destruct (Rlt_dec (time0 s + dtmin s) (Rmin ev0 e)); [reflexivity|contradiction]. }
  unfold sin_review. fold fr. destruct (Req_EM_T fr 0) as [fz|fnz]; [lra|]. unfold ioffset, uic. rewrite Hu, Hi, Hdl.
  replace (time0 s + 0 + 1e-6 / fr) with from by (unfold from; ring).
  destruct (Rlt_dec 0 from) as [FP|FP]; [|unfold from in FP; lra].
  destruct (s_peak f) eqn:PK; destruct (s_zero f) eqn:ZR; cbn [andb]; try discriminate Hzp.
  - set (x := from * 4 * fr). replace (from * 4 * fr + 1) with (x + 1) by reflexivity.
    pose proof (floor_spec (x + 1)) as FS. set (n := Int_part (x + 1)) in *. unfold floor in *. fold n in FS. fold n.
    exists (IZR n / (4 * fr)).
    assert (EE : IZR n / (4 * fr) * (4 * fr) = IZR n) by (field; lra). set (e := IZR n / (4 * fr)) in *.
    assert (FE : from < e) by (apply Rmult_lt_reg_r with (4 * fr); unfold x in FS; lra).
    split; [apply FIN; exact FE|]. split; [exact FE|]. split.
    + destruct (Zeven_odd_dec n) as [EV|OD].
      * left. split; [exact ZR|]. apply ZERO. apply Zeven_ex in EV. destruct EV as [m Hm]. exists m. rewrite Hm, mult_IZR in EE. lra.
      * right. split; [exact PK|]. apply PEAK. apply Zodd_ex in OD. destruct OD as [m Hm]. exists m. rewrite Hm, plus_IZR, mult_IZR in EE. lra.
    + intros u [U1 U2] SP.
      assert (R1 : from * (4 * fr) < u * (4 * fr)) by (apply Rmult_lt_compat_r; lra).
      assert (R2 : u * (4 * fr) < e * (4 * fr)) by (apply Rmult_lt_compat_r; lra).
      destruct SP as [[_ K]|[_ K]].
      * apply ZERO in K. destruct K as [k Hk].
        assert (B : IZR (2 * k) < IZR n) by (rewrite mult_IZR; lra). apply between in B. rewrite mult_IZR in B. unfold x in FS. lra.
      * apply PEAK in K. destruct K as [k Hk].
        assert (B : IZR (2 * k + 1) < IZR n) by (rewrite plus_IZR, mult_IZR; lra). apply between in B. rewrite plus_IZR, mult_IZR in B. unfold x in FS. lra.
  - set (x := from * 2 * fr). replace (from * 2 * fr + 0.5) with (x + 0.5) by reflexivity.
    pose proof (floor_spec (x + 0.5)) as FS. set (n := Int_part (x + 0.5)) in *. unfold floor in *. fold n in FS. fold n.
    exists ((IZR n + 0.5) / (2 * fr)).
    assert (EE : (IZR n + 0.5) / (2 * fr) * (2 * fr) = IZR n + 0.5) by (field; lra). set (e := (IZR n + 0.5) / (2 * fr)) in *.
    assert (FE : from < e) by (apply Rmult_lt_reg_r with (2 * fr); unfold x in FS; lra).
    split; [apply FIN; exact FE|]. split; [exact FE|]. split.
    + right. split; [exact PK|]. apply PEAK. exists n. lra.
    + intros u [U1 U2] SP.
      assert (R1 : from * (2 * fr) < u * (2 * fr)) by (apply Rmult_lt_compat_r; lra).
      assert (R2 : u * (2 * fr) < e * (2 * fr)) by (apply Rmult_lt_compat_r; lra).
      destruct SP as [[K _]|[_ K]]; [congruence|].
      apply PEAK in K. destruct K as [k Hk].
      assert (B : IZR k < IZR n) by lra. apply between in B. unfold x in FS. lra.
  - set (x := from * 2 * fr). replace (from * 2 * fr + 1) with (x + 1) by reflexivity.
    pose proof (floor_spec (x + 1)) as FS. set (n := Int_part (x + 1)) in *. unfold floor in *. fold n in FS. fold n.
    exists (IZR n / (2 * fr)).
    assert (EE : IZR n / (2 * fr) * (2 * fr) = IZR n) by (field; lra). set (e := IZR n / (2 * fr)) in *.
    assert (FE : from < e) by (apply Rmult_lt_reg_r with (2 * fr); unfold x in FS; lra).
    split; [apply FIN; exact FE|]. split; [exact FE|]. split.
    + left. split; [exact ZR|]. apply ZERO. exists n. lra.
    + intros u [U1 U2] SP.
      assert (R1 : from * (2 * fr) < u * (2 * fr)) by (apply Rmult_lt_compat_r; lra).
      assert (R2 : u * (2 * fr) < e * (2 * fr)) by (apply Rmult_lt_compat_r; lra).
      destruct SP as [[_ K]|[K _]]; [|congruence].
      apply ZERO in K. destruct K as [k Hk].
      assert (B : IZR k < IZR n) by lra. apply between in B. unfold x in FS. lra.
Qed.
Print Assumptions C72_sin_events.
Definition crossing : sinf := Sinf 0 1 (Some 1) 0 0 true false.
Example C72_sin_events_ex : sin_review plain (now (3/4)) crossing 100 = Some 1.
Proof.
  unfold sin_review. cbn [actual_frequency s_frequency crossing]. destruct (Req_EM_T 1 0); [lra|].
  unfold ioffset, uic. cbn [uic_now now time0 ioffset_ plain s_delay s_peak s_zero crossing andb].
  destruct (Rlt_dec 0 (3/4 + 0 + 1e-6/1)); [|lra]. rewrite (floor_unique _ 2) by lra. unfold announce. cbn [time0 dtmin now].
  replace (2 / (2 * 1)) with 1 by field. rewrite Rmin_right by lra. destruct (Rlt_dec (3/4 + 1/1000000000) 1); [reflexivity|lra].
Qed.
(* with a delay that is not a multiple of the half period the announced times are not the zeros *)
Theorem C72_sin_delay_refuted : exists a s f ev, uic_now s = false /\ ioffset_ a = 0 /\ s_zero f = true /\ s_peak f = false /\
  sin_review a s f NEVER = Some ev /\ s_delay f < ev /\ sin (2 * PI * actual_frequency s f * (ev - s_delay f)) = 1.
Proof.
  exists plain, (now (3/4)), (Sinf 0 1 (Some 1) (3/4) 0 true false), 1.
  repeat split; cbn [s_zero s_peak s_delay actual_frequency s_frequency]; try reflexivity; try lra.
  - unfold sin_review. cbn [actual_frequency s_frequency]. destruct (Req_EM_T 1 0); [lra|].
    unfold ioffset, uic. cbn [uic_now now time0 ioffset_ plain s_delay s_peak s_zero andb].
    destruct (Rlt_dec (3/4) (3/4 + 0 + 1e-6/1)); [|lra]. rewrite (floor_unique _ 2) by lra. unfold announce. cbn [time0 dtmin now].
    replace (2 / (2 * 1)) with 1 by field. pose proof TEN_BIG.
    assert (N : 10 < NEVER). { assert (BIGBIG < NEVER); [|lra]. unfold BIGBIG, NEVER in *. lra. }
    rewrite Rmin_right by lra. destruct (Rlt_dec (3/4 + 1/1000000000) 1); [reflexivity|lra].
  - replace (2 * PI * 1 * (1 - 3/4)) with (PI / 2) by field. apply sin_PI2.
Qed.
Print Assumptions C72_sin_delay_refuted.
(* with an input offset (added to the time) the announced time may be in the past: the assert fails *)
Theorem C72_sin_past_refuted : exists a s f, uic_now s = false /\ 0 < time0 s /\ sin_review a s f NEVER = None.
Proof.
  exists (Action 27 27 None 0 0 0 (-1) 1 0 0 0), (now (3/2)), (Sinf 0 1 (Some 1) 1 0 false false).
  split; [reflexivity|]. split; [cbn; lra|].
  unfold sin_review. cbn [actual_frequency s_frequency]. destruct (Req_EM_T 1 0); [lra|].
  unfold ioffset, uic. cbn [uic_now now time0 ioffset_ s_delay].
  destruct (Rlt_dec 1 (3/2 + -1 + 1e-6/1)); [lra|]. unfold announce. cbn [time0 dtmin now]. pose proof (Rmin_r NEVER 1).
  destruct (Rlt_dec (3/2 + 1/1000000000) (Rmin NEVER 1)); [lra|reflexivity].
Qed.
Print Assumptions C72_sin_past_refuted.
(* at a gigahertz with the usual smallest step, an event can be nearer than the assert allows *)
Theorem C72_sin_near_refuted : exists a s f, ioffset_ a = 0 /\ s_delay f = 0 /\ s_frequency f = Some 1e9 /\ dtmin s = 1e-12 /\
  0 < time0 s /\ sin_review a s f NEVER = None.
Proof.
  exists plain, (Sim 4.995e-10 0 1e-12 false), (Sinf 0 1 (Some 1e9) 0 0 true false).
  repeat split; try reflexivity; [cbn; lra|].
  unfold sin_review. cbn [actual_frequency s_frequency]. destruct (Req_EM_T 1e9 0); [lra|].
  unfold ioffset, uic. cbn [uic_now time0 ioffset_ plain s_delay s_peak s_zero andb].
  destruct (Rlt_dec 0 (4.995e-10 + 0 + 1e-6/1e9)); [|lra]. rewrite (floor_unique _ 1) by lra. unfold announce. cbn [time0 dtmin].
  pose proof (Rmin_r NEVER (1 / (2 * 1e9))). destruct (Rlt_dec (4.995e-10 + 1e-12) (Rmin NEVER (1 / (2 * 1e9)))); [lra|reflexivity].
Qed.
Print Assumptions C72_sin_near_refuted.

(* frequency modulation: the phase of the sine rises at the carrier frequency with the modulation added, and the value
   stays within the amplitude of the offset *)
Theorem C72_sffm : forall m t, exists phase : R -> R,
  phase 0 = 0 /\ (forall u, sffm_value m u = m_offset m + m_amplitude m * sin (phase u)) /\
  derivable_pt_lim phase t (2 * PI * (m_carrier m + m_modindex m * m_signal m * cos (2 * PI * m_signal m * t))) /\
  Rabs (sffm_value m t - m_offset m) <= Rabs (m_amplitude m).
Proof.
  intros m t. exists (fun u => M_TWO_PI * m_carrier m * u + m_modindex m * sin (M_TWO_PI * m_signal m * u)).
  repeat split.
  - rewrite !Rmult_0_r, sin_0. ring.
  - assert (LIN : forall k u, derivable_pt_lim (fun z => k * z) u k).
    { intros k u. eapply derivable_pt_lim_ext with (f := fun z => id z * k + 0); [intros; unfold id; ring|].
      eapply d_eq. apply d_affine. apply derivable_pt_lim_id. ring. }
    eapply d_eq.
    + apply (derivable_pt_lim_plus (fun u => M_TWO_PI * m_carrier m * u) (fun u => m_modindex m * sin (M_TWO_PI * m_signal m * u))); [apply LIN|].
      apply (derivable_pt_lim_scal (fun u => sin (M_TWO_PI * m_signal m * u)) (m_modindex m)).
      apply (derivable_pt_lim_comp (fun u => M_TWO_PI * m_signal m * u) sin); [apply LIN | apply derivable_pt_lim_sin].
    + unfold M_TWO_PI. replace (PI * 2 * m_signal m * t) with (2 * PI * m_signal m * t) by ring. ring.
  - unfold sffm_value.
    match goal with |- Rabs (_ + _ * sin ?z - _) <= _ => replace (m_offset m + m_amplitude m * sin z - m_offset m) with (m_amplitude m * sin z) by ring; pose proof (SIN_bound z) end.
    rewrite Rabs_mult. rewrite <- (Rmult_1_r (Rabs (m_amplitude m))) at 2. apply Rmult_le_compat_l; [apply Rabs_pos|]. apply Rabs_le. lra.
Qed.
Print Assumptions C72_sffm.
Example C72_sffm_ex : sffm_value (Sffm 1 2 1 0 7) (1/4) = 3.
Proof. unfold sffm_value, M_TWO_PI. cbn. replace (PI * 2 * 1 * (1/4) + 0 * sin (PI * 2 * 7 * (1/4))) with (PI / 2) by field. rewrite sin_PI2. ring. Qed.

(* ac: a real transfer g with a bandwidth b, a phase and a delay becomes g times a first order low pass, the phase and
   the phase of the delay *)
Theorem C72_ac : forall a s g, freq s * a_delay a <= 100000 ->
  exists z, ac_final_adjust a s (g, 0) = Some z /\
    cmul z (1, match bandwidth a with Some b => if Req_EM_T b 0 then 0 else freq s / b | None => 0 end) =
    cmul (g, 0) (let p := a_phase a * (PI / 180) - 2 * PI * freq s * a_delay a in (cos p, sin p)).
Proof.
  intros a s g H.
  assert (EXT : forall z w : R * R, fst z = fst w -> snd z = snd w -> z = w) by (intros [] []; cbn; intros; subst; reflexivity).
  set (r := match bandwidth a with Some b => if Req_EM_T b 0 then 0 else freq s / b | None => 0 end).
  assert (NZ : 1 + r * r <> 0) by nra.
  assert (B : exists z0, ac_bandwidth a s (g, 0) = Some z0 /\ z0 = (g / (1 + r * r), - (g / (1 + r * r)) * r)).
  { unfold ac_bandwidth. unfold r in *. destruct (bandwidth a) as [b|].
    - destruct (Req_EM_T b 0).
      + eexists. split; [reflexivity|]. apply EXT; cbn; field.
      + cbn [snd fst]. destruct (Req_EM_T 0 0); [|lra]. eexists. split; [reflexivity|]. reflexivity.
    - eexists. split; [reflexivity|]. apply EXT; cbn; field. }
  destruct B as (z0 & B & Z0). unfold ac_final_adjust. rewrite B. cbn [bind]. rewrite Z0.
  eexists. split; [reflexivity|].
  assert (PH : forall z, (if Req_EM_T (a_phase a) 0 then z else cmul z (polar 1 (a_phase a * DTOR))) = cmul z (polar 1 (a_phase a * DTOR))).
  { intros z. destruct (Req_EM_T (a_phase a) 0) as [e|]; [|reflexivity]. rewrite e, Rmult_0_l. unfold polar. rewrite cos_0, sin_0.
    apply EXT; cbn; ring. }
  assert (DL : forall z, (if Req_EM_T (a_delay a) 0 then z else
      cmul z (polar 1 (- 360 * DTOR * (if Rlt_dec 100000 (freq s * a_delay a) then 0 else freq s * a_delay a)))) =
      cmul z (polar 1 (- (2 * PI * freq s * a_delay a)))).
  { intros z. destruct (Rlt_dec 100000 (freq s * a_delay a)); [lra|]. destruct (Req_EM_T (a_delay a) 0) as [e|].
    - rewrite e, Rmult_0_r, Ropp_0. unfold polar. rewrite cos_0, sin_0. apply EXT; cbn; ring.
    - do 2 f_equal. unfold DTOR. field. }
  cbv zeta. rewrite PH, DL. fold DTOR.
  unfold Rminus at 1 2. rewrite cos_plus, sin_plus, cos_neg, sin_neg.
  unfold polar. rewrite cos_neg, sin_neg.
  set (c1 := cos (a_phase a * DTOR)). set (s1 := sin (a_phase a * DTOR)).
  set (c2 := cos (2 * PI * freq s * a_delay a)). set (s2 := sin (2 * PI * freq s * a_delay a)).
  apply EXT; unfold cmul; cbn [fst snd]; field; exact NZ.
Qed.
Print Assumptions C72_ac.
Example C72_ac_ex : exists z, ac_final_adjust (Action 27 27 (Some 10) 0 0 0 0 1 0 0 0) (Sim 0 10 0 false) (4, 0) = Some z /\ z = (2, -2).
Proof.
  unfold ac_final_adjust, ac_bandwidth. cbn [bandwidth a_phase a_delay freq fst snd]. destruct (Req_EM_T 10 0); [lra|]. destruct (Req_EM_T 0 0); [|lra].
  cbn [bind]. eexists. split; [reflexivity|]. f_equal; field.
Qed.
(* a delay of more than 100000 periods is dropped *)
Theorem C72_ac_delay_refuted : exists a s, bandwidth a = None /\ a_phase a = 0 /\ cos (2 * PI * freq s * a_delay a) = -1 /\
  ac_final_adjust a s (1, 0) = Some (1, 0).
Proof.
  exists (Action 27 27 None 1 0 0 0 1 0 0 0), (Sim 0 (200001/2) 0 false). cbn [bandwidth a_phase a_delay freq].
  repeat split.
  - replace (2 * PI * (200001/2) * 1) with (PI + 2 * INR (100 * 1000) * PI).
    + rewrite cos_period. apply cos_PI.
    + rewrite mult_INR, !INR_IZR_INZ. cbn [Z.of_nat Pos.of_succ_nat Pos.succ]. field.
  - unfold ac_final_adjust, ac_bandwidth. cbn [bandwidth a_phase a_delay freq bind]. destruct (Req_EM_T 0 0); [|lra]. destruct (Req_EM_T 1 0); [lra|].
    destruct (Rlt_dec 100000 (200001/2 * 1)); [|lra]. rewrite Rmult_0_r. unfold polar. rewrite cos_0, sin_0. unfold cmul. cbn [fst snd].
    do 2 f_equal; ring.
Qed.
Print Assumptions C72_ac_delay_refuted.

(* at a zero argument a term with exponent zero counts as one, whatever its coefficient *)
Theorem C72_posy_constant_refuted : exists p, p_table p = [(0, 5)] /\ (forall x, 0 < x -> f0 (posy_eval plain (now 0) p false x) = 5) /\
  f0 (posy_eval plain (now 0) p false 0) = 1.
Proof.
  exists (Posy (-100) 100 false false false [(0, 5)]). split; [reflexivity|]. split.
  - intros x Hx. unfold posy_eval, ioffset, uic. cbn [uic_now now ioffset_ plain]. rewrite Rplus_0_r. unfold posy_raw.
    destruct (Rlt_dec x 0); [lra|]. destruct (Rlt_dec 0 x); [|lra]. cbn [p_table p_odd p_even p_abs].
    destruct (posy_terms_spec [(0, 5)] x Hx) as [V _]. destruct (posy_terms [(0, 5)] x) as [v0 v1]. cbn [fst posynomial] in V.
    rewrite Rpower_O in V by exact Hx. cbn [andb]. unfold posy_clip. cbn [fst p_max p_min].
    destruct (Rlt_dec 100 v0); [lra|]. destruct (Rlt_dec v0 (-100)); [lra|]. unfold tr_final_adjust, temp_adjust. cbn. lra.
  - unfold posy_eval, ioffset, uic. cbn [uic_now now ioffset_ plain]. rewrite Rplus_0_r. unfold posy_raw.
    cbv zeta. destruct (Rlt_dec 0 0) as [bad|_]; [lra|]. destruct (Rlt_dec 0 0) as [bad|_]; [lra|]. cbn [p_table p_odd p_even p_abs andb]. unfold posy_zero. cbn [fold_left fst].
    destruct (Req_EM_T 0 0); [|lra]. unfold posy_clip. cbn [fst p_max p_min].
    destruct (Rlt_dec 100 (0 + 1)); [lra|]. destruct (Rlt_dec (0 + 1) (-100)); [lra|]. unfold tr_final_adjust, temp_adjust. cbn. lra.
Qed.
Print Assumptions C72_posy_constant_refuted.
(* at a zero argument the slope is zero, even for a straight line *)
Theorem C72_posy_slope_refuted : exists p, p_table p = [(1, 1)] /\ p_odd p = true /\ f1 (posy_eval plain (now 0) p false 0) = 0 /\
  derivable_pt_lim (fun v => f0 (posy_eval plain (now 0) p false v)) 0 1.
Proof.
  set (p := Posy (-100) 100 false true false [(1, 1)]). exists p. split; [reflexivity|]. split; [reflexivity|].
  assert (ZERO : posy_raw p 0 = (0, 0)).
  { unfold posy_raw. cbv zeta. destruct (Rlt_dec 0 0) as [bad|_]; [lra|]. destruct (Rlt_dec 0 0) as [bad|_]; [lra|]. cbn [p_table p_odd p_even p_abs p andb]. unfold posy_zero. cbn [fold_left fst].
    destruct (Req_EM_T 1 0); [lra|]. reflexivity. }
  assert (V : forall v, -50 < v < 50 -> f0 (posy_eval plain (now 0) p false v) = v).
  { intros v Hv. destruct (Req_dec v 0) as [->|Hn].
    - unfold posy_eval, ioffset, uic. cbn [uic_now now ioffset_ plain]. rewrite Rplus_0_r, ZERO. unfold posy_clip. cbn [fst p_max p_min p].
      destruct (Rlt_dec 100 0); [lra|]. destruct (Rlt_dec 0 (-100)); [lra|]. unfold tr_final_adjust, temp_adjust. cbn. lra.
    - destruct (C72_posy plain (now 0) p v eq_refl) as [E _]; cbn [p_min p_max p_odd p_even p andb]; try reflexivity; [lra|left; reflexivity|cbn; lra|].
      rewrite E. unfold clipped, rectified, continued, factor. cbn [p_abs p_odd p_even p_table p p_max p_min posynomial plain ioffset_ scale tc1 tc2 temp_c tnom_c ooffset].
      replace (v + 0) with v by ring. destruct (Rlt_dec v 0).
      + rewrite Rpower_1 by lra. rewrite Rmax_right by lra. rewrite Rmin_right by lra. ring.
      + rewrite Rpower_1 by lra. rewrite Rmax_right by lra. rewrite Rmin_right by lra. ring. }
  split.
  - unfold posy_eval, ioffset, uic. cbn [uic_now now ioffset_ plain]. rewrite Rplus_0_r, ZERO. unfold posy_clip. cbn [fst p_max p_min p].
    destruct (Rlt_dec 100 0); [lra|]. destruct (Rlt_dec 0 (-100)); [lra|]. unfold tr_final_adjust, temp_adjust. cbn. lra.
  - eapply derivable_pt_lim_locally_ext with (f := id) (a := -50) (b := 50); [lra| |apply derivable_pt_lim_id].
    intros z Hz. symmetry. apply V. exact Hz.
Qed.
Print Assumptions C72_posy_slope_refuted.
(* odd and even together: the sign of the slope is wrong *)
Theorem C72_posy_odd_even_refuted : exists p, p_table p = [(1, 1)] /\ p_odd p = true /\ p_even p = true /\
  f1 (posy_eval plain (now 0) p false (-1)) = -1 /\
  derivable_pt_lim (fun v => f0 (posy_eval plain (now 0) p false v)) (-1) 1.
Proof.
  set (p := Posy (-100) 100 false true true [(1, 1)]). exists p. split; [reflexivity|]. split; [reflexivity|]. split; [reflexivity|].
  assert (V : forall v, -50 < v < 0 -> posy_clip p (posy_raw p v) = (v, -1)).
  { intros v Hv. unfold posy_raw. cbv zeta. destruct (Rlt_dec v 0) as [_|bad]; [|lra]. cbn [p_table p_odd p_even p_abs p andb orb].
    destruct (Rlt_dec 0 (- v)) as [_|bad]; [|lra]. unfold posy_terms. cbn [fold_left fst snd].
    replace (1 - 1) with 0 by ring. rewrite Rpower_O by lra. unfold posy_clip. cbn [fst p_max p_min p].
    destruct (Rlt_dec 100 (- (0 + 1 * 1 * - v))); [lra|]. destruct (Rlt_dec (- (0 + 1 * 1 * - v)) (-100)); [lra|]. apply f_equal2; ring. }
  split.
  - unfold posy_eval, ioffset, uic. cbn [uic_now now ioffset_ plain]. replace (-1 + 0) with (-1) by ring. rewrite V by lra.
    unfold tr_final_adjust, temp_adjust. cbn. lra.
  - eapply derivable_pt_lim_locally_ext with (f := id) (a := -50) (b := 0); [lra| |apply derivable_pt_lim_id].
    intros z Hz. unfold posy_eval, ioffset, uic. cbn [uic_now now ioffset_ plain]. replace (z + 0) with z by ring. rewrite V by lra.
    unfold tr_final_adjust, temp_adjust, id. cbn. lra.
Qed.
Print Assumptions C72_posy_odd_even_refuted.
