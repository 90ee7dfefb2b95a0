(* Proofs about the behavioural functions (Bmfun_Model.v). *)
Require Import Reals ZArith Bool List Lra Lia.
Require Import Verif.Loops Verif.Bmfun_Model.
Import ListNotations.
Local Open Scope R_scope.

(* ---------------------------------------------------------------- what the functions should be *)
(* the factor of scale and temperature *)
Definition factor (a : action) : R :=
  scale a * (1 + tc1 a * (temp_c a - tnom_c a) + tc2 a * (temp_c a - tnom_c a) ^ 2).
(* the hyperbolic tangent *)
Definition th (x : R) : R := (exp (2 * x) - 1) / (exp (2 * x) + 1).
(* a posynomial for x > 0 *)
Fixpoint posynomial (t : list (R * R)) (x : R) : R :=
  match t with [] => 0 | (p, c) :: t' => c * Rpower x p + posynomial t' x end.
(* its continuation to x < 0 *)
Definition continued (p : posy) (x : R) : R :=
  if Rlt_dec x 0 then (if p_odd p then - posynomial (p_table p) (- x) else if p_even p then posynomial (p_table p) (- x) else 0)
  else posynomial (p_table p) x.
(* with abs *)
Definition rectified (p : posy) (x : R) : R := if p_abs p then Rabs (continued p x) else continued p x.
(* with the limits *)
Definition clipped (p : posy) (x : R) : R := Rmin (p_max p) (Rmax (p_min p) (rectified p x)).
(* one pulse of exp: a rise from td1 and a fall from td2 *)
(* from 0 towards 1 with the time constant tau, at once if that is zero *)
Definition rise (t tau : R) : R := if Rlt_dec 0 t then (if Req_EM_T tau 0 then 1 else 1 - exp (- (t / tau))) else 0.
Definition pulse (e : expf) (t : R) : R :=
  (e_pv e - e_iv e) * (rise (t - e_td1 e) (e_tau1 e) - rise (t - e_td2 e) (e_tau2 e)).

(* ---------------------------------------------------------------- general *)
Lemma d_eq : forall f x l l', derivable_pt_lim f x l -> l = l' -> derivable_pt_lim f x l'.
Proof. intros; subst; assumption. Qed.
Lemma d_affine : forall f x l k c, derivable_pt_lim f x l -> derivable_pt_lim (fun v => f v * k + c) x (l * k).
Proof.
  intros f x l k c D.
  eapply derivable_pt_lim_ext with (f := (plus_fct (mult_real_fct k f) (fct_cte c))).
  - intros z. unfold plus_fct, mult_real_fct, fct_cte. ring.
  - eapply d_eq. apply derivable_pt_lim_plus. apply derivable_pt_lim_scal. exact D. apply derivable_pt_lim_const. ring.
Qed.
Lemma d_shift : forall f x c l, derivable_pt_lim f (x + c) l -> derivable_pt_lim (fun v => f (v + c)) x l.
Proof.
  intros f x c l D eps He. destruct (D eps He) as [d H]. exists d. intros h Hh Hl.
  replace (x + h + c) with (x + c + h) by ring. apply H; assumption.
Qed.
Lemma near_lt : forall f x l M, derivable_pt_lim f x l -> f x < M ->
  exists a b, a < x < b /\ forall z, a < z < b -> f z < M.
Proof.
  intros f x l M D H.
  assert (C : continuity_pt f x) by (apply derivable_continuous_pt; exists l; exact D).
  destruct (C (M - f x)) as [d [Hd Hc]]; [lra|]. exists (x - d), (x + d). split; [lra|]. intros z Hz.
  destruct (Req_dec z x) as [->|Hn]; [exact H|].
  assert (Q : Rabs (f z - f x) < M - f x).
  { apply (Hc z). split; [split; [exact I|auto]|]. unfold dist; simpl. unfold R_dist. apply Rabs_def1; lra. }
  apply Rabs_def2 in Q. lra.
Qed.
Lemma near_gt : forall f x l M, derivable_pt_lim f x l -> M < f x ->
  exists a b, a < x < b /\ forall z, a < z < b -> M < f z.
Proof.
  intros f x l M D H.
  destruct (near_lt (fun v => f v * (-1) + 0) x (l * (-1)) (- M)) as (a & b & Hab & K); [apply d_affine; exact D | lra|].
  exists a, b. split; [exact Hab|]. intros z Hz. specialize (K z Hz). lra.
Qed.
Lemma factor_eq : forall a, temp_adjust a = factor a.
Proof. intros. unfold temp_adjust, factor. ring. Qed.

(* ---------------------------------------------------------------- tanh *)
Lemma cosh_pos : forall x, 0 < cosh x.
Proof. intros. unfold cosh. pose proof (exp_pos x). pose proof (exp_pos (- x)). lra. Qed.
Lemma cosh_sinh : forall x, cosh x * cosh x - sinh x * sinh x = 1.
Proof.
  intros. unfold cosh, sinh. assert (E : exp x * exp (- x) = 1) by (rewrite <- exp_plus, Rplus_opp_r; apply exp_0). nra.
Qed.
Lemma tanh_th : forall x, tanh x = th x.
Proof.
  intros. unfold tanh, th, sinh, cosh.
  replace (2 * x) with (x + x) by ring. rewrite exp_plus, exp_Ropp. pose proof (exp_pos x).
  field. repeat split; nra.
Qed.
Lemma d_tanh : forall x, derivable_pt_lim tanh x (1 / (cosh x * cosh x)).
Proof.
  intros. unfold tanh. pose proof (cosh_pos x).
  eapply d_eq. apply (derivable_pt_lim_div sinh cosh); [apply derivable_pt_lim_sinh | apply derivable_pt_lim_cosh | lra].
  unfold Rsqr. rewrite cosh_sinh. reflexivity.
Qed.
Lemma th_bound : forall x, -1 < th x < 1.
Proof.
  intros. unfold th. pose proof (exp_pos (2 * x)).
  split; [apply Rmult_lt_reg_r with (exp (2 * x) + 1) | apply Rmult_lt_reg_r with (exp (2 * x) + 1)]; try lra;
    unfold Rdiv; rewrite Rmult_assoc, Rinv_l by lra; lra.
Qed.
Lemma th_opp : forall x, th (- x) = - th x.
Proof.
  intros. unfold th. replace (2 * - x) with (- (2 * x)) by ring. rewrite exp_Ropp. pose proof (exp_pos (2 * x)).
  field. lra.
Qed.
Lemma BIGBIG_pos : 1 < BIGBIG.
Proof.
  unfold BIGBIG, MAXDBL.
  assert (A : 1 <= 2 ^ 52) by (apply pow_R1_Rle; lra).
  assert (B : 4 <= 2 ^ 1023). { replace 1023%nat with (2 + 1021)%nat by reflexivity. rewrite pow_add.
    assert (1 <= 2 ^ 1021) by (apply pow_R1_Rle; lra). simpl (2 ^ 2). lra. }
  assert (C : / 2 ^ 52 <= 1). { replace 1 with (/ 1) by field. apply Rinv_le_contravar; lra. }
  set (u := / 2 ^ 52) in *. set (w := 2 ^ 1023) in *. nra.
Qed.
Lemma LOG_pos : 0 < LOGBIGBIG.
Proof. unfold LOGBIGBIG. rewrite <- ln_1. apply ln_increasing; [lra | exact BIGBIG_pos]. Qed.
Lemma th_far : forall x, LOGBIGBIG < x -> 1 - th x <= 2 / BIGBIG ^ 2.
Proof.
  intros x H. pose proof BIGBIG_pos. unfold th.
  assert (E : BIGBIG < exp x). { rewrite <- (exp_ln BIGBIG) by lra. apply exp_increasing. exact H. }
  replace (2 * x) with (x + x) by ring. rewrite exp_plus.
  replace (1 - (exp x * exp x - 1) / (exp x * exp x + 1)) with (2 / (exp x * exp x + 1)) by (field; nra).
  unfold Rdiv. apply Rmult_le_compat_l; [lra|]. apply Rinv_le_contravar; [nra|]. simpl. nra.
Qed.
Definition tanh_pair (gain lim aa : R) : R * R :=
  if Rlt_dec LOGBIGBIG aa then (lim, 0)
  else if Rlt_dec aa (- LOGBIGBIG) then (- lim, 0)
  else (lim * tanh aa, gain / (cosh aa * cosh aa)).
Lemma tanh_eval_pair : forall a s gain lim isval x0, lim <> 0 -> let x := ioffset a s x0 in
  tanh_eval a s gain lim isval x0 =
    Some (tr_final_adjust a isval (Fp x (fst (tanh_pair gain lim (x * gain / lim))) (snd (tanh_pair gain lim (x * gain / lim))))).
Proof.
  intros a s gain lim isval x0 Hl x. unfold tanh_eval. destruct (Req_EM_T lim 0) as [e|_]; [contradiction|].
  fold x. unfold tanh_pair. destruct (Rlt_dec LOGBIGBIG _); [reflexivity|]. destruct (Rlt_dec _ (- LOGBIGBIG)); reflexivity.
Qed.
Lemma tanh_pair_near : forall gain lim aa, Rabs aa <= LOGBIGBIG -> fst (tanh_pair gain lim aa) = lim * th aa.
Proof.
  intros gain lim aa H. pose proof (Rle_abs aa). pose proof (Rle_abs (- aa)). rewrite Rabs_Ropp in *. unfold tanh_pair.
  destruct (Rlt_dec LOGBIGBIG aa); [lra|]. destruct (Rlt_dec aa (- LOGBIGBIG)); [lra|]. cbn [fst]. rewrite tanh_th. reflexivity.
Qed.
Lemma tanh_pair_close : forall gain lim aa, Rabs (fst (tanh_pair gain lim aa) - lim * th aa) <= 2 * Rabs lim / BIGBIG ^ 2.
Proof.
  intros gain lim aa. pose proof BIGBIG_pos.
  assert (B : 0 < BIGBIG ^ 2) by (apply pow_lt; lra).
  assert (Z : 0 <= 2 * Rabs lim / BIGBIG ^ 2).
  { apply Rmult_le_pos; [pose proof (Rabs_pos lim); lra|]. left. apply Rinv_0_lt_compat. exact B. }
  unfold tanh_pair. destruct (Rlt_dec LOGBIGBIG aa) as [G|G]; [|destruct (Rlt_dec aa (- LOGBIGBIG)) as [L|L]]; cbn [fst].
  - replace (lim - lim * th aa) with (lim * (1 - th aa)) by ring. rewrite Rabs_mult.
    pose proof (th_bound aa). rewrite (Rabs_right (1 - th aa)) by lra. pose proof (th_far aa G).
    replace (2 * Rabs lim / BIGBIG ^ 2) with (Rabs lim * (2 / BIGBIG ^ 2)) by (field; lra).
    apply Rmult_le_compat_l; [apply Rabs_pos | assumption].
  - replace (- lim - lim * th aa) with (- lim * (1 - th (- aa))) by (rewrite th_opp; ring). rewrite Rabs_mult, Rabs_Ropp.
    pose proof (th_bound (- aa)). rewrite (Rabs_right (1 - th (- aa))) by lra.
    assert (F : 1 - th (- aa) <= 2 / BIGBIG ^ 2) by (apply th_far; lra).
    replace (2 * Rabs lim / BIGBIG ^ 2) with (Rabs lim * (2 / BIGBIG ^ 2)) by (field; lra).
    apply Rmult_le_compat_l; [apply Rabs_pos | assumption].
  - rewrite tanh_th, Rminus_diag_eq, Rabs_R0 by reflexivity. exact Z.
Qed.
Lemma tanh_pair_bound : forall gain lim aa, Rabs (fst (tanh_pair gain lim aa)) <= Rabs lim.
Proof.
  intros. unfold tanh_pair. destruct (Rlt_dec LOGBIGBIG aa); [cbn; lra|].
  destruct (Rlt_dec aa (- LOGBIGBIG)); cbn [fst]; [rewrite Rabs_Ropp; lra|].
  rewrite tanh_th, Rabs_mult. pose proof (th_bound aa). assert (Rabs (th aa) <= 1) by (apply Rabs_le; lra).
  pose proof (Rabs_pos lim). nra.
Qed.
Lemma tanh_pair_slope : forall gain lim x, lim <> 0 -> Rabs (x * gain / lim) <> LOGBIGBIG ->
  derivable_pt_lim (fun u => fst (tanh_pair gain lim (u * gain / lim))) x (snd (tanh_pair gain lim (x * gain / lim))).
Proof.
  intros gain lim x Hl Hn. pose proof LOG_pos as LP.
  assert (DA : derivable_pt_lim (fun u => u * gain / lim) x (gain / lim)).
  { eapply derivable_pt_lim_ext with (f := fun u => id u * (gain / lim) + 0); [intros; unfold id; field; exact Hl|].
    eapply d_eq. apply d_affine. apply derivable_pt_lim_id. ring. }
  destruct (Rlt_dec LOGBIGBIG (x * gain / lim)) as [G|G].
  - destruct (near_gt _ _ _ _ DA G) as (a & b & Hab & K).
    unfold tanh_pair at 2. destruct (Rlt_dec LOGBIGBIG (x * gain / lim)); [|lra]. cbn [snd].
    eapply derivable_pt_lim_locally_ext with (f := fct_cte lim) (a := a) (b := b); [exact Hab | | apply derivable_pt_lim_const].
    intros z Hz. specialize (K z Hz). cbv beta in K. unfold tanh_pair. destruct (Rlt_dec LOGBIGBIG (z * gain / lim)); [reflexivity|lra].
  - destruct (Rlt_dec (x * gain / lim) (- LOGBIGBIG)) as [L|L].
    + destruct (near_lt _ _ _ _ DA L) as (a & b & Hab & K).
      unfold tanh_pair at 2. destruct (Rlt_dec LOGBIGBIG (x * gain / lim)); [lra|].
      destruct (Rlt_dec (x * gain / lim) (- LOGBIGBIG)); [|lra]. cbn [snd].
      eapply derivable_pt_lim_locally_ext with (f := fct_cte (- lim)) (a := a) (b := b); [exact Hab | | apply derivable_pt_lim_const].
      intros z Hz. specialize (K z Hz). cbv beta in K. unfold tanh_pair. destruct (Rlt_dec LOGBIGBIG (z * gain / lim)); [lra|].
      destruct (Rlt_dec (z * gain / lim) (- LOGBIGBIG)); [reflexivity|lra].
    + assert (G' : x * gain / lim < LOGBIGBIG).
      { destruct (Req_dec (x * gain / lim) LOGBIGBIG) as [e|]; [|lra]. exfalso. apply Hn. rewrite e. apply Rabs_right. lra. }
      assert (L' : - LOGBIGBIG < x * gain / lim).
      { destruct (Req_dec (x * gain / lim) (- LOGBIGBIG)) as [e|]; [|lra]. exfalso. apply Hn. rewrite e, Rabs_Ropp. apply Rabs_right. lra. }
      destruct (near_lt _ _ _ _ DA G') as (a & b & Hab & K). destruct (near_gt _ _ _ _ DA L') as (a' & b' & Hab' & K').
      unfold tanh_pair at 2. destruct (Rlt_dec LOGBIGBIG (x * gain / lim)); [lra|].
      destruct (Rlt_dec (x * gain / lim) (- LOGBIGBIG)); [lra|]. cbn [snd].
      eapply derivable_pt_lim_locally_ext with (f := fun u => comp tanh (fun u => u * gain / lim) u * lim + 0) (a := Rmax a a') (b := Rmin b b').
      * split; [apply Rmax_lub_lt; lra | apply Rmin_glb_lt; lra].
      * intros z [Z1 Z2]. pose proof (Rmax_l a a'). pose proof (Rmax_r a a'). pose proof (Rmin_l b b'). pose proof (Rmin_r b b').
        assert (Q : a < z < b) by lra. assert (Q' : a' < z < b') by lra.
        specialize (K z Q). specialize (K' z Q'). cbv beta in K, K'. unfold tanh_pair, comp.
        destruct (Rlt_dec LOGBIGBIG (z * gain / lim)); [lra|]. destruct (Rlt_dec (z * gain / lim) (- LOGBIGBIG)); [lra|]. cbn [fst]. ring.
      * eapply d_eq. apply d_affine. apply derivable_pt_lim_comp; [exact DA | apply d_tanh].
        pose proof (cosh_pos (x * gain / lim)). field. repeat split; (assumption || lra).
Qed.

(* ---------------------------------------------------------------- posy *)
Lemma posy_terms_acc : forall t x b0 b1, 0 < x ->
  exists m, fold_left (fun acc p => let coeff := snd p * Rpower x (fst p - 1) in
    (fst acc + coeff * x, snd acc + coeff * fst p)) t (b0, b1) = (b0 + posynomial t x, b1 + m) /\
    derivable_pt_lim (posynomial t) x m.
Proof.
  induction t as [|[p c] t IH]; intros x b0 b1 Hx; cbn [fold_left posynomial].
  - exists 0. split; [f_equal; ring|]. apply derivable_pt_lim_const.
  - cbn [fst snd]. set (k := c * Rpower x (p - 1)).
    destruct (IH x (b0 + k * x) (b1 + k * p) Hx) as (m & E & D). exists (k * p + m). split.
    + etransitivity; [exact E|]. f_equal; [|ring]. assert (X : k * x = c * Rpower x p); [|rewrite X; ring].
      unfold k. replace (Rpower x p) with (Rpower x (p - 1) * x); [ring|].
      rewrite <- (Rpower_1 x) at 2 by assumption. rewrite <- Rpower_plus. f_equal. ring.
    + eapply d_eq.
      * apply (derivable_pt_lim_plus (fun u => c * Rpower u p) (posynomial t)); [|exact D].
        eapply derivable_pt_lim_ext with (f := mult_real_fct c (fun u => Rpower u p)); [intros; reflexivity|].
        apply derivable_pt_lim_scal. apply derivable_pt_lim_power. exact Hx.
      * unfold k. ring.
Qed.
Lemma posy_terms_spec : forall t x, 0 < x ->
  fst (posy_terms t x) = posynomial t x /\ derivable_pt_lim (posynomial t) x (snd (posy_terms t x)).
Proof.
  intros t x Hx. destruct (posy_terms_acc t x 0 0 Hx) as (m & E & D). change (posy_terms t x = (0 + posynomial t x, 0 + m)) in E. rewrite E. cbn [fst snd].
  split; [ring|]. replace (0 + m) with m by ring. exact D.
Qed.
Lemma posy_zero_acc : forall t b, Forall (fun p : R * R => fst p <> 0) t ->
  fold_left (fun (acc : R) (p : R * R) => if Req_EM_T (fst p) 0 then acc + 1 else acc) t b = b.
Proof.
  induction t as [|p t IH]; intros b F; cbn [fold_left]; [reflexivity|]. inversion F as [|? ? Hp Ft]; subst.
  destruct (Req_EM_T (fst p) 0); [contradiction|]. apply IH. exact Ft.
Qed.
(* the table has a value for a negative argument *)
Definition one_sided_ok (p : posy) : Prop := p_odd p = true \/ p_even p = true \/ Forall (fun q : R * R => fst q <> 0) (p_table p).
Definition no_abs (p : posy) : posy := Posy (p_min p) (p_max p) false (p_odd p) (p_even p) (p_table p).
Lemma posy_raw_abs : forall p x, posy_raw p x =
  let v := posy_raw (no_abs p) x in
  if p_abs p && (if Rlt_dec (fst v) 0 then true else false) then (- fst v, - snd v) else v.
Proof.
  intros p x. unfold posy_raw, no_abs. cbn [p_abs p_odd p_even p_table andb]. cbv zeta.
  match goal with |- context [if Rlt_dec 0 ?y then _ else _] => destruct (Rlt_dec 0 y) end.
  - destruct (posy_terms (p_table p) _) as [v0 v1]. cbn [fst snd]. reflexivity.
  - cbn [fst snd]. reflexivity.
Qed.
Lemma signed_value : forall p x, x <> 0 -> one_sided_ok p -> p_odd p && p_even p = false ->
  fst (posy_raw (no_abs p) x) = continued p x.
Proof.
  intros p x Hx Hz Hoe. unfold posy_raw, no_abs, continued. cbn [p_abs p_odd p_even p_table andb].
  destruct (Rlt_dec x 0) as [N|N].
  - destruct (p_odd p) eqn:O; [|destruct (p_even p) eqn:E]; cbn [orb andb].
    + destruct (Rlt_dec 0 (- x)); [|lra].
      destruct (posy_terms_spec (p_table p) (- x)) as [V _]; [lra|]. destruct (posy_terms (p_table p) (- x)) as [v0 v1]. cbn [fst snd] in *.
      rewrite V. reflexivity.
    + destruct (Rlt_dec 0 (- x)); [|lra].
      destruct (posy_terms_spec (p_table p) (- x)) as [V _]; [lra|]. destruct (posy_terms (p_table p) (- x)) as [v0 v1]. cbn [fst snd] in *.
      rewrite V. reflexivity.
    + destruct (Rlt_dec 0 0); [lra|]. cbn [fst]. unfold posy_zero. apply posy_zero_acc.
      destruct Hz as [Hz|[Hz|Hz]]; congruence.
  - destruct (Rlt_dec 0 x); [|lra].
    destruct (posy_terms_spec (p_table p) x) as [V _]; [lra|]. destruct (posy_terms (p_table p) x) as [v0 v1]. cbn [fst snd] in *.
    rewrite !andb_false_r. cbn [fst]. exact V.
Qed.
Lemma signed_slope : forall p x, x <> 0 -> one_sided_ok p -> p_odd p && p_even p = false ->
  derivable_pt_lim (continued p) x (snd (posy_raw (no_abs p) x)).
Proof.
  intros p x Hx Hz Hoe. unfold posy_raw, no_abs. cbn [p_abs p_odd p_even p_table andb].
  destruct (Rlt_dec x 0) as [N|N].
  - assert (MIRROR : forall l, derivable_pt_lim (posynomial (p_table p)) (- x) l -> derivable_pt_lim (fun u => posynomial (p_table p) (- u)) x (- l)).
    { intros l D. eapply d_eq. apply (derivable_pt_lim_comp (fun u => - u) (posynomial (p_table p))); [|exact D].
      apply (derivable_pt_lim_opp id). apply derivable_pt_lim_id. ring. }
    destruct (p_odd p) eqn:O; [|destruct (p_even p) eqn:E]; cbn [orb andb].
    + destruct (Rlt_dec 0 (- x)); [|lra].
      destruct (posy_terms_spec (p_table p) (- x)) as [_ D]; [lra|]. destruct (posy_terms (p_table p) (- x)) as [v0 v1]. cbn [fst snd] in *.
      assert (E : p_even p = false) by (destruct (p_even p); [discriminate|reflexivity]). rewrite E. cbn [snd andb].
      eapply derivable_pt_lim_locally_ext with (f := fun u => - posynomial (p_table p) (- u)) (a := x - 1) (b := 0); [lra| |].
      * intros z Hzz. unfold continued. rewrite O. destruct (Rlt_dec z 0); [reflexivity|lra].
      * eapply d_eq. apply (derivable_pt_lim_opp (fun u => posynomial (p_table p) (- u))). apply MIRROR. exact D. ring.
    + destruct (Rlt_dec 0 (- x)); [|lra].
      destruct (posy_terms_spec (p_table p) (- x)) as [_ D]; [lra|]. destruct (posy_terms (p_table p) (- x)) as [v0 v1]. cbn [fst snd] in *.
      eapply derivable_pt_lim_locally_ext with (f := fun u => posynomial (p_table p) (- u)) (a := x - 1) (b := 0); [lra| |].
      * intros z Hzz. unfold continued. rewrite O, E. destruct (Rlt_dec z 0); [reflexivity|lra].
      * apply MIRROR. exact D.
    + destruct (Rlt_dec 0 0); [lra|]. cbn [snd].
      eapply derivable_pt_lim_locally_ext with (f := fct_cte 0) (a := x - 1) (b := 0); [lra| |apply derivable_pt_lim_const].
      intros z Hzz. unfold continued. rewrite O, E. destruct (Rlt_dec z 0); [reflexivity|lra].
  - destruct (Rlt_dec 0 x); [|lra].
    destruct (posy_terms_spec (p_table p) x) as [_ D]; [lra|]. destruct (posy_terms (p_table p) x) as [v0 v1]. cbn [fst snd] in *.
    rewrite !andb_false_r. cbn [snd].
    eapply derivable_pt_lim_locally_ext with (f := posynomial (p_table p)) (a := 0) (b := x + 1); [lra| |exact D].
    intros z Hzz. unfold continued. destruct (Rlt_dec z 0); [lra|reflexivity].
Qed.
Lemma raw_value : forall p x, x <> 0 -> one_sided_ok p -> p_odd p && p_even p = false ->
  fst (posy_raw p x) = rectified p x.
Proof.
  intros p x Hx Hz Hoe. rewrite posy_raw_abs. cbv zeta. rewrite signed_value by assumption.
  unfold rectified. destruct (p_abs p); cbn [andb]; [|apply signed_value; assumption].
  destruct (Rlt_dec (continued p x) 0); cbn [fst].
  - rewrite Rabs_left by assumption. reflexivity.
  - rewrite signed_value by assumption. rewrite Rabs_right by lra. reflexivity.
Qed.
Lemma raw_slope : forall p x, x <> 0 -> one_sided_ok p -> p_odd p && p_even p = false ->
  (p_abs p = true -> continued p x <> 0) -> derivable_pt_lim (rectified p) x (snd (posy_raw p x)).
Proof.
  intros p x Hx Hz Hoe Ha. pose proof (signed_slope p x Hx Hz Hoe) as D. rewrite posy_raw_abs. cbv zeta.
  rewrite signed_value by assumption. destruct (p_abs p) eqn:A; cbn [andb].
  - specialize (Ha eq_refl). destruct (Rlt_dec (continued p x) 0) as [N|N]; cbn [snd].
    + destruct (near_lt _ _ _ _ D N) as (a & b & Hab & K).
      eapply derivable_pt_lim_locally_ext with (f := fun u => continued p u * (-1) + 0) (a := a) (b := b); [exact Hab| |].
      * intros z Hzz. unfold rectified. rewrite A. specialize (K z Hzz). rewrite Rabs_left by exact K. ring.
      * eapply d_eq. apply d_affine. exact D. ring.
    + assert (P : 0 < continued p x) by lra. destruct (near_gt _ _ _ _ D P) as (a & b & Hab & K).
      eapply derivable_pt_lim_locally_ext with (f := continued p) (a := a) (b := b); [exact Hab| |exact D].
      intros z Hzz. unfold rectified. rewrite A. specialize (K z Hzz). rewrite Rabs_right by lra. reflexivity.
  - eapply derivable_pt_lim_ext; [|exact D]. intros z. unfold rectified. rewrite A. reflexivity.
Qed.
Lemma clip_value : forall p x v1, p_min p <= p_max p ->
  fst (posy_clip p (rectified p x, v1)) = clipped p x.
Proof.
  intros p x v1 H. unfold posy_clip, clipped. cbn [fst].
  destruct (Rlt_dec (p_max p) (rectified p x)); [cbn [fst]; rewrite Rmin_left; [reflexivity | eapply Rle_trans; [|apply Rmax_r]; lra]|].
  destruct (Rlt_dec (rectified p x) (p_min p)); cbn [fst].
  - rewrite Rmax_left by lra. rewrite Rmin_right by lra. reflexivity.
  - rewrite Rmax_right by lra. rewrite Rmin_right by lra. reflexivity.
Qed.
Lemma clip_slope : forall p x v1, p_min p <= p_max p -> rectified p x <> p_max p -> rectified p x <> p_min p ->
  derivable_pt_lim (rectified p) x v1 ->
  derivable_pt_lim (clipped p) x (snd (posy_clip p (rectified p x, v1))).
Proof.
  intros p x v1 H Hmx Hmn D. unfold posy_clip. cbn [fst].
  destruct (Rlt_dec (p_max p) (rectified p x)) as [G|G]; cbn [snd].
  - destruct (near_gt _ _ _ _ D G) as (a & b & Hab & K).
    eapply derivable_pt_lim_locally_ext with (f := fct_cte (p_max p)) (a := a) (b := b); [exact Hab| |apply derivable_pt_lim_const].
    intros z Hz. specialize (K z Hz). unfold clipped, fct_cte. rewrite Rmin_left; [reflexivity|]. eapply Rle_trans; [|apply Rmax_r]. lra.
  - destruct (Rlt_dec (rectified p x) (p_min p)) as [L|L]; cbn [snd].
    + destruct (near_lt _ _ _ _ D L) as (a & b & Hab & K).
      eapply derivable_pt_lim_locally_ext with (f := fct_cte (p_min p)) (a := a) (b := b); [exact Hab| |apply derivable_pt_lim_const].
      intros z Hz. specialize (K z Hz). unfold clipped, fct_cte. rewrite Rmax_left by lra. rewrite Rmin_right by lra. reflexivity.
    + assert (G' : rectified p x < p_max p) by lra. assert (L' : p_min p < rectified p x) by lra.
      destruct (near_lt _ _ _ _ D G') as (a & b & Hab & K). destruct (near_gt _ _ _ _ D L') as (a' & b' & Hab' & K').
      eapply derivable_pt_lim_locally_ext with (f := rectified p) (a := Rmax a a') (b := Rmin b b'); [| |exact D].
      * split; [apply Rmax_lub_lt; lra | apply Rmin_glb_lt; lra].
      * intros z [Z1 Z2]. pose proof (Rmax_l a a'). pose proof (Rmax_r a a'). pose proof (Rmin_l b b'). pose proof (Rmin_r b b').
        assert (Q : a < z < b) by lra. assert (Q' : a' < z < b') by lra. specialize (K z Q). specialize (K' z Q').
        unfold clipped. rewrite Rmax_right by lra. rewrite Rmin_right by lra. reflexivity.
Qed.

(* ---------------------------------------------------------------- exp *)
Lemma rise_decay : forall t tau, rise t tau = if Rlt_dec 0 t then 1 - decay t tau else 0.
Proof.
  intros t tau. unfold rise, decay. destruct (Rlt_dec 0 t); [|reflexivity]. destruct (Req_EM_T tau 0); [ring|].
  replace (- t / tau) with (- (t / tau)) by (field; assumption). reflexivity.
Qed.
Lemma exp_body_pulse : forall e t ev, exp_body e t ev = ev + pulse e t.
Proof.
  intros e t ev. unfold exp_body, pulse. rewrite !rise_decay.
  destruct (Rlt_dec (e_td1 e) t); destruct (Rlt_dec 0 (t - e_td1 e)); try lra;
    destruct (Rlt_dec (e_td2 e) t); destruct (Rlt_dec 0 (t - e_td2 e)); try lra; ring.
Qed.
Lemma exp_loop_sum : forall n fuel e t ev, 0 < e_period e -> INR n * e_period e <= t < INR (Datatypes.S n) * e_period e -> (n < fuel)%nat ->
  exp_loop fuel e t ev = Some (ev + sum_f_R0 (fun k => pulse e (t - INR k * e_period e)) n).
Proof.
  induction n as [|n IH]; intros fuel e t ev HP Ht Hf.
  - destruct fuel as [|fuel]; [lia|]. cbn [INR] in Ht. cbn [exp_loop sum_f_R0 INR].
    destruct (Rle_dec 0 t); [|lra]. rewrite exp_body_pulse.
    assert (E : exp_loop fuel e (t - e_period e) (ev + pulse e t) = Some (ev + pulse e t)).
    { destruct fuel; cbn [exp_loop]; destruct (Rle_dec 0 (t - e_period e)); try reflexivity; lra. }
    rewrite E. f_equal. f_equal. f_equal. ring.
  - destruct fuel as [|fuel]; [lia|]. cbn [exp_loop].
    assert (0 <= INR n) by apply pos_INR. rewrite (S_INR (Datatypes.S n)), (S_INR n) in Ht.
    destruct (Rle_dec 0 t) as [_|Hn]; [|exfalso; apply Hn; nra].
    rewrite IH; [|exact HP| rewrite (S_INR n); nra |lia]. f_equal. rewrite exp_body_pulse.
    rewrite (decomp_sum _ (Datatypes.S n)) by lia. cbn [pred]. rewrite Rplus_assoc. f_equal. f_equal.
    + f_equal. cbn [INR]. ring.
    + apply sum_eq. intros i _. f_equal. rewrite S_INR. ring.
Qed.
Lemma exp_loop_endless : forall fuel e t ev, e_period e <= 0 -> 0 <= t -> exp_loop fuel e t ev = None.
Proof.
  induction fuel as [|fuel IH]; intros e t ev HP Ht; cbn [exp_loop]; destruct (Rle_dec 0 t); try lra; [reflexivity|].
  apply IH; [assumption|lra].
Qed.

(* ---------------------------------------------------------------- floor *)
Lemma floor_spec : forall x, floor x <= x < floor x + 1.
Proof. intros. unfold floor. destruct (base_Int_part x). lra. Qed.
Lemma floor_unique : forall x z, IZR z <= x < IZR z + 1 -> floor x = IZR z.
Proof. intros x z H. unfold floor. f_equal. unfold Int_part.
  rewrite <- (tech_up x (z + 1)); [lia | rewrite plus_IZR; lra | rewrite plus_IZR; lra]. Qed.
Lemma between : forall m n : Z, IZR m < IZR n -> IZR m + 1 <= IZR n.
Proof. intros m n H. apply lt_IZR in H. rewrite <- plus_IZR. apply IZR_le. lia. Qed.
Lemma fmod_spec : forall x p, 0 < p -> 0 <= fmod x p < p /\ exists q : Z, x - fmod x p = p * IZR q.
Proof.
  intros x p Hp. unfold fmod. pose proof (floor_spec (x / p)) as F. unfold floor in F.
  assert (E : x = p * (x / p)) by (field; lra). split; [|exists (Int_part (x / p)); ring].
  set (q := IZR (Int_part (x / p))) in *. set (r := x / p) in *. rewrite E. nra.
Qed.
