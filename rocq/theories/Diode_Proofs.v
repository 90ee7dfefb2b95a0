(* Proofs about the diode: derivatives of the laws and of the pieces the code evaluates, and the iteration. *)
Require Import Reals ZArith Bool Lra Lia.
Require Import Verif.Loops Verif.Diode_Model.
Local Open Scope R_scope.

(* ---------------------------------------------------------------- what the manual says of a junction *)
(* the law of a junction *)
Definition law (isat vt v : R) : R := isat * (exp (v / vt) - 1).
(* a diode of spice: the law down to three times vt below zero, then a cubic tail to the saturation current *)
Definition spice_law (isat vt v : R) : R :=
  if Rle_dec (-3 * vt) v then law isat vt v else - isat * (1 + (3 * vt / (v * exp 1)) ^ 3).
(* the junctions of mos transistors: a resistor in reverse, or the tangent at half a volt beyond half a volt *)
Definition mos_law16 (isat vt v : R) : R := if Rle_dec v 0 then isat / vt * v else law isat vt v.
Definition mos_law78 (isat vt v : R) : R :=
  if Rlt_dec v (1/2) then law isat vt v else law isat vt (1/2) + isat * exp (1/2 / vt) / vt * (v - 1/2).

(* ---------------------------------------------------------------- derivatives *)
Lemma d_eq : forall f x l l', derivable_pt_lim f x l -> l = l' -> derivable_pt_lim f x l'.
Proof. intros; subst; assumption. Qed.

(* two pieces that agree at the joint in value and slope *)
Lemma glue : forall (f g h : R -> R) a l,
  (forall x, x < a -> f x = g x) -> (forall x, a < x -> f x = h x) -> f a = g a -> f a = h a ->
  derivable_pt_lim g a l -> derivable_pt_lim h a l -> derivable_pt_lim f a l.
Proof.
  intros f g h a l Hg Hh Ag Ah Dg Dh eps He.
  destruct (Dg eps He) as [d1 H1]. destruct (Dh eps He) as [d2 H2].
  assert (Hd : 0 < Rmin d1 d2) by (apply Rmin_pos; [apply (cond_pos d1) | apply (cond_pos d2)]).
  exists (mkposreal _ Hd). intros t Ht Hlt. cbn in Hlt.
  destruct (Rlt_dec t 0).
  - rewrite Hg by lra. rewrite Ag. apply H1; [assumption|]. eapply Rlt_le_trans; [exact Hlt|apply Rmin_l].
  - rewrite Hh by lra. rewrite Ah. apply H2; [assumption|]. eapply Rlt_le_trans; [exact Hlt|apply Rmin_r].
Qed.
Lemma glue_left : forall (f g : R -> R) a x l, (forall y, y < a -> f y = g y) -> x < a ->
  derivable_pt_lim g x l -> derivable_pt_lim f x l.
Proof.
  intros f g a x l H Hx D.
  eapply (derivable_pt_lim_locally_ext g f x (x - 1) a); [lra | | exact D]. intros z Hz. symmetry. apply H. lra.
Qed.
Lemma glue_right : forall (f g : R -> R) a x l, (forall y, a < y -> f y = g y) -> a < x ->
  derivable_pt_lim g x l -> derivable_pt_lim f x l.
Proof.
  intros f g a x l H Hx D.
  eapply (derivable_pt_lim_locally_ext g f x a (x + 1)); [lra | | exact D]. intros z Hz. symmetry. apply H. lra.
Qed.

Lemma d_lin : forall k c x, derivable_pt_lim (fun v => k * v + c) x k.
Proof.
  intros k c x.
  eapply d_eq. apply (derivable_pt_lim_plus (fun v => k * v) (fun _ => c)).
  - apply (derivable_pt_lim_scal (fun v => v)). apply derivable_pt_lim_id.
  - apply derivable_pt_lim_const.
  - ring.
Qed.

Lemma d_law : forall isat vt x, vt <> 0 -> derivable_pt_lim (law isat vt) x (isat * exp (x / vt) / vt).
Proof.
  intros isat vt x Hv. unfold law.
  eapply d_eq. apply (derivable_pt_lim_scal (fun v => exp (v / vt) - 1)).
  apply (derivable_pt_lim_minus (fun v => exp (v / vt)) (fun _ => 1)).
  - apply (derivable_pt_lim_comp (fun v => v / vt) exp).
    + apply (derivable_pt_lim_ext (fun v => / vt * v + 0)); [intro; field; exact Hv|]. apply d_lin.
    + apply derivable_pt_lim_exp.
  - apply derivable_pt_lim_const.
  - field. exact Hv.
Qed.

Lemma d_plus : forall (f h g : R -> R) x a b, (forall v, h v = f v + g v) -> derivable_pt_lim f x a -> derivable_pt_lim g x b ->
  derivable_pt_lim h x (a + b).
Proof.
  intros f h g x a b H Da Db. apply (derivable_pt_lim_ext (f + g)%F); [intro; symmetry; apply H|].
  apply derivable_pt_lim_plus; assumption.
Qed.

Lemma d_cubic : forall isat vt x, x <> 0 ->
  derivable_pt_lim (fun v => - isat * (1 + (3 * vt / (v * exp 1)) ^ 3)) x (isat * 3 * (3 * vt / (x * exp 1)) ^ 3 / x).
Proof.
  intros isat vt x Hx. pose proof (exp_pos 1) as He.
  set (k := - isat * (3 * vt / exp 1) ^ 3).
  set (q := (fct_cte 1 / (fun v => v ^ 3))%F).
  assert (D : derivable_pt_lim q x ((0 * x ^ 3 - (INR 3 * x ^ 2) * fct_cte 1 x) / Rsqr (x ^ 3))).
  { apply (derivable_pt_lim_div (fct_cte 1) (fun v => v ^ 3)).
    - apply derivable_pt_lim_const.
    - apply (derivable_pt_lim_pow x 3).
    - apply pow_nonzero; assumption. }
  assert (D2 : derivable_pt_lim (fun v => k * q v + (- isat)) x (k * ((0 * x ^ 3 - (INR 3 * x ^ 2) * fct_cte 1 x) / Rsqr (x ^ 3)) + 0)).
  { apply (derivable_pt_lim_plus (fun v => k * q v) (fun _ => - isat)).
    - apply derivable_pt_lim_scal. exact D.
    - apply derivable_pt_lim_const. }
  destruct (Rlt_dec 0 x) as [P|P].
  - eapply (glue_right _ (fun v => k * q v + - isat) 0); [|exact P|].
    + intros y Hy. unfold k, q, div_fct, fct_cte. field. split; lra.
    + eapply d_eq; [exact D2|]. unfold k, Rsqr, fct_cte. cbn [INR]. field. split; lra.
  - eapply (glue_left _ (fun v => k * q v + - isat) 0); [|lra|].
    + intros y Hy. unfold k, q, div_fct, fct_cte. field. split; lra.
    + eapply d_eq; [exact D2|]. unfold k, Rsqr, fct_cte. cbn [INR]. field. split; lra.
Qed.

Lemma exp_m3 : exp (- (3)) = / (exp 1) ^ 3.
Proof.
  rewrite exp_Ropp. f_equal. replace 3 with (1 + (1 + 1)) by ring. rewrite !exp_plus. ring.
Qed.

Definition spice_slope (isat vt v : R) : R :=
  if Rle_dec (-3 * vt) v then isat * exp (v / vt) / vt else isat * 3 * (3 * vt / (v * exp 1)) ^ 3 / v.
Lemma d_spice : forall isat vt x, 0 < vt -> derivable_pt_lim (spice_law isat vt) x (spice_slope isat vt x).
Proof.
  intros isat vt x Hv. pose proof (exp_pos 1) as He. unfold spice_slope.
  destruct (Rle_dec (-3 * vt) x) as [H|H].
  - destruct (Rle_lt_or_eq_dec _ _ H) as [L|E].
    + eapply (glue_right _ (law isat vt) (-3 * vt)); [|exact L|apply d_law; lra].
      intros y Hy. unfold spice_law. destruct (Rle_dec (-3 * vt) y); [reflexivity|lra].
    + eapply (glue _ (fun v => - isat * (1 + (3 * vt / (v * exp 1)) ^ 3)) (law isat vt)).
      * intros y Hy. unfold spice_law. destruct (Rle_dec (-3 * vt) y); [lra|reflexivity].
      * intros y Hy. unfold spice_law. destruct (Rle_dec (-3 * vt) y); [reflexivity|lra].
      * unfold spice_law. destruct (Rle_dec (-3 * vt) x); [|lra]. unfold law.
        replace (x / vt) with (- (3)) by (rewrite <- E; field; lra). rewrite exp_m3. rewrite <- E. field. split; lra.
      * unfold spice_law. destruct (Rle_dec (-3 * vt) x); [|lra]. reflexivity.
      * eapply d_eq; [apply d_cubic; lra|].
        replace (x / vt) with (- (3)) by (rewrite <- E; field; lra). rewrite exp_m3. rewrite <- E. field. repeat split; lra.
      * apply d_law. lra.
  - eapply (glue_left _ (fun v => - isat * (1 + (3 * vt / (v * exp 1)) ^ 3)) (-3 * vt)); [|lra|apply d_cubic; lra].
    intros y Hy. unfold spice_law. destruct (Rle_dec (-3 * vt) y); [lra|reflexivity].
Qed.
Lemma spice_slope_pos : forall isat vt x, 0 < vt -> 0 < isat -> 0 < spice_slope isat vt x.
Proof.
  intros isat vt x Hv Hi. pose proof (exp_pos 1) as He. unfold spice_slope. destruct (Rle_dec (-3 * vt) x).
  - apply Rdiv_lt_0_compat; [|assumption]. apply Rmult_lt_0_compat; [assumption|apply exp_pos].
  - replace (isat * 3 * (3 * vt / (x * exp 1)) ^ 3 / x) with (isat * 3 * (3 * vt / exp 1) ^ 3 * / ((x * x) * (x * x))) by (field; lra).
    apply Rmult_lt_0_compat.
    + apply Rmult_lt_0_compat; [lra|]. apply pow_lt. apply Rdiv_lt_0_compat; lra.
    + apply Rinv_0_lt_compat. assert (0 < x * x) by nra. apply Rmult_lt_0_compat; assumption.
Qed.

Definition mos_slope16 (isat vt v : R) : R := if Rle_dec v 0 then isat / vt else isat * exp (v / vt) / vt.
Lemma d_mos16 : forall isat vt x, 0 < vt -> derivable_pt_lim (mos_law16 isat vt) x (mos_slope16 isat vt x).
Proof.
  intros isat vt x Hv. unfold mos_slope16.
  destruct (Rle_dec x 0) as [H|H].
  - destruct (Rle_lt_or_eq_dec _ _ H) as [L|E].
    + eapply (glue_left _ (fun v => isat / vt * v + 0) 0); [|exact L|apply d_lin].
      intros y Hy. unfold mos_law16. destruct (Rle_dec y 0); lra.
    + subst x. eapply (glue _ (fun v => isat / vt * v + 0) (law isat vt)).
      * intros y Hy. unfold mos_law16. destruct (Rle_dec y 0); lra.
      * intros y Hy. unfold mos_law16. destruct (Rle_dec y 0); lra.
      * unfold mos_law16. destruct (Rle_dec 0 0); lra.
      * unfold mos_law16, law. destruct (Rle_dec 0 0); [|lra]. unfold Rdiv. rewrite Rmult_0_l, exp_0. ring.
      * apply d_lin.
      * eapply d_eq; [apply d_law; lra|]. unfold Rdiv. rewrite Rmult_0_l, exp_0. ring.
  - eapply (glue_right _ (law isat vt) 0); [|lra|apply d_law; lra].
    intros y Hy. unfold mos_law16. destruct (Rle_dec y 0); lra.
Qed.
Definition mos_slope78 (isat vt v : R) : R := if Rlt_dec v (1/2) then isat * exp (v / vt) / vt else isat * exp (1/2 / vt) / vt.
Lemma d_mos78 : forall isat vt x, 0 < vt -> derivable_pt_lim (mos_law78 isat vt) x (mos_slope78 isat vt x).
Proof.
  intros isat vt x Hv. unfold mos_slope78.
  set (t0 := isat * exp (1/2 / vt) / vt). set (k := law isat vt (1/2) - t0 * (1/2)).
  destruct (Rlt_dec x (1/2)) as [H|H].
  - eapply (glue_left _ (law isat vt) (1/2)); [|exact H|apply d_law; lra].
    intros y Hy. unfold mos_law78. destruct (Rlt_dec y (1/2)); [reflexivity|lra].
  - destruct (Rle_lt_or_eq_dec (1/2) x) as [L|E]; [lra| |].
    + eapply (glue_right _ (fun v => t0 * v + k) (1/2)); [|exact L|apply d_lin].
      intros y Hy. unfold mos_law78. destruct (Rlt_dec y (1/2)); [lra|]. unfold k, t0. ring.
    + subst x. eapply (glue _ (law isat vt) (fun v => t0 * v + k)).
      * intros y Hy. unfold mos_law78. destruct (Rlt_dec y (1/2)); [reflexivity|lra].
      * intros y Hy. unfold mos_law78. destruct (Rlt_dec y (1/2)); [lra|]. unfold k, t0. ring.
      * unfold mos_law78. destruct (Rlt_dec (1/2) (1/2)); [lra|]. ring.
      * unfold mos_law78. destruct (Rlt_dec (1/2) (1/2)); [lra|]. unfold k, t0. ring.
      * apply d_law. lra.
      * apply d_lin.
Qed.

(* a function with a positive slope everywhere rises *)
Lemma rising : forall (f d : R -> R), (forall x, derivable_pt_lim f x (d x)) -> (forall x, 0 < d x) -> forall a b, a < b -> f a < f b.
Proof.
  intros f d D P a b H.
  assert (pr : derivable f) by (intro x; exists (d x); apply D).
  apply (positive_derivative f pr); [|exact H].
  intro x. rewrite (derive_pt_eq_0 f x (d x) (pr x) (D x)). apply P.
Qed.

(* ---------------------------------------------------------------- logarithm *)
Lemma ln_le_minus : forall r, 0 < r -> ln r <= r - 1.
Proof.
  intros r H. replace r with (exp (ln r)) at 2 by (apply exp_ln; assumption).
  pose proof (exp_ineq1_le (ln r)). lra.
Qed.
Lemma ln_lt_minus : forall r, 0 < r -> r <> 1 -> ln r < r - 1.
Proof.
  intros r H N. replace r with (exp (ln r)) at 2 by (apply exp_ln; assumption).
  assert (ln r <> 0). { intro E. apply N. rewrite <- (exp_ln r H), E. apply exp_0. }
  pose proof (exp_ineq1 (ln r) H0). lra.
Qed.
Lemma ln_ge_inv : forall r, 0 < r -> 1 - / r <= ln r.
Proof.
  intros r H. pose proof (ln_le_minus (/ r) (Rinv_0_lt_compat _ H)) as L. rewrite ln_Rinv in L by assumption. lra.
Qed.
Lemma ln_gt_inv : forall r, 0 < r -> r <> 1 -> 1 - / r < ln r.
Proof.
  intros r H N.
  assert (/ r <> 1). { intro E. apply N. rewrite <- (Rinv_inv r). rewrite E. apply Rinv_1. }
  pose proof (ln_lt_minus (/ r) (Rinv_0_lt_compat _ H) H0) as L. rewrite ln_Rinv in L by assumption. lra.
Qed.

(* ---------------------------------------------------------------- the pieces of the code *)
(* thermal voltage times emission coefficient, and saturation current, in kelvin *)
Definition kelvin (t : R) : R := t + 273.15.
Definition vth (m : model) (e : sim) : R := 1.3806226e-23 * kelvin (temp_c e) * n_factor m / 1.6021918e-19.
Definition sat (m : model) (c : common) (e : sim) : R :=
  is_adjusted c * Rpower (kelvin (temp_c e) / kelvin (tnom_c m)) (xti m)
  * exp (eg m / vth m e * (kelvin (temp_c e) / kelvin (tnom_c m) - 1)).
(* what a diode card must satisfy to be a diode: the parameters are positive, and so are the temperatures *)
Definition good (m : model) (c : common) (e : sim) : Prop :=
  0 < is_adjusted c /\ 0 < n_factor m /\ 0 < kelvin (temp_c e) /\ 0 < kelvin (tnom_c m).

Lemma vt_vth : forall m e, vt_of m e = vth m e.
Proof. intros. unfold vt_of, vth, P_K_Q, P_K, P_Q, P_CELSIUS0, kelvin. field. lra. Qed.
Lemma vth_pos : forall m c e, good m c e -> 0 < vth m e.
Proof.
  intros m c e (_ & Hn & Ht & _). unfold vth. apply Rdiv_lt_0_compat; [|lra].
  apply Rmult_lt_0_compat; [apply Rmult_lt_0_compat; lra|assumption].
Qed.
Lemma sat_pos : forall m c e, good m c e -> 0 < sat m c e.
Proof.
  intros m c e (Hi & _ & Ht & Hn). unfold sat.
  apply Rmult_lt_0_compat; [|apply exp_pos]. apply Rmult_lt_0_compat; [assumption|]. apply exp_pos.
Qed.
Lemma isat_sat : forall m c e, good m c e -> isat_of m c e = Some (sat m c e).
Proof.
  intros m c e (Hi & _ & Ht & Hn). unfold isat_of, fpow, tempratio. rewrite vt_vth.
  change (temp_c e + P_CELSIUS0) with (kelvin (temp_c e)). change (tnom_c m + P_CELSIUS0) with (kelvin (tnom_c m)).
  destruct (Rlt_dec 0 (kelvin (temp_c e) / kelvin (tnom_c m))) as [_|N]; [reflexivity|].
  exfalso. apply N. apply Rdiv_lt_0_compat; assumption.
Qed.

(* the flags in force: those of the card, or of the option when the card has none (0x8000) *)
Definition asked (m : model) (e : sim) : Z := if Z.testbit (m_flags m) 15 then diodeflags e else m_flags m.
(* the diode in its own style: not a part of a mos transistor, flags 040 to 0400 clear *)
Definition plain (m : model) (e : sim) : Prop :=
  (mos_level m <= 0)%Z /\ Z.testbit (asked m e) 5 = false /\ Z.testbit (asked m e) 6 = false /\
  Z.testbit (asked m e) 7 = false /\ Z.testbit (asked m e) 8 = false.
Definition started (c : common) (e : sim) : Prop := off c = false \/ initial_step e = false.

Lemma plain_eval : forall ni m c e old vold y, good m c e -> plain m e -> started c e ->
  eval_Yj ni m c e old vold y =
  (let* (r, ic) := own_junction (asked m e) false (gmin e) (vth m e) (sat m c e) (fx y) (f0 y) in
   Some (r, Fp (fx y) (fst ic + gparallel c * fx y) (snd ic + gparallel c))).
Proof.
  intros ni m c e old vold y G (Hm & H5 & H6 & H7 & H8) St. unfold eval_Yj. change (flags m e) with (asked m e).
  rewrite (isat_sat m c e G), vt_vth. cbn [bind]. rewrite H5.
  assert (Hl : Z.ltb 0 (mos_level m) = false) by (apply Z.ltb_ge; exact Hm). rewrite Hl. cbn [orb bind].
  assert (Ho : (off c && initial_step e)%bool = false) by (destruct St as [E|E]; rewrite E; [reflexivity|apply andb_false_r]).
  rewrite Ho. destruct (own_junction _ _ _ _ _ _ _) as [[r [i g]]|]; [|reflexivity]. cbn [bind].
  unfold extras. rewrite H6, H7, H8. reflexivity.
Qed.

(* the forward iteration: the number s = 1 + amps / isat becomes s (1 + x/vt - log s) *)
Lemma forward_step : forall fl g vt isat x a, 0 < x -> 0 <= a -> 0 < isat -> 0 < vt ->
  exists i, own_junction fl false g vt isat x a = Some (FORWARD, (i, (isat + a) / vt)) /\
    isat + i = (isat + a) * (1 + x / vt - ln (a / isat + 1)).
Proof.
  intros fl g vt isat x a Hx Ha Hi Hv. unfold own_junction.
  destruct (Rle_dec x 0); [lra|]. destruct (Rle_dec 0 a); [|lra].
  unfold flog. destruct (Rlt_dec 0 (a / isat + 1)) as [L|L].
  - cbn [bind]. eexists. split; [reflexivity|]. field. lra.
  - exfalso. apply L. assert (0 <= a / isat) by (apply Rmult_le_pos; [assumption|left; apply Rinv_0_lt_compat; assumption]). lra.
Qed.

(* r = s exp(-x/vt), at 1 when the current is right: r (1 - log r) *)
Lemma newton_step : forall r, 0 < r -> r <= 1 -> r <= r * (1 - ln r) <= 1 /\ 1 - r * (1 - ln r) <= (1 - r) ^ 2.
Proof.
  intros r H H1. pose proof (ln_le_minus r H). pose proof (ln_ge_inv r H).
  assert (r * / r = 1) by (apply Rinv_r; lra).
  split; [split|]; try nra.
Qed.
Lemma newton_first : forall r, 0 < r -> r * (1 - ln r) <= 1.
Proof.
  intros r H. pose proof (ln_ge_inv r H). assert (r * / r = 1) by (apply Rinv_r; lra). nra.
Qed.

(* the square of a number below one goes to zero under iteration *)
Lemma squares : forall (d : nat -> R), 0 <= d O < 1 -> (forall n, 0 <= d (S n) <= (d n) ^ 2) ->
  forall n, 0 <= d n <= (d O) ^ n * d O.
Proof.
  intros d H0 H. induction n as [|n IH]; [cbn; lra|].
  split; [apply H|]. eapply Rle_trans; [apply H|]. cbn [pow]. rewrite Rmult_1_r.
  assert (P : (d O) ^ n <= 1) by (rewrite <- (pow1 n); apply pow_incr; lra).
  assert (Q : d n <= d O). { destruct IH as [_ IH]. assert (0 <= d O ^ n) by (apply pow_le; lra). nra. }
  destruct IH as [IH0 IH]. apply Rle_trans with (d O * d n).
  - apply Rmult_le_compat_r; assumption.
  - rewrite Rmult_assoc. apply Rmult_le_compat_l; [lra|exact IH].
Qed.
Lemma squares_limit : forall (d : nat -> R), 0 <= d O < 1 -> (forall n, 0 <= d (S n) <= (d n) ^ 2) -> Un_cv d 0.
Proof.
  intros d H0 H eps He.
  destruct (Req_dec (d O) 0) as [E|E].
  - exists O. intros n _. pose proof (squares d H0 H n) as B. rewrite E in B. rewrite Rmult_0_r in B.
    unfold R_dist. rewrite Rminus_0_r. rewrite Rabs_right; lra.
  - destruct (pow_lt_1_zero (d O)) with (y := eps) as [N HN]; [rewrite Rabs_right; lra|assumption|].
    exists N. intros n Hn. specialize (HN n Hn). pose proof (squares d H0 H n) as B.
    unfold R_dist. rewrite Rminus_0_r. rewrite Rabs_right by lra.
    assert (0 <= d O ^ n) by (apply pow_le; lra). rewrite Rabs_right in HN by lra. nra.
Qed.

(* ---------------------------------------------------------------- the other styles *)
(* flags 040, or a junction of a mos transistor *)
Definition style (m : model) (e : sim) : Prop :=
  ((mos_level m <= 0)%Z /\ Z.testbit (asked m e) 5 = true) \/ (1 <= mos_level m <= 8)%Z.
(* the curve of each style *)
Definition curve (m : model) (c : common) (e : sim) (v : R) : R :=
  (if Z.leb (mos_level m) 0 then spice_law else if Z.leb (mos_level m) 6 then mos_law16 else mos_law78) (sat m c e) (vth m e) v + gmin e * v.
Definition curve_slope (m : model) (c : common) (e : sim) (v : R) : R :=
  (if Z.leb (mos_level m) 0 then spice_slope else if Z.leb (mos_level m) 6 then mos_slope16 else mos_slope78) (sat m c e) (vth m e) v + gmin e.
(* the voltage from which the limit works *)
Definition vcrit (m : model) (c : common) (e : sim) : R := vth m e * ln (vth m e / (sqrt 2 * sat m c e)).

Lemma sqrt2_pos : 0 < sqrt 2. Proof. apply sqrt_lt_R0. lra. Qed.
Lemma d_curve : forall m c e x, good m c e -> derivable_pt_lim (curve m c e) x (curve_slope m c e x).
Proof.
  intros m c e x G. pose proof (vth_pos m c e G) as Hv. unfold curve, curve_slope.
  eapply (d_plus _ _ (fun v => gmin e * v)); [intro v; reflexivity| |].
  - destruct (Z.leb (mos_level m) 0); [apply d_spice; assumption|].
    destruct (Z.leb (mos_level m) 6); [apply d_mos16; assumption|apply d_mos78; assumption].
  - apply (derivable_pt_lim_ext (fun v => gmin e * v + 0)); [intro; ring|apply d_lin].
Qed.
Lemma curve_slope_pos : forall m c e x, good m c e -> 0 <= gmin e -> 0 < curve_slope m c e x.
Proof.
  intros m c e x G Hg. pose proof (vth_pos m c e G) as Hv. pose proof (sat_pos m c e G) as Hi. unfold curve_slope.
  match goal with |- 0 < ?a + _ => assert (0 < a); [|lra] end.
  destruct (Z.leb (mos_level m) 0); [apply spice_slope_pos; assumption|].
  assert (E : forall y, 0 < sat m c e * exp y / vth m e).
  { intro y. apply Rdiv_lt_0_compat; [|assumption]. apply Rmult_lt_0_compat; [assumption|apply exp_pos]. }
  destruct (Z.leb (mos_level m) 6); [unfold mos_slope16; destruct (Rle_dec x 0)|unfold mos_slope78; destruct (Rlt_dec x (1/2))]; try apply E.
  apply Rdiv_lt_0_compat; assumption.
Qed.
Lemma curve_0 : forall m c e, good m c e -> curve m c e 0 = 0.
Proof.
  intros m c e G. pose proof (vth_pos m c e G) as Hv. unfold curve.
  assert (L : law (sat m c e) (vth m e) 0 = 0). { unfold law, Rdiv. rewrite Rmult_0_l, exp_0. ring. }
  destruct (Z.leb (mos_level m) 0).
  - unfold spice_law. destruct (Rle_dec (-3 * vth m e) 0); lra.
  - destruct (Z.leb (mos_level m) 6); [unfold mos_law16; destruct (Rle_dec 0 0); lra|].
    unfold mos_law78. destruct (Rlt_dec 0 (1/2)); lra.
Qed.

Lemma spice_curve : forall ni b g vt isat v, 0 < vt -> -3 * vt <= v \/ b <> None \/ ni <= v ->
  spice_junction ni b g vt isat v = (spice_law isat vt v + g * v, spice_slope isat vt v + g).
Proof.
  intros ni b g vt isat v Hv H. unfold spice_junction, spice_law, spice_slope.
  destruct (Rle_dec (-3 * vt) v); [reflexivity|].
  replace (match b with Some _ => true | None => if Rle_dec ni v then true else false end) with true.
  - pose proof (exp_pos 1). f_equal; field; lra.
  - destruct b; [reflexivity|]. destruct (Rle_dec ni v); [reflexivity|]. exfalso. destruct H as [H|[H|H]]; [lra|congruence|lra].
Qed.
(* a current above zero is not from the reverse part *)
Lemma spice_positive : forall ni b g vt isat v, 0 < vt -> 0 < isat -> 0 <= g -> 0 < fst (spice_junction ni b g vt isat v) -> -3 * vt <= v.
Proof.
  intros ni b g vt isat v Hv Hi Hg H. destruct (Rle_dec (-3 * vt) v) as [L|L]; [exact L|exfalso].
  unfold spice_junction in H. destruct (Rle_dec (-3 * vt) v); [lra|].
  assert (Hx : v < 0) by lra. assert (g * v <= 0) by nra. pose proof (exp_pos 1) as He.
  revert H. destruct (match b with Some _ => true | None => if Rle_dec ni v then true else false end); cbn [fst]; intro H.
  - set (a := 3 * vt / (v * exp 1)) in *.
    assert (Ha : -1 < a < 0).
    { assert (a * (v * exp 1) = 3 * vt) by (unfold a; field; lra). assert (v * exp 1 < - 3 * vt).
      { assert (1 < exp 1) by (pose proof (exp_ineq1 1 ltac:(lra)); lra). nra. }
      split; nra. }
    assert (0 < 1 + a * a * a) by nra. nra.
  - pose proof (exp_pos (- (match b with Some x => x | None => ni end + v) / vt)). nra.
Qed.

Lemma style_eval : forall ni m c e old vold y v, good m c e -> style m e ->
  limit (vth m e) (sat m c e) vold (fx y) = Some v ->
  -3 * vth m e <= v \/ bv m <> None \/ ni <= v ->
  exists r, eval_Yj ni m c e old vold y = Some (r, Fp (fx y) (curve m c e v) (curve_slope m c e v)).
Proof.
  intros ni m c e old vold y v G St L B. unfold eval_Yj. change (flags m e) with (asked m e). rewrite (isat_sat m c e G), vt_vth. cbn [bind].
  pose proof (vth_pos m c e G) as Hv.
  assert (Es : (Z.ltb 0 (mos_level m) || Z.testbit (asked m e) 5)%bool = true).
  { destruct St as [(_ & E)|H]; [rewrite E; apply orb_true_r|]. assert (E : Z.ltb 0 (mos_level m) = true) by (apply Z.ltb_lt; lia). rewrite E. reflexivity. }
  rewrite Es, L. cbn [bind]. unfold curve, curve_slope.
  destruct St as [(H & E)|H].
  - assert (E1 : Z.ltb 0 (mos_level m) = false) by (apply Z.ltb_ge; exact H).
    assert (E2 : Z.leb (mos_level m) 0 = true) by (apply Z.leb_le; exact H). rewrite E1, E2, E.
    rewrite (spice_curve ni (bv m) (gmin e) _ _ v Hv B). eexists. reflexivity.
  - assert (E1 : Z.ltb 0 (mos_level m) = true) by (apply Z.ltb_lt; lia).
    assert (E2 : Z.leb (mos_level m) 0 = false) by (apply Z.leb_gt; lia). rewrite E1, E2.
    assert (E3 : Z.leb 1 (mos_level m) = true) by (apply Z.leb_le; lia).
    unfold mos_junction. rewrite E3. cbn [andb]. destruct (Z.leb (mos_level m) 6) eqn:E6.
    + unfold mos_law16, mos_slope16, law. destruct (Rle_dec v 0); cbn [fst snd]; eexists; do 3 f_equal; ring.
    + assert (E7 : Z.leb 7 (mos_level m) = true) by (apply Z.leb_gt in E6; apply Z.leb_le; lia).
      assert (E8 : Z.leb (mos_level m) 8 = true) by (apply Z.leb_le; lia). rewrite E7, E8. cbn [andb].
      unfold mos_law78, mos_slope78, law. destruct (Rlt_dec v (1/2)); cbn [fst snd]; eexists; do 3 f_equal; ring.
Qed.

Lemma limit_inactive : forall m c e vold x, good m c e -> x <= vcrit m c e \/ Rabs (x - vold) <= 2 * vth m e ->
  limit (vth m e) (sat m c e) vold x = Some x.
Proof.
  intros m c e vold x G H. pose proof (vth_pos m c e G) as Hv. pose proof (sat_pos m c e G) as Hi. pose proof sqrt2_pos as H2.
  unfold limit, flog. destruct (Rlt_dec 0 (vth m e / (sqrt 2 * sat m c e))) as [L|L].
  - cbn [bind]. fold (vcrit m c e). destruct (Rlt_dec (vcrit m c e) x); [|reflexivity].
    destruct (Rlt_dec (vth m e + vth m e) (Rabs (x - vold))); [|reflexivity]. lra.
  - exfalso. apply L. apply Rdiv_lt_0_compat; [assumption|]. apply Rmult_lt_0_compat; assumption.
Qed.
Lemma limit_active : forall m c e vold x, good m c e -> vcrit m c e < x -> 2 * vth m e < Rabs (x - vold) -> 0 < vold ->
  exists v, limit (vth m e) (sat m c e) vold x = Some v /\ v <> x.
Proof.
  intros m c e vold x G H1 H2 H3. pose proof (vth_pos m c e G) as Hv. pose proof (sat_pos m c e G) as Hi. pose proof sqrt2_pos as Hq.
  unfold limit, flog. destruct (Rlt_dec 0 (vth m e / (sqrt 2 * sat m c e))) as [L|L].
  2:{ exfalso. apply L. apply Rdiv_lt_0_compat; [assumption|]. apply Rmult_lt_0_compat; assumption. }
  cbn [bind]. fold (vcrit m c e). destruct (Rlt_dec (vcrit m c e) x); [|lra].
  destruct (Rlt_dec (vth m e + vth m e) (Rabs (x - vold))); [|lra]. destruct (Rlt_dec 0 vold); [|lra].
  destruct (Rlt_dec 0 (1 + (x - vold) / vth m e)) as [A|A].
  - cbn [bind]. eexists. split; [reflexivity|]. intro E.
    assert (N : 1 + (x - vold) / vth m e <> 1).
    { intro N. assert (x - vold = 0). { replace (x - vold) with ((x - vold) / vth m e * vth m e) by (field; lra). replace ((x - vold) / vth m e) with 0 by lra. ring. }
      rewrite H in H2. rewrite Rabs_R0 in H2. lra. }
    pose proof (ln_lt_minus _ A N) as Q.
    assert (vth m e * ln (1 + (x - vold) / vth m e) < vth m e * ((x - vold) / vth m e)) by (apply Rmult_lt_compat_l; lra).
    assert (vth m e * ((x - vold) / vth m e) = x - vold) by (field; lra). lra.
  - eexists. split; [reflexivity|]. lra.
Qed.

(* ---------------------------------------------------------------- capacitance *)
Definition textbook (cap pbv mjv v : R) : R := cap / Rpower (1 - v / pbv) mjv.
Definition dep_slope (cap fcv pbv mjv v : R) : R :=
  if Rlt_dec v (fcv * pbv) then cap * mjv / pbv * Rpower (1 - v / pbv) (- mjv - 1)
  else cap * mjv / pbv * Rpower (1 - fcv) (- mjv - 1).
Definition dep (cap fcv pbv mjv v : R) : R :=
  if Rlt_dec v (fcv * pbv) then textbook cap pbv mjv v
  else textbook cap pbv mjv (fcv * pbv) + dep_slope cap fcv pbv mjv (fcv * pbv) * (v - fcv * pbv).

Lemma frac_lt : forall v a b, 0 < b -> v < a * b -> v / b < a.
Proof.
  intros v a b Hb H. apply (Rmult_lt_reg_r b); [assumption|]. unfold Rdiv. rewrite Rmult_assoc, Rinv_l; lra.
Qed.
Lemma textbook_power : forall cap pbv mjv v, textbook cap pbv mjv v = cap * Rpower (1 - v / pbv) (- mjv).
Proof. intros. unfold textbook. rewrite Rpower_Ropp. reflexivity. Qed.

Lemma d_textbook : forall cap pbv mjv v, 0 < pbv -> v < pbv ->
  derivable_pt_lim (textbook cap pbv mjv) v (cap * mjv / pbv * Rpower (1 - v / pbv) (- mjv - 1)).
Proof.
  intros cap pbv mjv v Hp H.
  apply (derivable_pt_lim_ext (fun v => cap * Rpower (1 - v / pbv) (- mjv))); [intro; symmetry; apply textbook_power|].
  assert (0 < 1 - v / pbv). { pose proof (frac_lt v 1 pbv Hp ltac:(lra)). lra. }
  eapply d_eq. apply (derivable_pt_lim_scal (fun v => Rpower (1 - v / pbv) (- mjv))).
  apply (derivable_pt_lim_comp (fun v => 1 - v / pbv) (fun u => Rpower u (- mjv))).
  - apply (derivable_pt_lim_ext (fun v => (- / pbv) * v + 1)); [intro; field; lra|]. apply d_lin.
  - apply derivable_pt_lim_power. assumption.
  - field. lra.
Qed.

Lemma d_dep : forall cap fcv pbv mjv v, 0 < fcv < 1 -> 0 < pbv -> derivable_pt_lim (dep cap fcv pbv mjv) v (dep_slope cap fcv pbv mjv v).
Proof.
  intros cap fcv pbv mjv v Hf Hp. set (j := fcv * pbv). assert (Hj : j < pbv) by (unfold j; nra).
  assert (Ej : j / pbv = fcv) by (unfold j; field; lra).
  assert (Sj : dep_slope cap fcv pbv mjv j = cap * mjv / pbv * Rpower (1 - fcv) (- mjv - 1)).
  { unfold dep_slope. fold j. destruct (Rlt_dec j j); [lra|reflexivity]. }
  set (k := textbook cap pbv mjv j - dep_slope cap fcv pbv mjv j * j).
  assert (Right : forall y, j <= y -> dep cap fcv pbv mjv y = dep_slope cap fcv pbv mjv j * y + k).
  { intros y Hy. unfold dep. fold j. destruct (Rlt_dec y j); [lra|]. unfold k. ring. }
  unfold dep_slope at 1. fold j. destruct (Rlt_dec v j) as [L|L].
  - eapply (glue_left _ (textbook cap pbv mjv) j); [|exact L|apply d_textbook; lra].
    intros y Hy. unfold dep. fold j. destruct (Rlt_dec y j); [reflexivity|lra].
  - rewrite <- Sj. destruct (Rle_lt_or_eq_dec j v) as [L2|E]; [lra| |].
    + eapply (glue_right _ (fun y => dep_slope cap fcv pbv mjv j * y + k) j); [|exact L2|apply d_lin].
      intros y Hy. apply Right. lra.
    + subst v. eapply (glue _ (textbook cap pbv mjv) (fun y => dep_slope cap fcv pbv mjv j * y + k)).
      * intros y Hy. unfold dep. fold j. destruct (Rlt_dec y j); [reflexivity|lra].
      * intros y Hy. apply Right. lra.
      * rewrite Right by lra. unfold k. ring.
      * apply Right. lra.
      * eapply d_eq; [apply d_textbook; assumption|]. rewrite Sj, Ej. reflexivity.
      * apply d_lin.
Qed.
Lemma dep_slope_nonneg : forall cap fcv pbv mjv v, 0 <= cap -> 0 < pbv -> 0 <= mjv -> 0 <= dep_slope cap fcv pbv mjv v.
Proof.
  intros cap fcv pbv mjv v Hc Hp Hm. unfold dep_slope.
  assert (0 <= cap * mjv / pbv). { apply Rmult_le_pos; [nra|left; apply Rinv_0_lt_compat; assumption]. }
  destruct (Rlt_dec v (fcv * pbv)); (apply Rmult_le_pos; [assumption|left; apply exp_pos]).
Qed.
Lemma dep_nonneg : forall cap fcv pbv mjv v, 0 <= cap -> 0 < fcv < 1 -> 0 < pbv -> 0 <= mjv -> 0 <= dep cap fcv pbv mjv v.
Proof.
  intros cap fcv pbv mjv v Hc Hf Hp Hm.
  assert (T : forall y, 0 <= textbook cap pbv mjv y).
  { intro y. rewrite textbook_power. apply Rmult_le_pos; [assumption|left; apply exp_pos]. }
  unfold dep. destruct (Rlt_dec v (fcv * pbv)); [apply T|].
  pose proof (T (fcv * pbv)). pose proof (dep_slope_nonneg cap fcv pbv mjv (fcv * pbv) Hc Hp Hm).
  assert (0 <= dep_slope cap fcv pbv mjv (fcv * pbv) * (v - fcv * pbv)) by (apply Rmult_le_pos; lra). lra.
Qed.

Lemma depletion_dep : forall cap v fcv pbv mjv, 0 < fcv < 1 -> 0 < pbv ->
  depletion cap v fcv pbv mjv = Some (dep cap fcv pbv mjv v).
Proof.
  intros cap v fcv pbv mjv Hf Hp. unfold depletion.
  destruct (Req_EM_T cap 0) as [E|E].
  - subst cap. f_equal. unfold dep, textbook, dep_slope, Rdiv. destruct (Rlt_dec v (fcv * pbv)), (Rlt_dec (fcv * pbv) (fcv * pbv)); ring.
  - destruct (Rlt_dec v (fcv * pbv)) as [L|L].
    + unfold fpow. destruct (Rlt_dec 0 (1 - v / pbv)) as [Q|Q].
      * cbn [bind]. unfold dep. destruct (Rlt_dec v (fcv * pbv)); [reflexivity|lra].
      * exfalso. apply Q. pose proof (frac_lt v fcv pbv Hp L). lra.
    + unfold fpow. destruct (Rlt_dec 0 (1 - fcv)) as [Q|Q]; [|lra]. cbn [bind]. f_equal.
      unfold dep. destruct (Rlt_dec v (fcv * pbv)); [lra|]. unfold dep_slope. destruct (Rlt_dec (fcv * pbv) (fcv * pbv)); [lra|].
      rewrite textbook_power. replace (fcv * pbv / pbv) with fcv by (field; lra).
      replace (- mjv) with ((- mjv - 1) + 1) at 1 by ring. rewrite (Rpower_plus (- mjv - 1) 1 (1 - fcv)), Rpower_1 by exact Q.
      replace (- mjv - 1) with (- (1 + mjv)) by ring. rewrite Rpower_Ropp.
      assert (Rpower (1 - fcv) (1 + mjv) <> 0) by (apply Rgt_not_eq, exp_pos).
      field. split; try assumption; lra.
Qed.
