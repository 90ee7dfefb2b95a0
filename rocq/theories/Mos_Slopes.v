(* the slopes of the level 1 equation *)
Require Import Reals ZArith Bool Lra Lia Psatz.
Require Import Verif.Loops Verif.Mos_Model Verif.Mos_Proofs.
Local Open Scope R_scope.

(* ---- derivatives ---- *)
Lemma dlim_ext f g x l : (forall y, f y = g y) -> derivable_pt_lim f x l -> derivable_pt_lim g x l.
Proof. intros H D eps He. destruct (D eps He) as [de Hd]. exists de. intros h h0 hd. rewrite <- !H. apply Hd; assumption. Qed.
Lemma dlim_val f x l l' : l = l' -> derivable_pt_lim f x l -> derivable_pt_lim f x l'.
Proof. intros ->. auto. Qed.
Lemma dlim_local f g x l del : 0 < del -> (forall y, Rabs (y - x) < del -> f y = g y) -> derivable_pt_lim g x l -> derivable_pt_lim f x l.
Proof.
  intros Hd H D eps He. destruct (D eps He) as [de Hde].
  assert (Hm : 0 < Rmin de del) by (apply Rmin_pos; [apply cond_pos | assumption]).
  exists (mkposreal _ Hm). intros h h0 hd. simpl in hd.
  rewrite (H (x + h)); [|replace (x + h - x) with h by ring; eapply Rlt_le_trans; [apply hd | apply Rmin_r]].
  rewrite (H x); [|replace (x - x) with 0 by ring; rewrite Rabs_R0; assumption].
  apply Hde; [assumption|]. eapply Rlt_le_trans; [apply hd | apply Rmin_l].
Qed.
(* a function that is everywhere one of two that have the same tangent has it too *)
Lemma dlim_glue f a b x l : (forall y, f y = a y \/ f y = b y) -> a x = b x -> derivable_pt_lim a x l -> derivable_pt_lim b x l -> derivable_pt_lim f x l.
Proof.
  intros H E Da Db eps He. destruct (Da eps He) as [da Ha]. destruct (Db eps He) as [db Hb].
  assert (Hm : 0 < Rmin da db) by (apply Rmin_pos; apply cond_pos).
  exists (mkposreal _ Hm). intros h h0 hd. simpl in hd.
  assert (Hx : f x = a x) by (destruct (H x); congruence).
  destruct (H (x + h)) as [-> | ->]; rewrite Hx.
  - apply Ha; [assumption|]. eapply Rlt_le_trans; [apply hd | apply Rmin_l].
  - rewrite E. apply Hb; [assumption|]. eapply Rlt_le_trans; [apply hd | apply Rmin_r].
Qed.

Lemma sqpos_slope x : derivable_pt_lim sqpos x (2 * pos x).
Proof.
  unfold sqpos, pos. destruct (Rlt_dec 0 x) as [H|H].
  - apply (dlim_local _ (fun y => y * y) x _ x H).
    + intros y Hy. apply Rabs_def2 in Hy. destruct (Rlt_dec 0 y); [reflexivity | lra].
    + apply (dlim_val _ _ (1 * x + x * 1)); [ring|].
      apply (derivable_pt_lim_mult (fun y => y) (fun y => y)); apply derivable_pt_lim_id.
  - replace (2 * 0) with 0 by ring. destruct (Rlt_dec x 0) as [H1|H1].
    + apply (dlim_local _ (fun _ => 0) x _ (- x)); [lra| |apply derivable_pt_lim_const].
      intros y Hy. apply Rabs_def2 in Hy. destruct (Rlt_dec 0 y); lra.
    + assert (x = 0) by lra. subst x.
      apply (dlim_glue _ (fun y => y * y) (fun _ => 0)).
      * intros y. destruct (Rlt_dec 0 y); [left | right]; ring.
      * ring.
      * apply (dlim_val _ _ (1 * 0 + 0 * 1)); [ring|].
        apply (derivable_pt_lim_mult (fun y => y) (fun y => y)); apply derivable_pt_lim_id.
      * apply derivable_pt_lim_const.
Qed.

Lemma affine_slope a b x : derivable_pt_lim (fun h => a + h * b) x b.
Proof.
  apply (dlim_val _ _ (0 + (1 * b + x * 0))); [ring|].
  apply (derivable_pt_lim_plus (fun _ => a) (fun h => h * b)); [apply derivable_pt_lim_const|].
  apply (derivable_pt_lim_mult (fun h => h) (fun _ => b)); [apply derivable_pt_lim_id | apply derivable_pt_lim_const].
Qed.

Lemma threshold_slope m t a b : 0 < t_phi t - a ->
  derivable_pt_lim (fun h => threshold m t (a + h * b)) 0 (- (gamma m * (0.5 / sqrt (t_phi t - a))) * b).
Proof.
  intros H.
  assert (Hs : 0 < sqrt (t_phi t - a)) by (apply sqrt_lt_R0; assumption).
  assert (D1 : derivable_pt_lim (fun h => t_phi t - a + h * - b) 0 (- b)) by apply affine_slope.
  assert (D2 : derivable_pt_lim sqrt ((fun h => t_phi t - a + h * - b) 0) (/ (2 * sqrt (t_phi t - a)))).
  { cbv beta. replace (t_phi t - a + 0 * - b) with (t_phi t - a) by ring. apply derivable_pt_lim_sqrt. assumption. }
  assert (D3 := derivable_pt_lim_comp _ _ _ _ _ D1 D2).
  assert (D4 := derivable_pt_lim_scal _ (gamma m) _ _ D3).
  assert (D5 := derivable_pt_lim_plus (fun _ => vto m - gamma m * sqrt (phi m) + (egap m - t_egap t) / 2 + (t_phi t - phi m) / 2) _ 0 _ _
                  (derivable_pt_lim_const _ 0) D4).
  eapply dlim_val; [|eapply dlim_ext; [|exact D5]].
  - replace 0.5 with (/ 2) by lra. field. lra.
  - intros y. unfold threshold, plus_fct, mult_real_fct, comp.
    replace (t_phi t - (a + y * b)) with (t_phi t - a + y * - b) by ring. ring.
Qed.

(* the equation along a line *)
Lemma level1_slope m t ds gs bs ud ug ub : 0 < t_phi t - bs ->
  let gst := gs - threshold m t bs in
  let gm := t_beta t * (1 + lam m * ds) * (pos gst - pos (gst - ds)) in
  let gd := t_beta t / 2 * lam m * (sqpos gst - sqpos (gst - ds)) + t_beta t * (1 + lam m * ds) * pos (gst - ds) in
  let gmb := gm * (gamma m * (0.5 / sqrt (t_phi t - bs))) in
  derivable_pt_lim (fun h => level1 m t (ds + h * ud) (gs + h * ug) (bs + h * ub)) 0 (gd * ud + gm * ug + gmb * ub).
Proof.
  intros H gst gm gd gmb.
  set (k := gamma m * (0.5 / sqrt (t_phi t - bs))) in *.
  assert (Dt := threshold_slope m t bs ub H). fold k in Dt.
  assert (Dg : derivable_pt_lim (fun h => gs + h * ug - threshold m t (bs + h * ub)) 0 (ug - - k * ub)).
  { apply (derivable_pt_lim_minus (fun h => gs + h * ug) _ 0 _ _ (affine_slope gs ug 0) Dt). }
  assert (Dd : derivable_pt_lim (fun h => gs + h * ug - threshold m t (bs + h * ub) - (ds + h * ud)) 0 (ug - - k * ub - ud)).
  { apply (derivable_pt_lim_minus _ (fun h => ds + h * ud) 0 _ _ Dg (affine_slope ds ud 0)). }
  assert (G0 : gs + 0 * ug - threshold m t (bs + 0 * ub) = gst).
  { unfold gst. replace (bs + 0 * ub) with bs by ring. ring. }
  assert (Sg : derivable_pt_lim (comp sqpos (fun h => gs + h * ug - threshold m t (bs + h * ub))) 0 (2 * pos gst * (ug - - k * ub))).
  { apply derivable_pt_lim_comp; [exact Dg|]. rewrite G0. apply sqpos_slope. }
  assert (Sd : derivable_pt_lim (comp sqpos (fun h => gs + h * ug - threshold m t (bs + h * ub) - (ds + h * ud))) 0 (2 * pos (gst - ds) * (ug - - k * ub - ud))).
  { apply derivable_pt_lim_comp; [exact Dd|]. rewrite G0. replace (ds + 0 * ud) with ds by ring. apply sqpos_slope. }
  assert (S := derivable_pt_lim_minus _ _ _ _ _ Sg Sd).
  assert (P : derivable_pt_lim (fun h => t_beta t / 2 * (1 + lam m * ds) + h * (t_beta t / 2 * lam m * ud)) 0 (t_beta t / 2 * lam m * ud))
    by apply affine_slope.
  assert (M := derivable_pt_lim_mult _ _ _ _ _ P S).
  eapply dlim_val; [|eapply dlim_ext; [|exact M]].
  - unfold minus_fct, comp. rewrite G0. replace (ds + 0 * ud) with ds by ring. unfold gd, gmb, gm. field.
  - intros y. unfold mult_fct, minus_fct, comp, level1. field.
Qed.

(* nodes moved along a line *)
Definition move (n u : nodes) (h : R) : nodes := Nodes (nd n + h * nd u) (ng n + h * ng u) (ns n + h * ns u) (nb n + h * nb u).

Lemma Vds_move m n u h rv : Vds m (move n u h) rv = Vds m n rv + h * Vds m u rv.
Proof. unfold Vds, move. destruct rv; cbn; ring. Qed.
Lemma Vgs_move m n u h rv : Vgs m (move n u h) rv = Vgs m n rv + h * Vgs m u rv.
Proof. unfold Vgs, move. destruct rv; cbn; ring. Qed.
Lemma Vbs_move m n u h rv : Vbs m (move n u h) rv = Vbs m n rv + h * Vbs m u rv.
Proof. unfold Vbs, move. destruct rv; cbn; ring. Qed.

Definition orient (m : model) (rv : bool) : R := if rv then - sgn (polarity m) else sgn (polarity m).

(* the slope in one orientation *)
Definition side (m : model) (t : tdep) (n : nodes) (rv : bool) : R := orient m rv * level1 m t (Vds m n rv) (Vgs m n rv) (Vbs m n rv).
Definition side_slope (m : model) (t : tdep) (n u : nodes) (rv : bool) : R :=
  let gst := Vgs m n rv - threshold m t (Vbs m n rv) in
  let ds := Vds m n rv in
  let gm := t_beta t * (1 + lam m * ds) * (pos gst - pos (gst - ds)) in
  let gd := t_beta t / 2 * lam m * (sqpos gst - sqpos (gst - ds)) + t_beta t * (1 + lam m * ds) * pos (gst - ds) in
  let gmb := gm * (gamma m * (0.5 / sqrt (t_phi t - Vbs m n rv))) in
  orient m rv * (gd * Vds m u rv + gm * Vgs m u rv + gmb * Vbs m u rv).
Lemma side_has_slope m t n u rv : 0 < t_phi t - Vbs m n rv ->
  derivable_pt_lim (fun h => side m t (move n u h) rv) 0 (side_slope m t n u rv).
Proof.
  intros H. unfold side, side_slope.
  assert (D := level1_slope m t (Vds m n rv) (Vgs m n rv) _ (Vds m u rv) (Vgs m u rv) (Vbs m u rv) H).
  cbv zeta in D. assert (E := derivable_pt_lim_scal _ (orient m rv) _ _ D).
  eapply dlim_ext; [|exact E]. intros y. unfold mult_real_fct. rewrite Vds_move, Vgs_move, Vbs_move. reflexivity.
Qed.

Lemma drain_current_side m t n rv : 0 <= Vds m n rv -> drain_current m t n = side m t n rv.
Proof. intros H. unfold side, orient. apply drain_current_V. assumption. Qed.

(* the drain current is smooth, at the change of orientation too *)
Lemma drain_current_slope m t n u rv : 0 <= Vds m n rv -> 0 < t_phi t - Vbs m n rv ->
  derivable_pt_lim (fun h => drain_current m t (move n u h)) 0 (side_slope m t n u rv).
Proof.
  intros Hd Hb. destruct (Rle_lt_or_eq_dec _ _ Hd) as [Hd'|Hd'].
  - set (q := Rabs (Vds m u rv) + 1). assert (Hq : 0 < q) by (unfold q; assert (A := Rabs_pos (Vds m u rv)); lra).
    apply (dlim_local _ (fun h => side m t (move n u h) rv) 0 _ (Vds m n rv / q)).
    + apply Rdiv_lt_0_compat; assumption.
    + intros y Hy. rewrite Rminus_0_r in Hy. apply drain_current_side. rewrite Vds_move.
      assert (Hm : Rabs (y * Vds m u rv) <= Rabs y * q).
      { rewrite Rabs_mult. apply Rmult_le_compat_l; [apply Rabs_pos|]. unfold q. lra. }
      assert (Hn : Rabs y * q < Vds m n rv).
      { replace (Vds m n rv) with (Vds m n rv / q * q) by (field; lra). apply Rmult_lt_compat_r; assumption. }
      assert (Ha := Rle_abs (- (y * Vds m u rv))). rewrite Rabs_Ropp in Ha. lra.
    + apply side_has_slope. assumption.
  - destruct (Vneg m n rv) as (N1 & N2 & N3).
    apply (dlim_glue _ (fun h => side m t (move n u h) rv) (fun h => side m t (move n u h) (negb rv))).
    + intros y. destruct (Rle_dec 0 (Vds m (move n u y) rv)) as [Hy|Hy].
      * left. apply drain_current_side. assumption.
      * right. apply drain_current_side. rewrite (proj1 (Vneg m (move n u y) rv)). lra.
    + assert (A : 0 <= Vds m (move n u 0) rv) by (rewrite Vds_move; lra).
      rewrite <- (drain_current_side m t _ rv A).
      apply drain_current_side. rewrite (proj1 (Vneg m (move n u 0) rv)). rewrite Vds_move. lra.
    + apply side_has_slope. assumption.
    + assert (D : derivable_pt_lim (fun h => side m t (move n u h) (negb rv)) 0 (side_slope m t n u (negb rv))).
      { apply side_has_slope. rewrite N3. lra. }
      eapply dlim_val; [|exact D].
      destruct (Vneg m u rv) as (U1 & U2 & U3).
      unfold side_slope. rewrite N1, N2, N3, U1, U2, U3, <- Hd'. rewrite Ropp_0, !Rminus_0_r, Rmult_0_r, !Rplus_0_r.
      unfold orient. destruct rv; simpl negb; cbv iota; ring.
Qed.
